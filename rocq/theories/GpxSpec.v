(** Specification of positions along a track. *)
From stdpp Require Import prelude.
From Coq Require Import Reals QArith Qreals Qcanon.
From Verif Require Import Lin GpxModel.
Local Open Scope R_scope.

(** The times do not go back *)
Definition in_order (points : list gpx_point) : Prop := forall i j p q, (i <= j)%nat -> points !! i = Some p -> points !! j = Some q -> g_time p <= g_time q.
(** Going from a to b at a constant rate, the value v is reached at the time t *)
Definition reached (ta va tb vb t v : R) : Prop := ta <= t <= tb /\ ta < tb /\ (tb - ta) * v = (tb - t) * va + (t - ta) * vb.
(** The position at the time t is on the way between two points *)
Definition on_way (a b : gpx_point) (t lat lon : R) : Prop := reached (g_time a) (g_lat a) (g_time b) (g_lat b) t lat /\ reached (g_time a) (g_lon a) (g_time b) (g_lon b) t lon.
(** A point of the segment between two points: the same fraction of the way in time, latitude, longitude and elevation *)
Definition mix (s x y : R) : R := (1 - s) * x + s * y.
Definition along (a b q : gpx_point) : Prop := exists s ea eb, 0 <= s <= 1 /\ g_ele a = Some ea /\ g_ele b = Some eb /\
  q = Gpx (mix s (g_time a) (g_time b)) (mix s (g_lat a) (g_lat b)) (mix s (g_lon a) (g_lon b)) (Some (mix s ea eb)).
(** A point between two points of the track that follow each other *)
Definition on_track (points : list gpx_point) (q : gpx_point) : Prop := exists i a b, points !! i = Some a /\ points !! S i = Some b /\ along a b q.
(** The unit vector to a place on a sphere, and the unit vectors to the north and to the east there, for angles in degrees *)
Definition deg (x : R) : R := x * PI / 180.
Definition place (lat lon : R) : vec := Vec (cos (deg lat) * cos (deg lon)) (cos (deg lat) * sin (deg lon)) (sin (deg lat)).
Definition north (lat lon : R) : vec := Vec (- sin (deg lat) * cos (deg lon)) (- sin (deg lat) * sin (deg lon)) (cos (deg lat)).
Definition east (lat lon : R) : vec := Vec (- sin (deg lon)) (cos (deg lon)) 0.
(** The direction, on the compass, in which the second place is seen from the first: 0 is north, 90 east *)
Definition heading (lat1 lon1 lat2 lon2 theta : R) : Prop := 0 <= theta < 360 /\
  exists rho, 0 <= rho /\ dot (place lat2 lon2) (north lat1 lon1) = rho * cos (deg theta) /\ dot (place lat2 lon2) (east lat1 lon1) = rho * sin (deg theta).
(** The number that a rational number is *)
Definition real (q : Qc) : R := Q2R (this q).
