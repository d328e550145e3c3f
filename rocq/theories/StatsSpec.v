(** Specification of the statistics of reconstructions. *)
From stdpp Require Import prelude strings gmap.
From Coq Require Import Reals.
From Verif Require Import Base Lin RotModel PoseModel StatsModel.
Local Open Scope R_scope.

(** The lengths of the tracks of all points of all reconstructions *)
Definition lengths (track_length : string -> nat) (recs : list (list (string * nat))) : list nat := point_length track_length <$> concat recs.
Definition total (l : list nat) : nat := foldr Nat.add 0%nat l.
(** m is the mean of l *)
Definition is_mean (l : list R) (m : R) : Prop := l <> [] /\ INR (length l) * m = foldr Rplus 0 l.
(** How many of l are k *)
Definition occurrences (k : nat) (l : list nat) : nat := length (filter (fun x => x = k) l).
(** The errors of an observation that are counted: the length of the normalized error, in pixels and as an angle *)
Definition counted (s : shot_errors) : list (R * R * R) :=
  omap (fun e : (R * R) * ((R * R) * option R) =>
    let pixels := INR (max (se_width s) (se_height s)) * sqrt (e.2.1.1 * e.2.1.1 + e.2.1.2 * e.2.1.2) in
    match e.2.2 with Some a => if Rle_dec pixels 4 then Some (sqrt (e.1.1 * e.1.1 + e.1.2 * e.1.2), pixels, a) else None | None => None end)
    (zip (se_normalized s) (zip (se_pixel s) (se_angle s))).
(** The error of the position of a shot with GPS *)
Definition has_gps_error (biases : gmap string similarity) (shot : string * option vec * vec) (e : vec) : Prop :=
  exists g bias, shot.1.2 = Some g /\ biases !! shot.1.1 = Some bias /\ shot.2 = vadd (sim_transform bias g) e.
(** The steps with a report *)
Definition reported (r : option (option R * option (list R))) (t : R) : Prop :=
  exists w ws, r = Some (w, ws) /\ (w = Some t \/ w = None /\ exists l, ws = Some l /\ t = foldr Rplus 0 l).
(** m is the largest of l *)
Definition largest (l : list R) (m : R) : Prop := m ∈ l /\ forall x, x ∈ l -> x <= m.
Definition smallest (l : list R) (m : R) : Prop := m ∈ l /\ forall x, x ∈ l -> m <= x.
(** The observations of a shot on points of a reconstruction *)
Definition on_points (observations : string -> option (list string)) (r : gset string * list string) (s : string) : nat :=
  if decide (s ∈ r.2) then length (filter (fun p => p ∈ r.1) (default [] (observations s))) else 0%nat.
(** The shots with a GPS position, with the biases of their reconstructions; and reconstructions with biases for the cameras of all of these *)
Definition with_gps (recs : list (gmap string similarity * list (string * option vec * vec))) : list (gmap string similarity * (string * option vec * vec)) :=
  concat (map (fun r => map (pair r.1) (filter (fun s => is_Some s.1.2) r.2)) recs).
Definition covered (recs : list (gmap string similarity * list (string * option vec * vec))) : Prop :=
  Forall (fun r => Forall (fun s => s.1.2 = None \/ is_Some (r.1 !! s.1.1)) r.2) recs.
Definition has_time (r : option (option R * option (list R))) : bool := match r with Some (Some _, _) | Some (_, Some _) => true | _ => false end.
