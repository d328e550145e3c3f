(** Independent vocabulary for the annotations of ground control points. *)
From stdpp Require Import prelude strings.
From Coq Require Import Reals.
From Verif Require Import Base JsonModel AnnotModel.

(** A point is under its own name, and no name is used twice *)
Definition consistent (m : manager) : Prop := NoDup (points m).*1 /\ forall id p, (id, p) ∈ points m -> point_id p = id.
(** The image [shot] has the observation [c] of the point *)
Definition observed (m : manager) (id shot : string) (c : coords) : Prop := exists p, (id, p) ∈ points m /\ Observation shot c ∈ observations p.
(** No point has two observations in an image *)
Definition observed_once (m : manager) : Prop := forall id p, (id, p) ∈ points m -> NoDup (image_id <$> observations p).
(** The points of a file that can be read have no two observations in an image *)
Definition file_once (file : option json) : Prop :=
  forall j d ps x p, file = Some j -> j = JObj d -> jget d "points" = Some (JList ps) -> x ∈ ps -> read_point x = Ok p -> NoDup (image_id <$> observations p).
Definition call_once (c : call) : Prop := match c with CLoad file => file_once file | _ => True end.
(** Fields that are numbers, strings or null *)
Definition scalar (j : json) : Prop := match j with JList _ | JObj _ => False | _ => True end.
Definition coords_fields (c : coords) : list json := match c with Coords2 x y p => [x; y; p] | Coords3 x y z p => [x; y; z; p] end.
Definition geodetic_fields (g : geodetic) : list json := [longitude g; latitude g; horizontal_std g; measured_at g; altitude g; vertical_std g].
Definition point_fields (p : control_point) : list json := mjoin ((fun o => coords_fields (measure o)) <$> observations p) ++ match geodetic_measurement p with Some g => geodetic_fields g | None => [] end.
Definition plain (m : manager) : Prop := forall id p, (id, p) ∈ points m -> Forall scalar (point_fields p).
(** [e] is an error of the point [id], which exists, in [shot] *)
Definition point_error (m : manager) (id shot : string) (e : R) : Prop := id ∈ (points m).*1 /\ exists l, (id, l) ∈ gcp_reprojections m /\ (shot, e) ∈ l.
