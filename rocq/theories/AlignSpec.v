(** Specification of the alignment of a reconstruction to positions of the world. *)
From stdpp Require Import prelude gmap strings.
From Coq Require Import Reals.
From Verif Require Import Lin MapModel PoseModel AnglesSpec FitSpec.
Local Open Scope R_scope.

(** The root of the mean squared distance of points to their centroid *)
Definition deviation (l : list vec) : R := sqrt (/ INR (length l) * scatter l).
(** What the sorted eigenvalues of a symmetric matrix are *)
Definition orthonormal (a b c : vec) : Prop := dot a a = 1 /\ dot b b = 1 /\ dot c c = 1 /\ dot a b = 0 /\ dot b c = 0 /\ dot a c = 0.
Definition sorted_eigenvalues (m : mat) (e : R * R * R) : Prop :=
  let '(e0, e1, e2) := e in e0 <= e1 <= e2 /\
  exists a b c, orthonormal a b c /\ mvec m a = vscale e0 a /\ mvec m b = vscale e1 b /\ mvec m c = vscale e2 c.
(** sum over the points p of (p - centroid) (p - centroid)^T *)
Definition scatter_matrix (l : list vec) : mat := foldr (fun p m => madd (let q := vsub p (centroid l) in Mat (vx q * vx q) (vx q * vy q) (vx q * vz q)
  (vy q * vx q) (vy q * vy q) (vy q * vz q) (vz q * vx q) (vz q * vy q) (vz q * vz q)) m) (Mat 0 0 0 0 0 0 0 0 0) l.

(** The eigenvector of A^T A with the smallest eigenvalue: a unit vector p with the least |A p|; the rows of A and p are a vector and a last entry *)
Definition product (row p : vec * R) : R := dot row.1 p.1 + row.2 * p.2.
Definition squared_product (rows : list (vec * R)) (p : vec * R) : R := foldr (fun row r => product row p * product row p + r) 0 rows.
Definition unit4 (p : vec * R) : Prop := dot p.1 p.1 + p.2 * p.2 = 1.
Definition smallest_eigenvector (rows : list (vec * R)) (p : vec * R) : Prop :=
  unit4 p /\ forall q, unit4 q -> squared_product rows p <= squared_product rows q.

(** The directions of the upright picture in the world. The rows of the rotation (from world to camera) are the directions of the columns
    (left to right) and of the rows (top to bottom) of the stored pixels, and the viewing direction. *)
Definition toward_right (first_row first_column : side) (along_rows along_columns : vec) : vec :=
  match first_row, first_column with
  | Left_, _ => along_columns            (* the rows go from left to right: so does the second coordinate *)
  | Right_, _ => vopp along_columns
  | _, Left_ => along_rows
  | _, Right_ => vopp along_rows
  | _, _ => v0
  end.
Definition toward_bottom (first_row first_column : side) (along_rows along_columns : vec) : vec :=
  match first_row, first_column with
  | Top, _ => along_columns
  | Bottom, _ => vopp along_columns
  | _, Top => along_rows
  | _, Bottom => vopp along_rows
  | _, _ => v0
  end.

(** ** The positions a reconstruction is aligned to *)
Section Positions.
Context {C B D X O Rf : Type}.
Notation map := (@map C B pose vec D X O Rf).
Variable gps : D -> option vec.
(** [l] are the GPS positions of the shots of a rig instance that have one, each once *)
Definition gps_of_shot (m : map) (i : instance pose) (id : string) (p : vec) : Prop :=
  exists kind rc s, in_members i !! id = Some (kind, rc) /\ m_shots m !! (kind, id) = Some s /\ gps (sh_data s) = Some p.
Definition gps_of_instance (m : map) (i : instance pose) (l : list vec) : Prop :=
  exists ids, NoDup ids /\ Forall2 (gps_of_shot m i) ids l /\ forall id p, gps_of_shot m i id p -> id ∈ ids.
End Positions.

(** ** What is known of the vertical *)
(** the direction to the right and to the bottom of the picture taken by a camera of rotation [r] (from world to camera), as the EXIF orientation says;
    an unknown orientation is as 1 *)
Definition axis1 (r : mat) : vec := Vec (m11 r) (m12 r) (m13 r).
Definition axis2 (r : mat) : vec := Vec (m21 r) (m22 r) (m23 r).
Definition viewing (r : mat) : vec := Vec (m31 r) (m32 r) (m33 r).
Definition picture_right (r : mat) (o : Z) : vec := let '(a, b) := default (Top, Left_) (exif_sides o) in toward_right a b (axis1 r) (axis2 r).
Definition picture_bottom (r : mat) (o : Z) : vec := let '(a, b) := default (Top, Left_) (exif_sides o) in toward_bottom a b (axis1 r) (axis2 r).
(** what align_orientation_prior means for a picture when [up] is the vertical *)
Definition no_roll (up : vec) (r : mat) (o : Z) : Prop := dot (picture_right r o) up = 0 /\ dot (picture_bottom r o) up < 0.
Definition looks_horizontally (up : vec) (r : mat) (o : Z) : Prop := no_roll up r o /\ dot (viewing r) up = 0.
Definition looks_down (up : vec) (r : mat) (o : Z) : Prop := dot (picture_right r o) up = 0 /\ dot (picture_bottom r o) up = 0 /\ dot (viewing r) up < 0.
Definition prior_holds (prior : string) (up : vec) (r : mat) (o : Z) : Prop :=
  if decide (prior = "no_roll"%string) then no_roll up r o
  else if decide (prior = "horizontal"%string) then looks_horizontally up r o
  else if decide (prior = "vertical"%string) then looks_down up r o /\ o ∉ [2; 5; 7]%Z
  else False.
(** the directions that are horizontal according to it *)
Definition horizontals (prior : string) (r : mat) (o : Z) : list vec :=
  if decide (prior = "no_roll"%string) then [picture_right r o]
  else if decide (prior = "horizontal"%string) then [picture_right r o; viewing r]
  else [picture_right r o; picture_bottom r o].
(** [photo] are the origin, the rotation and the orientation tag of the pictures: the directions between them are horizontal, as those the prior says;
    two of those are not parallel; and there is a tag *)
Definition known_level (photo : vec * mat * option Z -> Prop) (prior : string) (v : vec) : Prop :=
  (exists p q, photo p /\ photo q /\ v = vsub p.1.1 q.1.1) \/ (exists o r t, photo (o, r, Some t) /\ v ∈ horizontals prior r t).
Definition levelled (photo : vec * mat * option Z -> Prop) (prior : string) (up : vec) : Prop :=
  dot up up = 1 /\ (forall p q, photo p -> photo q -> dot p.1.1 up = dot q.1.1 up) /\ (forall o r t, photo (o, r, Some t) -> prior_holds prior up r t) /\
  (exists o r t, photo (o, r, Some t)) /\ exists v w, known_level photo prior v /\ known_level photo prior w /\ cross v w <> v0.
