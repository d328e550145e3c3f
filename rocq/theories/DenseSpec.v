(** What depth maps are meant to be: pinhole views, planes, weighted correlation, bilinear interpolation *)
From stdpp Require Import prelude.
From Coq Require Import Reals.
From Verif Require Import Lin.
Local Open Scope R_scope.

(** ** Views
    The pose (R, t) takes a point to the frame of a view; K takes that to pixels. A point is seen at the pixel (x, y), at a depth *)
Definition in_view (Rm : mat) (t X : vec) : vec := vadd (mvec Rm X) t.
Definition calibration (K : mat) : Prop := det K <> 0 /\ m31 K = 0 /\ m32 K = 0 /\ m33 K = 1.
Definition seen (K Rm : mat) (t X : vec) (x y depth : R) : Prop := mvec K (in_view Rm t X) = Vec (depth * x) (depth * y) depth.
(** The planes of a view are the vectors v, for the points with v . X = -1 in its frame *)
Definition on_plane (plane : vec) (Rm : mat) (t X : vec) : Prop := dot plane (in_view Rm t X) = -1.

(** ** Weighted samples (x, y, weight) *)
Fixpoint total (f : R * R * R -> R) (l : list (R * R * R)) : R := match l with [] => 0 | s :: l => f s + total f l end.
Definition weight_of (s : R * R * R) : R := s.2.
Definition mean (f : R * R * R -> R) (l : list (R * R * R)) : R := total (fun s => s.2 * f s) l / total weight_of l.
Definition covar (f g : R * R * R -> R) (l : list (R * R * R)) : R := mean (fun s => (f s - mean f l) * (g s - mean g l)) l.
Definition first_of (s : R * R * R) : R := s.1.1.
Definition second_of (s : R * R * R) : R := s.1.2.
Definition swap_sample (s : R * R * R) : R * R * R := (s.1.2, s.1.1, s.2).

(** ** Partial derivatives of a function of the plane *)
Definition partial_x (f : R -> R -> R) (x y d : R) : Prop := derivable_pt_lim (fun x => f x y) x d.
Definition partial_y (f : R -> R -> R) (x y d : R) : Prop := derivable_pt_lim (fun y => f x y) y d.

(** ** Agreement between depth maps: a view with an interpolated depth agrees about a point when it sees the point at about that depth *)
Definition agrees (interpolated : R -> R -> R) (K Rm : mat) (t X : vec) (threshold : R) : Prop :=
  exists x y d, seen K Rm t X x y d /\ / 10 ^ 8 <= d /\ Rabs (interpolated y x - d) < threshold * d.
(** at least [n] of the positions of a list have a property *)
Definition at_least {A} (n : nat) (P : A -> Prop) (l : list A) : Prop :=
  exists ks : list nat, NoDup ks /\ (n <= length ks)%nat /\ forall k, k ∈ ks -> exists a, l !! k = Some a /\ P a.
(** the pixel whose square holds a position *)
Definition pixel_at (x y : R) (i j : Z) : Prop := IZR j - 1 / 2 <= x < IZR j + 1 / 2 /\ IZR i - 1 / 2 <= y < IZR i + 1 / 2.
(** how finely a pixel of focal length f sees a plane at a depth: as the focal length and the cosine of the slant, and inversely as the depth *)
Definition resolution (f depth : R) (plane : vec) : R := f * (- vz plane / norm plane) / depth.
(** rows from the top, pixels from the left *)
Definition row_major (a b : Z * Z) : Prop := (a.1 < b.1 \/ a.1 = b.1 /\ a.2 < b.2)%Z.
