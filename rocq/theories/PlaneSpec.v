(** Specification of motions that explain a homography of a plane. *)
From Coq Require Import Reals.
From Verif Require Import Lin.
Local Open Scope R_scope.

(** The columns of [m] are orthonormal (the factors of a singular value decomposition). *)
Definition orthogonal (m : mat) : Prop := mmul m (mT m) = mI.
Definition diagonal (a b c : R) : mat := Mat a 0 0 0 b 0 0 0 c.
(** The plane of the points X (in the coordinates of the first camera) with n . X + d = 0. The second camera is rotated by [r] and
    translated by [t]. The homography [h] gives the direction (here: scaled by d) in which the second camera sees each point of the plane. *)
Definition explains (h r : mat) (t n : vec) (d : R) : Prop :=
  rotation r /\ norm n = 1 /\ forall X, dot n X + d = 0 -> mvec h X = vscale d (vadd (mvec r X) t).
