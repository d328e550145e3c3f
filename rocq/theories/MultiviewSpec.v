(** Independent vocabulary for camera matrices and homographies. *)
From stdpp Require Import prelude.
From Coq Require Import Reals.
From Verif Require Import Base Lin FitModel.
Local Open Scope R_scope.

(** A calibration matrix: upper triangular, with positive diagonal, 1 at the end *)
Definition upper (k : mat) : Prop := m21 k = 0 /\ m31 k = 0 /\ m32 k = 0.
Definition calibration (k : mat) : Prop := upper k /\ 0 < m11 k /\ 0 < m22 k /\ m33 k = 1.
(** What numpy.linalg.qr guarantees: an orthogonal matrix, of either determinant, times an upper triangular one, with any signs *)
Definition is_qr_of (a : mat) (factors : mat * mat) : Prop := mmul factors.1 (mT factors.1) = mI /\ upper factors.2 /\ mmul factors.1 factors.2 = a.
(** What numpy.linalg.svd guarantees of the last right singular vector: of the unit vectors it has the smallest image *)
Definition image2 (a : list (R * R)) (v : R * R) : R := foldr (fun r acc => (r.1 * v.1 + r.2 * v.2) * (r.1 * v.1 + r.2 * v.2) + acc) 0 a.
Definition is_last_singular (a : list (R * R)) (v : R * R) : Prop := v.1 * v.1 + v.2 * v.2 = 1 /\ forall w : R * R, w.1 * w.1 + w.2 * w.2 = 1 -> image2 a v <= image2 a w.
(** The homography, up to the scale k, between the images of a camera with focal length f1 and of one with f2, turned by R *)
Definition rotation_homography (k f1 f2 : R) (R : mat) : mat := mscale k (mmul (mmul (Mat f2 0 0 0 f2 0 0 0 1) R) (Mat (/ f1) 0 0 0 (/ f1) 0 0 0 1)).
