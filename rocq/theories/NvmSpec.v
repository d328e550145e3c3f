(** What an NVM file says (VisualSFM): a camera has a focal length in pixels, a unit quaternion (w, x, y, z) and a centre C; the coordinates
    of a point X in the camera are q (X - C) q*, x to the right, y down, z forward. A point has its views: camera index, feature, x, y. *)
From Coq Require Import Reals.
From stdpp Require Import prelude.
From Verif Require Import Lin NvmModel.
Local Open Scope R_scope.

Definition unit4 (q : vec4) : Prop := q0 q ^ 2 + q1 q ^ 2 + q2 q ^ 2 + q3 q ^ 2 = 1.
(** The product of quaternions, and the vector part of q v q* *)
Definition qmul (a b : vec4) : vec4 :=
  Vec4 (q0 a * q0 b - q1 a * q1 b - q2 a * q2 b - q3 a * q3 b)
       (q0 a * q1 b + q1 a * q0 b + q2 a * q3 b - q3 a * q2 b)
       (q0 a * q2 b - q1 a * q3 b + q2 a * q0 b + q3 a * q1 b)
       (q0 a * q3 b + q1 a * q2 b - q2 a * q1 b + q3 a * q0 b).
Definition conj (q : vec4) : vec4 := Vec4 (q0 q) (- q1 q) (- q2 q) (- q3 q).
Definition turn (q : vec4) (v : vec) : vec :=
  let r := qmul (qmul q (Vec4 0 (vx v) (vy v) (vz v))) (conj q) in Vec (q1 r) (q2 r) (q3 r).

(** The symmetric matrix with that lower triangle, applied to a vector *)
Definition sym_apply (k : lower4) (v : vec4) : vec4 :=
  Vec4 (l00 k * q0 v + l10 k * q1 v + l20 k * q2 v + l30 k * q3 v)
       (l10 k * q0 v + l11 k * q1 v + l21 k * q2 v + l31 k * q3 v)
       (l20 k * q0 v + l21 k * q1 v + l22 k * q2 v + l32 k * q3 v)
       (l30 k * q0 v + l31 k * q1 v + l32 k * q2 v + l33 k * q3 v).
Definition eigenpair (k : lower4) (w : R) (v : vec4) : Prop :=
  sym_apply k v = Vec4 (w * q0 v) (w * q1 v) (w * q2 v) (w * q3 v).
(** A routine that returns unit eigenvectors with their eigenvalues, for all the eigenvalues (numpy.linalg.eigh) *)
Definition diagonalises (eigh : lower4 -> list (R * vec4)) (k : lower4) : Prop :=
  (forall w v, (w, v) ∈ eigh k -> unit4 v /\ eigenpair k w v) /\
  (forall w v, unit4 v -> eigenpair k w v -> w ∈ (eigh k).*1).
