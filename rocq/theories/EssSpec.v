(** Specification of essential matrices and relative poses. *)
From stdpp Require Import prelude.
From Coq Require Import Reals.
From Verif Require Import Lin.
Local Open Scope R_scope.

(** The second camera sees the point X of the first one at R X + t. [essential R t] y = t x (R y) *)
Definition skew (t : vec) : mat := Mat 0 (- vz t) (vy t) (vz t) 0 (- vx t) (- vy t) (vx t) 0.
Definition essential (r : mat) (t : vec) : mat := mmul (skew t) r.
(** The point at depth d1 on the bearing b1 of the first camera is at depth d2 on the bearing b2 of the second one *)
Definition seen_by_both (r : mat) (t : vec) (s : vec * vec) (d1 d2 : R) : Prop := vadd (mvec r (vscale d1 s.1)) t = vscale d2 s.2.
Definition in_front_of_both (r : mat) (t : vec) (s : vec * vec) : Prop := exists d1 d2, 0 < d1 /\ 0 < d2 /\ seen_by_both r t s d1 d2.
(** The epipolar equation x2 . E x1 = 0 *)
Definition epipolar (E : mat) (s : vec * vec) : R := dot s.2 (mvec E s.1).
Fixpoint epipolar_error (E : mat) (l : list (vec * vec)) : R := match l with [] => 0 | s :: l => epipolar E s * epipolar E s + epipolar_error E l end.
(** The sum of the products of the entries *)
Definition inner (a b : mat) : R :=
  m11 a * m11 b + m12 a * m12 b + m13 a * m13 b + m21 a * m21 b + m22 a * m22 b + m23 a * m23 b + m31 a * m31 b + m32 a * m32 b + m33 a * m33 b.
Definition msub (a b : mat) : mat := madd a (mscale (-1) b).
(** The last two singular values and the last right singular vector of the matrix of the epipolar equations: the unit vector of least error, and the least
    error of the unit vectors orthogonal to it *)
Definition least_two (l : list (vec * vec)) (r : R * R * mat) : Prop :=
  let '(s8, s9, v) := r in
  0 <= s9 <= s8 /\ inner v v = 1 /\ epipolar_error v l = s9 * s9 /\ (forall w, inner w w = 1 -> s9 * s9 <= epipolar_error w l) /\
  (exists w, inner w w = 1 /\ inner v w = 0 /\ epipolar_error w l = s8 * s8) /\ (forall w, inner w w = 1 -> inner v w = 0 -> s8 * s8 <= epipolar_error w l).
