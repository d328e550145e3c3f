(** Specification of the roots of polynomials and of the pose of a camera from three points. *)
From stdpp Require Import prelude.
From Coq Require Import Reals.
From Verif Require Import Lin Cpx.
Local Open Scope R_scope.

(** c4 x^4 + c3 x^3 + c2 x^2 + c1 x + c0, at a complex number and at a real one *)
Definition cpow (x : cpx) (n : nat) : cpx := Nat.iter n (cmul x) (cr 1).
Definition at_complex (c0 c1 c2 c3 c4 : R) (x : cpx) : cpx :=
  cadd (cadd (cadd (cadd (cmul (cr c4) (cpow x 4)) (cmul (cr c3) (cpow x 3))) (cmul (cr c2) (cpow x 2))) (cmul (cr c1) x)) (cr c0).
Definition at_real (c0 c1 c2 c3 c4 x : R) : R := c4 * x ^ 4 + c3 * x ^ 3 + c2 * x ^ 2 + c1 * x + c0.
(** a simple root: the derivative is not 0 *)
Definition simple_root (c0 c1 c2 c3 c4 x : R) : Prop := at_real c0 c1 c2 c3 c4 x = 0 /\ 4 * c4 * x ^ 3 + 3 * c3 * x ^ 2 + 2 * c2 * x + c1 <> 0.

(** The camera of pose (R, t) sees the point p in the direction b: R p + t is a positive multiple of b *)
Definition sees (r : mat) (t b p : vec) : Prop := exists depth, 0 < depth /\ vadd (mvec r p) t = vscale depth b.
(** The line of sight, without regard to the side *)
Definition on_line (r : mat) (t b p : vec) : Prop := exists depth, vadd (mvec r p) t = vscale depth b.
Definition unit (b : vec) : Prop := dot b b = 1.
