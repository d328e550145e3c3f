(** Specification of the reconstruction of two views. The first camera is at the origin; the second sees the point X at r X + t. *)
From stdpp Require Import prelude.
From Coq Require Import Reals Sorted.
From Verif Require Import Base Lin.
Local Open Scope R_scope.

Definition direction (x : vec) : vec := vscale (/ norm x) x.
(** The point [X] is seen by both cameras within [threshold] of the bearings [x1] and [x2]. *)
Definition agrees (r : mat) (t : vec) (threshold : R) (x1 x2 X : vec) : Prop :=
  let X2 := vadd (mvec r X) t in
  X <> v0 /\ X2 <> v0 /\ norm (vsub (direction X) x1) < threshold /\ norm (vsub (direction X2) x2) < threshold.
(** X is the middle of the shortest segment between the lines of sight of the bearings: from p on the first to q on the second. *)
Definition between_lines (r : mat) (t x1 x2 X : vec) : Prop :=
  exists a b, let p := vscale a x1 in let q := mvec (mT r) (vsub (vscale b x2) t) in
    X = vscale (1 / 2) (vadd p q) /\ dot (vsub p q) x1 = 0 /\ dot (vsub p q) (mvec (mT r) x2) = 0.
(** The square of the sine of the angle between the lines of sight *)
Definition parallax (r : mat) (x1 x2 : vec) : R := let c := cross x1 (mvec (mT r) x2) in dot c c.
Definition increasing (l : list nat) : Prop := StronglySorted lt l.
