(** Moving a scene by x |-> A x + b: a camera sees the moved points as it saw the points. *)
From stdpp Require Import prelude.
From Coq Require Import Reals.
From Verif Require Import Lin PoseModel.
Local Open Scope R_scope.

Definition moved (A : mat) (b : vec) (X : vec) : vec := vadd (mvec A X) b.
Definition sees_alike (A : mat) (b : vec) (p p' : pose) : Prop := forall X, transform p' (moved A b X) = transform p X.
