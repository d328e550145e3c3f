(** What it is for a matrix to be the derivative of a function of several variables. *)
From stdpp Require Import prelude.
From Coq Require Import Reals.
Local Open Scope R_scope.

(** A point that moves: one function of time per coordinate; where it is at time t; its velocity there *)
Definition at_time (xs : list (R -> R)) (t : R) : list R := map (fun f => f t) xs.
Definition velocity (xs : list (R -> R)) (t : R) (dxs : list R) : Prop := Forall2 (fun f d => derivable_pt_lim f t d) xs dxs.
Fixpoint scalar_product (u v : list R) : R := match u, v with a :: u', b :: v' => a * b + scalar_product u' v' | _, _ => 0 end.
(** Row i of a matrix of rows of length n stored row by row *)
Definition row (n i : nat) (J : list R) : list R := take n (drop (i * n) J).
(** The m x n matrix J is the derivative of F : R^n -> R^m at x: whatever the way a point moves through x, its image moves with
    J times its velocity. *)
Definition derivative_at (n m : nat) (F : list R -> list R) (x J : list R) : Prop :=
  length J = (m * n)%nat /\
  forall xs t dxs, length xs = n -> at_time xs t = x -> velocity xs t dxs ->
  forall i, (i < m)%nat -> derivable_pt_lim (fun s => nth i (F (at_time xs s)) 0) t (scalar_product (row n i J) dxs).
