(** Specification of the vectors that images are compared by. *)
From stdpp Require Import prelude.
From Coq Require Import Reals.
From Verif Require Import VladModel.
Local Open Scope R_scope.

Definition well_formed (m : matrix) : Prop := forall r, r ∈ m_rows m -> length r = m_cols m.
(** The d-th component, 0 beyond the end *)
Definition component (v : list R) (d : nat) : R := nth d v 0.
(** The sum of n numbers *)
Fixpoint sum_to (n : nat) (f : nat -> R) : R := match n with O => 0 | S n => sum_to n f + f n end.
(** The square of the distance between points with n coordinates *)
Definition distance2 (n : nat) (u v : list R) : R := sum_to n (fun d => (component u d - component v d) ^ 2).
(** The j-th center is the first of the nearest ones *)
Definition nearest (centers : matrix) (f : list R) (j : nat) : Prop := exists c, m_rows centers !! j = Some c /\
  forall k c', m_rows centers !! k = Some c' -> distance2 (m_cols centers) f c <= distance2 (m_cols centers) f c' /\ ((k < j)%nat -> distance2 (m_cols centers) f c < distance2 (m_cols centers) f c').
(** s is the sum of the d-th components of what is left of the features of which the j-th center is the nearest *)
Inductive residual (centers : matrix) (j d : nat) : list (list R) -> R -> Prop :=
  | residual_nil : residual centers j d [] 0
  | residual_near f fs c s : nearest centers f j -> m_rows centers !! j = Some c -> residual centers j d fs s -> residual centers j d (f :: fs) (component f d - component c d + s)
  | residual_far f fs s : ~ nearest centers f j -> residual centers j d fs s -> residual centers j d (f :: fs) s.
(** A vector of length 1 *)
Definition unit_length (v : list R) : Prop := sum_to (length v) (fun d => component v d ^ 2) = 1.
