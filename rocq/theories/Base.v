(** Common vocabulary of the model: exceptions as values. *)
From stdpp Require Import prelude.

(** Exceptions raised by the modelled code. [Diverges] is not an exception of the code: it is the value returned by
    a fuelled loop that ran out of fuel, and every theorem that uses such a loop proves it is never returned. *)
Inductive exn : Type :=
  | KeyError | ValueError | IndexError | RuntimeError | TypeError | ZeroDivisionError | AssertionError | StopIteration
  | Diverges.

Global Instance exn_eq_dec : EqDecision exn.
Proof. solve_decision. Defined.

Inductive res (A : Type) : Type := Ok (a : A) | Err (e : exn).
Global Arguments Ok {A} a.
Global Arguments Err {A} e.

Definition res_bind {A B} (r : res A) (f : A -> res B) : res B :=
  match r with Ok a => f a | Err e => Err e end.

(** A lookup whose absence raises [e]. *)
Definition of_option {A} (e : exn) (o : option A) : res A :=
  match o with Some a => Ok a | None => Err e end.

Notation "'try' x := r 'in' k" := (res_bind r (fun x => k))
  (at level 200, x pattern, r at level 100, k at level 200, right associativity).

(** Iteration over a C++ [unordered_map] (or over a python [set]): some enumeration of the entries, each once, in an
    order that is not specified. Functions of the model that loop over such a container take the enumeration as an
    argument, and theorems hold for every one that satisfies this predicate. *)
From stdpp Require Import gmap.
Definition enumerates {K A} `{Countable K} (enum : gmap K A -> list (K * A)) : Prop :=
  forall m, enum m ≡ₚ map_to_list m.

Global Arguments bool_decide : simpl never.
Global Arguments decide : simpl never.
