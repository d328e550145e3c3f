(** Specification of a union-find structure, independent of its implementation. *)
From stdpp Require Import prelude gmap.
From Verif Require Import UnionFindModel.

Section Spec.
Context {K : Type}.

(** [a] and [b] are two arguments of one [union] call of the history. *)
Definition united (h : list (uf_op K)) (a b : K) : Prop :=
  exists xs, OpUnion xs ∈ h /\ a ∈ xs /\ b ∈ xs.

(** Linked by a chain of union calls (the empty chain links each item to itself). *)
Inductive linked (h : list (uf_op K)) : K -> K -> Prop :=
  | linked_refl a : linked h a a
  | linked_step a b c : united h a b -> linked h b c -> linked h a c.

(** Items mentioned in the history. *)
Definition mentioned (h : list (uf_op K)) (a : K) : Prop :=
  exists o, o ∈ h /\ match o with OpFind x => x = a | OpUnion xs => a ∈ xs end.
End Spec.
