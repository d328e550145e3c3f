(** What the neighbourhood of a shot should be. Nothing of the model is used. *)
From stdpp Require Import prelude gmap strings.
Open Scope nat_scope.

Section Spec.
Context (obs : gmap string (gset string)) (inst : gmap string string).

(** both shots belong to the same rig instance *)
Definition same_instance (x y : string) : Prop := exists i, inst !! x = Some i /\ inst !! y = Some i.
(** [lm] is observed by a shot of [s] *)
Definition seen_from (s : gset string) (lm : string) : Prop := exists x o, x ∈ s /\ obs !! x = Some o /\ lm ∈ o.
(** shot [x] observes at least [n] landmarks that are observed from [s] *)
Definition shares (s : gset string) (x : string) (n : nat) : Prop :=
  exists l : gset string, size l = n /\ forall lm, lm ∈ l -> seen_from s lm /\ seen_from {[x]} lm.
(** a neighbour of [s]: out of [s], shares at least [n] points with it, and at least one *)
Definition neighbour (n : nat) (s : gset string) (x : string) : Prop := x ∉ s /\ shares s x (n `max` 1).
(** the shots at distance [d] of [c] or less, counting in rig instances *)
Fixpoint within (n : nat) (c : string) (d : nat) (x : string) : Prop :=
  match d with
  | 0 => same_instance c x
  | S d => within n c d x \/ exists y s, (forall z, z ∈ s <-> within n c d z) /\ neighbour n s y /\ same_instance y x
  end.
End Spec.
