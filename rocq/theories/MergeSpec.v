(** Specification of merging: which tracks belong together. *)
From stdpp Require Import prelude gmap strings.
From Verif Require Import Base TracksModel TracksSpec.

Section Spec.
Context {O : Type} (feature_of : O -> Z) (ms : list (tm O)).

(** Observation of shot [s] by track [t] of the [i]-th manager. *)
Definition input (i : nat) (s : shot_id) (t : track_id) : option O := ms !! i ≫= fun m => observed m s t.
(** Track [t] exists in the [i]-th manager. *)
Definition input_track (a : nat * track_id) : Prop := exists m, ms !! a.1 = Some m /\ is_Some (shots_per_track m !! a.2).
(** Two tracks observe the same feature of the same shot. *)
Definition share (a b : nat * track_id) : Prop :=
  exists s oa ob, input a.1 s a.2 = Some oa /\ input b.1 s b.2 = Some ob /\ feature_of oa = feature_of ob.
Inductive chain : nat * track_id -> nat * track_id -> Prop :=
  | chain_refl a : chain a a
  | chain_step a b c : share a b -> chain b c -> chain a c.
End Spec.
