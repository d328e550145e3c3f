(** What matching should do, independently of the code. *)
From stdpp Require Import prelude list gmap strings.

(** Distances: [le] orders them, and [below a b], the ratio test, is monotone in [b] and implies [a] strictly smaller than [b].
    This is so for a ratio between 0 and 1, also when the product is rounded, since rounding is monotone. *)
Record distances {D} (le : D -> D -> Prop) (below : D -> D -> bool) : Prop := {
  dist_trans : forall a b c, le a b -> le b c -> le a c;
  dist_total : forall a b, le a b \/ le b a;
  below_mono : forall a b c, below a b = true -> le b c -> below a c = true;
  below_less : forall a b, below a b = true -> ~ le b a }.

(** [j] passes the ratio test among the [allowed] features at distances [d]: there is another one, and [j] is below all others. *)
Definition passes {D} (below : D -> D -> bool) (d : nat -> D) (allowed : nat -> Prop) (j : nat) : Prop :=
  allowed j /\ (exists j', j' <> j /\ allowed j') /\ forall j', j' <> j -> allowed j' -> below (d j) (d j') = true.

(** No feature is in two matches *)
Definition one_to_one (l : list (nat * nat)) : Prop :=
  (forall i j j', (i, j) ∈ l -> (i, j') ∈ l -> j = j') /\ (forall i i' j, (i, j) ∈ l -> (i', j) ∈ l -> i = i') /\ NoDup l.

(** The features of the second image met when looking up the words of one feature: all features of its first word, of the
    second one, and so on until at least [max_checks] features were met (or words run out). *)
Definition with_word (w2 : list nat) (w : nat) : list nat := filter (fun j => w2 !! j = Some w) (seq 0 (length w2)).
Definition looked_up (w2 : list nat) (max_checks : Z) (words : list nat) (V : list nat) : Prop :=
  exists k, k <= length words /\ V = mjoin (map (with_word w2) (take k words)) /\
    (k = length words \/ 0 < k /\ (max_checks <= Z.of_nat (length V))%Z) /\
    forall k', 0 < k' -> k' < k -> (Z.of_nat (length (mjoin (map (with_word w2) (take k' words)))) < max_checks)%Z.

(** [j] stands at some position of [V] and is below the features at all other positions *)
Definition best_of {D} (below : D -> D -> bool) (d : nat -> D) (V : list nat) (j : nat) : Prop :=
  exists p, V !! p = Some j /\ forall q j', q <> p -> V !! q = Some j' -> below (d j) (d j') = true.

(** [a] is the position, in the list of all features, of the [i]-th unmasked feature *)
Definition unmasked_position (mask : list bool) (i a : nat) : Prop :=
  mask !! a = Some true /\ length (filter (fun b => b = true) (take a mask)) = i.
