(** Specification vocabulary for the selection of pairs. *)
From stdpp Require Import prelude gmap strings sorting.
From Verif Require Import Base.

(** [out] lists each pair of [sel] that touches [refs] exactly once, from an image of [refs], and nothing else. *)
Record orients (out sel : gset (string * string)) (refs : list string) : Prop := {
  or_from_ref : forall a b, (a, b) ∈ out -> a ∈ refs;
  or_selected : forall a b, (a, b) ∈ out -> (a, b) ∈ sel \/ (b, a) ∈ sel;
  or_once : forall a b, (a, b) ∈ out -> (b, a) ∈ out -> a = b;
  or_all : forall a b, (a, b) ∈ sel -> a ∈ refs \/ b ∈ refs -> (a, b) ∈ out \/ (b, a) ∈ out }.

(** A pair of distinct images, one of the references and one of the candidates. *)
Definition crosses (refs cands : list string) (p : string * string) : Prop :=
  p.1 <> p.2 /\ (p.1 ∈ refs /\ p.2 ∈ cands \/ p.2 ∈ refs /\ p.1 ∈ cands).

(** [set.pop] returns an element of the set *)
Definition picks (pick : nat -> gset string -> string) : Prop := forall n s, s <> ∅ -> pick n s ∈ s.

Section Order.
Context {D : Type} (le : D -> D -> Prop).
Definition total_preorder : Prop := (forall a, le a a) /\ (forall a b c, le a b -> le b c -> le a c) /\ (forall a b, le a b \/ le b a).
(** Nearest neighbour queries: [nn] indices padded with [length pts], the hits are distinct points nearer than [bound], and
    a point nearer than [bound] is only missed if all [nn] hits are at least as near. *)
Definition answers {Pt} (dist : Pt -> Pt -> D) (pts : list Pt) (p : Pt) (nn : nat) (bound : D) (res : list nat) : Prop :=
  exists hits, res = hits ++ replicate (nn - length hits) (length pts) /\ length hits <= nn /\ NoDup hits /\
    (forall j, j ∈ hits -> exists q, pts !! j = Some q /\ ~ le bound (dist p q)) /\
    (forall j q, pts !! j = Some q -> ~ le bound (dist p q) -> j ∉ hits ->
       length hits = nn /\ forall i qi, i ∈ hits -> pts !! i = Some qi -> le (dist p qi) (dist p q)).
Definition nearest_query {Pt} (dist : Pt -> Pt -> D) (query : list Pt -> Pt -> nat -> D -> list nat) : Prop :=
  forall pts p nn bound, answers dist pts p nn bound (query pts p nn bound).
(** np.argsort: a permutation of the indices that sorts the values. *)
Definition sorts (argsort : list D -> list nat) : Prop :=
  forall ds, argsort ds ≡ₚ seq 0 (length ds) /\
    forall i j a b x y, i < j -> argsort ds !! i = Some a -> argsort ds !! j = Some b -> ds !! a = Some x -> ds !! b = Some y -> le x y.
End Order.

(** [sel] are the (at most) [n] nearest members of [class], for the distance [d]. *)
Record n_nearest {D} (le : D -> D -> Prop) (d : string -> D) (n : nat) (class sel : list string) : Prop := {
  nn_nodup : NoDup sel;
  nn_sub : forall x, x ∈ sel -> x ∈ class;
  nn_count : length sel <= n;
  nn_near : forall x, x ∈ class -> x ∉ sel -> length sel = n /\ forall y, y ∈ sel -> le (d y) (d x) }.

(** [c] is another image than [r], nearer than [bound]. *)
Definition other_within {D Pt} (le : D -> D -> Prop) (dist : Pt -> Pt -> D) (pos : string -> Pt) (bound : D) (r c : string) : Prop :=
  c <> r /\ ~ le bound (dist (pos r) (pos c)).
Global Instance other_within_dec {D Pt} (le : D -> D -> Prop) `{!RelDecision le} (dist : Pt -> Pt -> D) pos bound r c : Decision (other_within le dist pos bound r c).
Proof. unfold other_within. apply _. Defined.
