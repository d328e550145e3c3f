(** C51: the neighbourhood of a shot. *)
From stdpp Require Import prelude gmap strings sorting.
From Verif Require Import Base NeighModel NeighSpec NeighProofs.
Open Scope nat_scope.

Section C51.
(** any map, with all shots that observe something in a rig instance; any order of iteration; any descending sort *)
Context (obs : gmap string (gset string)) (inst : gmap string string) (Hdom : dom obs ⊆ dom inst).
Context (enum : gset string -> list string) (Henum : forall s, enum s ≡ₚ elements s).
Context (sort_counts : gmap string nat -> list (string * nat)) (Hsort : sorts sort_counts).
Notation run := (shot_neighborhood obs inst enum sort_counts).

Lemma run_ok c radius min_common max_interior : c ∈ dom inst -> exists interior boundary chosen,
  run c radius min_common max_interior = Ok (interior, boundary) /\ c ∈ interior /\ whole inst interior /\
  (forall x, x ∈ interior -> within obs inst min_common c (radius - 1) x) /\
  (size interior < max_interior -> forall x, within obs inst min_common c (radius - 1) x -> x ∈ interior) /\
  ((forall x y, same_instance inst x y -> x = y) -> size interior <= 1 `max` max_interior) /\
  (forall x, x ∈ boundary <-> exists y, y ∈ (chosen : gset string) /\ same_instance inst y x) /\
  (forall y, y ∈ chosen -> neighbour obs 1 interior y) /\ (forall y, neighbour obs 1 interior y -> y ∉ chosen -> size chosen = MaxBoundarySize).
Proof.
  intros Hc. apply elem_of_dom in Hc as [i Hi]. unfold shot_neighborhood. rewrite Hi. cbn [of_option res_bind].
  assert (forall x, x ∈ members inst i ∪ {[c]} <-> same_instance inst c x) as Hm.
  { intros x. rewrite elem_of_union, elem_of_members, elem_of_singleton. split.
    - intros [H| ->]; by exists i.
    - intros (j & Hj & Hx). left. congruence. }
  destruct (grow_ok obs inst Hdom enum Henum sort_counts Hsort min_common max_interior c (radius - 1) 0 (members inst i ∪ {[c]})) as (interior & -> & H1 & H2 & H3 & H4 & H5).
  - intros x y Hx Hs. apply Hm in Hx. apply Hm. by eapply same_trans.
  - intros x Hx. by apply Hm.
  - intros _ x Hx. by apply Hm.
  - cbn [res_bind]. destruct (direct_ok obs inst Hdom enum Henum sort_counts Hsort interior 1 MaxBoundarySize) as (boundary & chosen & -> & D1 & D2 & D3 & D4).
    cbn [res_bind]. exists interior, boundary, chosen. split; [done|]. split; [set_solver|]. split; [done|]. split; [done|]. split; [done|]. split; [|split; [done|split; [done|]]].
    + intros Hs. specialize (H5 Hs). assert (size (members inst i ∪ {[c]}) <= 1); [|lia].
      assert (members inst i ∪ {[c]} ⊆ {[c]}) as Hsub. { intros x Hx. apply Hm in Hx. apply Hs in Hx. set_solver. }
      apply subseteq_size in Hsub. by rewrite size_singleton in Hsub.
    + intros y Hy Hn. by destruct (D4 y y Hy Hn).
Qed.

(** A shot that is not in the map is refused, and no other error is possible. *)
Theorem C51_defined c radius min_common max_interior :
  match run c radius min_common max_interior with Ok _ => c ∈ dom inst | Err e => e = RuntimeError /\ c ∉ dom inst end.
Proof.
  destruct (decide (c ∈ dom inst)) as [Hc|Hc].
  - destruct (run_ok c radius min_common max_interior Hc) as (a & b & ? & -> & _). done.
  - unfold shot_neighborhood. apply not_elem_of_dom in Hc as E. by rewrite E.
Qed.

(** The interior contains the shot, and interior and boundary are disjoint unions of whole rig instances: a local
    adjustment that moves the interior and keeps the boundary fixed never has to do both with one instance. *)
Theorem C51_interior_boundary c radius min_common max_interior interior boundary : run c radius min_common max_interior = Ok (interior, boundary) ->
  c ∈ interior /\ interior ## boundary /\
  (forall x y, same_instance inst x y -> (x ∈ interior -> y ∈ interior) /\ (x ∈ boundary -> y ∈ boundary)).
Proof.
  intros E. pose proof (C51_defined c radius min_common max_interior) as Hc. rewrite E in Hc.
  destruct (run_ok c radius min_common max_interior Hc) as (a & b & chosen & E' & H1 & H2 & _ & _ & _ & H6 & H7 & _).
  rewrite E in E'. injection E' as <- <-. split; [done|]. split.
  - intros x Hx Hb. apply H6 in Hb as (y & Hy & Hs). destruct (H7 y Hy) as [Hno _]. apply Hno. eapply H2; [exact Hx|]. by apply same_sym.
  - intros x y Hs. split; [intros Hx; by eapply H2|]. intros Hx. apply H6 in Hx as (z & Hz & Hs'). apply H6. exists z. split; [done|]. by eapply same_trans.
Qed.

(** The boundary is made of the rig instances that share a point with the interior: of all of them, when there are at most a
    million shots. *)
Theorem C51_boundary c radius min_common max_interior interior boundary x : run c radius min_common max_interior = Ok (interior, boundary) ->
  size (dom inst) <= MaxBoundarySize ->
  x ∈ boundary <-> x ∉ interior /\ exists y lm, same_instance inst x y /\ seen_from obs interior lm /\ seen_from obs {[y]} lm.
Proof.
  intros E Hsz. pose proof (C51_defined c radius min_common max_interior) as Hc. rewrite E in Hc.
  destruct (C51_interior_boundary c radius min_common max_interior interior boundary E) as (_ & Hd & Hw).
  destruct (run_ok c radius min_common max_interior Hc) as (a & b & chosen & E' & _ & _ & _ & _ & _ & H6 & H7 & H8).
  rewrite E in E'. injection E' as <- <-. split.
  - intros Hx. split; [set_solver|]. apply H6 in Hx as (y & Hy & Hs). destruct (H7 y Hy) as [_ (l & Hl & Hl')].
    assert (l <> ∅) as Hne. { intros ->. rewrite size_empty in Hl. lia. } apply set_choose_L in Hne as [lm Hlm].
    exists y, lm. split; [by apply same_sym|]. by apply Hl'.
  - intros (Hx & y & lm & Hs & H1 & H2). apply H6. exists y. split; [|by apply same_sym].
    assert (y ∉ interior) as Hy. { intros Hy. apply Hx. eapply Hw; [|exact Hy]. by apply same_sym. }
    assert (neighbour obs 1 interior y) as Hn. { split; [done|]. exists {[lm]}. split; [by rewrite size_singleton|]. intros lm' ->%elem_of_singleton. done. }
    destruct (decide (y ∈ chosen)) as [|Hno]; [done|]. exfalso. specialize (H8 y Hn Hno).
    assert (size ({[y]} ∪ chosen) <= size (dom inst)) as Hle.
    { apply subseteq_size. intros z [->%elem_of_singleton|Hz]%elem_of_union.
      - destruct H2 as (w & o & ->%elem_of_singleton & Ho & _). apply Hdom, elem_of_dom. eauto.
      - destruct (H7 z Hz) as [_ (l & Hl & Hl')]. assert (l <> ∅) as Hne. { intros ->. rewrite size_empty in Hl. lia. } apply set_choose_L in Hne as [lm' Hlm].
        destruct (Hl' lm' Hlm) as [_ (w & o & ->%elem_of_singleton & Ho & _)]. apply Hdom, elem_of_dom. eauto. }
    rewrite size_union in Hle by set_solver. rewrite size_singleton in Hle. lia.
Qed.

(** Every shot of the interior is at distance smaller than the radius; and when the interior has not reached its maximal
    size, it is the set of all such shots. *)
Theorem C51_interior c radius min_common max_interior interior boundary : run c radius min_common max_interior = Ok (interior, boundary) ->
  (forall x, x ∈ interior -> within obs inst min_common c (radius - 1) x) /\
  (size interior < max_interior -> forall x, x ∈ interior <-> within obs inst min_common c (radius - 1) x).
Proof.
  intros E. pose proof (C51_defined c radius min_common max_interior) as Hc. rewrite E in Hc.
  destruct (run_ok c radius min_common max_interior Hc) as (a & b & chosen & E' & _ & _ & H3 & H4 & _).
  rewrite E in E'. injection E' as <- <-. split; [done|]. intros Hlt x. split; [apply H3|by apply H4].
Qed.

(** Without rigs of several cameras the interior does not exceed its maximal size. *)
Theorem C51_size_single_shot c radius min_common max_interior interior boundary : run c radius min_common max_interior = Ok (interior, boundary) ->
  (forall x y, same_instance inst x y -> x = y) -> size interior <= 1 `max` max_interior.
Proof.
  intros E Hs. pose proof (C51_defined c radius min_common max_interior) as Hc. rewrite E in Hc.
  destruct (run_ok c radius min_common max_interior Hc) as (a & b & chosen & E' & _ & _ & _ & _ & H5 & _).
  rewrite E in E'. injection E' as <- <-. by apply H5.
Qed.

(** The neighbours chosen when not all can be: those that share most points. *)
Theorem C51_best_neighbours s min_common max_n : exists r chosen, direct_shot_neighbors obs inst enum sort_counts s min_common max_n = Ok r /\
  (forall x, x ∈ r <-> exists y, y ∈ (chosen : gset string) /\ same_instance inst y x) /\ size chosen <= max_n /\
  (forall y, y ∈ chosen -> neighbour obs min_common s y) /\
  (forall x, neighbour obs min_common s x -> x ∉ chosen -> size chosen = max_n /\
     forall y n, y ∈ chosen -> shares obs s x n -> shares obs s y n).
Proof.
  destruct (direct_ok obs inst Hdom enum Henum sort_counts Hsort s min_common max_n) as (r & chosen & E & H1 & H2 & H3 & H4).
  exists r, chosen. split; [done|]. split; [done|]. split; [done|]. split; [done|]. intros x Hx Hn. split; [by apply (H4 x x)|].
  intros y n Hy Hsh. destruct (H4 x y Hx Hn) as [_ H]. specialize (H Hy).
  apply (shares_common obs inst Hdom enum Henum sort_counts Hsort) in Hsh. apply (shares_common obs inst Hdom enum Henum sort_counts Hsort). lia.
Qed.
End C51.

(** With rigs, the maximal size can be exceeded: shot c; shots a and b taken by one rig; a sees a point of c. Asked for at
    most two shots, one gets the three. *)
Definition ex_obs : gmap string (gset string) := <["c" := {["1"]}]> (<["a" := {["1"]}]> (<["b" := {["2"]}]> ∅)).
Definition ex_inst : gmap string string := <["c" := "i"]> (<["a" := "j"]> (<["b" := "j"]> ∅)).
Definition count_ge (a b : string * nat) : Prop := b.2 <= a.2.
Global Instance count_ge_dec : RelDecision count_ge := fun a b => decide (b.2 <= a.2).
Definition ex_sort (m : gmap string nat) := merge_sort count_ge (map_to_list m).
Example ex_sorts : sorts ex_sort.
Proof.
  intros m. unfold ex_sort. split; [apply merge_sort_Permutation|]. intros i j a b Hi Hj Hle.
  assert (StronglySorted count_ge (merge_sort count_ge (map_to_list m))) as Hs.
  { apply StronglySorted_merge_sort; [intros ???; unfold count_ge; lia|intros ??; unfold count_ge; lia]. }
  revert i j Hi Hj Hle. induction Hs as [|x l Hs IH Ha]; intros i j Hi Hj Hle; [done|]. destruct i as [|i], j as [|j]; cbn in *.
  - by simplify_eq. - injection Hi as ->. rewrite Forall_forall in Ha. apply (Ha b). by eapply elem_of_list_lookup_2.
  - lia. - eapply (IH i j); eauto. lia.
Qed.
Example ex_dom : dom ex_obs ⊆ dom ex_inst.
Proof. unfold ex_obs, ex_inst. rewrite !dom_insert_L, dom_empty_L. set_solver. Qed.
Definition ex_run max := match shot_neighborhood ex_obs ex_inst elements ex_sort "c" 2 1 max with Ok (a, b) => (size a, size b) | Err _ => (0, 0) end.
Theorem C51_size_refuted : exists obs inst enum sort_counts c radius min_common max_interior interior boundary,
  dom obs ⊆ dom inst /\ (forall s, enum s ≡ₚ elements s) /\ sorts sort_counts /\
  shot_neighborhood obs inst enum sort_counts c radius min_common max_interior = Ok (interior, boundary) /\ max_interior = 2 /\ size interior = 3.
Proof.
  exists ex_obs, ex_inst, elements, ex_sort, "c", 2, 1, 2.
  assert (exists a b, shot_neighborhood ex_obs ex_inst elements ex_sort "c" 2 1 2 = Ok (a, b) /\ size a = 3) as (a & b & E & H).
  { assert (ex_run 2 = (3, 0)) as E by (vm_compute; reflexivity). unfold ex_run in E.
    destruct (shot_neighborhood ex_obs ex_inst elements ex_sort "c" 2 1 2) as [[a b]|]; [|done]. injection E as E1 E2. eauto. }
  exists a, b. split; [apply ex_dom|]. split; [done|]. split; [apply ex_sorts|]. auto.
Qed.
(** non-vacuity: with room for one shot the interior is {c} and the boundary {a, b} *)
Example C51_nonvacuous : ex_run 1 = (1, 2).
Proof. vm_compute. reflexivity. Qed.
Print Assumptions C51_interior_boundary.
Print Assumptions C51_boundary.
Print Assumptions C51_interior.
Print Assumptions C51_best_neighbours.
