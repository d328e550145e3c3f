(** Proofs about the neighbourhood of a shot. *)
From stdpp Require Import prelude gmap strings sorting.
From Verif Require Import Base NeighModel NeighSpec.
Open Scope nat_scope.

(** a descending sort of the entries of a map *)
Definition sorts (sort_counts : gmap string nat -> list (string * nat)) : Prop := forall m,
  sort_counts m ≡ₚ map_to_list m /\ forall i j a b, sort_counts m !! i = Some a -> sort_counts m !! j = Some b -> i <= j -> b.2 <= a.2.

Section Proofs.
Context (obs : gmap string (gset string)) (inst : gmap string string) (Hdom : dom obs ⊆ dom inst).
Context (enum : gset string -> list string) (Henum : forall s, enum s ≡ₚ elements s).
Context (sort_counts : gmap string nat -> list (string * nat)) (Hsort : sorts sort_counts).

Lemma elem_of_observers x lm : x ∈ observers obs lm <-> exists o, obs !! x = Some o /\ lm ∈ o.
Proof.
  unfold observers. rewrite elem_of_dom. split.
  - intros [o Ho]. apply map_filter_lookup_Some in Ho as [H1 H2]. eauto.
  - intros (o & H1 & H2). exists o. by apply map_filter_lookup_Some.
Qed.
Lemma elem_of_members x i : x ∈ members inst i <-> inst !! x = Some i.
Proof.
  unfold members. rewrite elem_of_dom. split.
  - intros [o Ho]. apply map_filter_lookup_Some in Ho as [H1 H2]. cbn in H2. by subst.
  - intros H. exists i. by apply map_filter_lookup_Some.
Qed.
Lemma elem_of_points s lm : lm ∈ points_of obs enum s <-> seen_from obs s lm.
Proof.
  unfold points_of, seen_from.
  assert (forall l acc, lm ∈ foldl (fun acc x => acc ∪ default ∅ (obs !! x)) acc l <-> lm ∈ acc \/ exists x o, x ∈ l /\ obs !! x = Some o /\ lm ∈ o) as H.
  { induction l as [|x l IH]; intros acc; cbn [foldl].
    - split; [by left|]. intros [?|(? & ? & ?%elem_of_nil & _)]; done.
    - rewrite IH, elem_of_union. split.
      + intros [[H|H]|(y & o & H1 & H2 & H3)]; [by left| |right; exists y, o; split; [by right|done]].
        right. destruct (obs !! x) as [o|] eqn:E; cbn in H; [|set_solver]. exists x, o. split; [by left|done].
      + intros [H|(y & o & [->|H1]%elem_of_cons & H2 & H3)]; [by left; left|left; right; by rewrite H2|right; eauto]. }
  rewrite H. split.
  - intros [?|(x & o & Hx & ?)]; [set_solver|]. exists x, o. rewrite Henum, elem_of_elements in Hx. done.
  - intros (x & o & Hx & ?). right. exists x, o. rewrite Henum, elem_of_elements. done.
Qed.

(** number of landmarks seen both by [x] and from [s] *)
Definition common (s : gset string) (x : string) : nat := size (points_of obs enum s ∩ default ∅ (obs !! x)).

Lemma shares_common s x n : shares obs s x n <-> n <= common s x.
Proof.
  unfold shares, common. split.
  - intros (l & <- & Hl). apply subseteq_size. intros lm Hlm. destruct (Hl lm Hlm) as [H1 (y & o & Hy & Ho & Hin)].
    apply elem_of_singleton in Hy as ->. rewrite Ho. cbn. apply elem_of_intersection. split; [by apply elem_of_points|done].
  - intros Hn. set (c := points_of obs enum s ∩ default ∅ (obs !! x)) in *.
    exists (list_to_set (take n (elements c))). split.
    + rewrite size_list_to_set.
      * rewrite take_length. change (length (elements c)) with (size c). lia.
      * pose proof (NoDup_elements c) as Hnd. rewrite <- (take_drop n (elements c)) in Hnd. by apply NoDup_app in Hnd as (? & _).
    + intros lm Hlm. apply elem_of_list_to_set in Hlm. assert (lm ∈ c) as Hc.
      { apply elem_of_elements. rewrite <- (take_drop n (elements c)). apply elem_of_app. by left. }
      apply elem_of_intersection in Hc as [H1 H2]. split; [by apply elem_of_points|].
      destruct (obs !! x) as [o|] eqn:E; cbn in H2; [|set_solver]. exists x, o. set_solver.
Qed.

Lemma count_fold s l acc x : NoDup l ->
  foldl (count_shot s) acc l !! x = if decide (x ∈ l /\ x ∉ s) then Some (S (default 0 (acc !! x))) else acc !! x.
Proof.
  revert acc. induction l as [|y l IH]; intros acc Hn; cbn [foldl].
  { rewrite decide_False; [done|]. intros [?%elem_of_nil _]. done. }
  apply NoDup_cons in Hn as [Hy Hn]. rewrite IH by done. unfold count_shot. destruct (decide (x = y)) as [->|Hne].
  - rewrite decide_False by tauto. destruct (decide (y ∈ s)) as [Hs|Hs].
    + rewrite decide_False; [done|]. tauto.
    + rewrite decide_True; [|split; [by left|done]]. by rewrite lookup_insert.
  - assert ((if decide (y ∈ s) then acc else <[y := S (default 0 (acc !! y))]> acc) !! x = acc !! x) as E.
    { destruct (decide (y ∈ s)); [done|]. by rewrite lookup_insert_ne. }
    rewrite E. destruct (decide (x ∈ l /\ x ∉ s)) as [[H1 H2]|H1].
    + rewrite decide_True; [done|]. split; [by right|done].
    + rewrite decide_False; [done|]. rewrite elem_of_cons. tauto.
Qed.
Lemma count_fold2 s pts acc x : NoDup pts ->
  foldl (fun acc pt => foldl (count_shot s) acc (enum (observers obs pt))) acc pts !! x =
  (let c := length (filter (fun pt => x ∈ observers obs pt) pts) in
   if decide (x ∈ s \/ c = 0) then acc !! x else Some (c + default 0 (acc !! x))).
Proof.
  intros _. revert acc. induction pts as [|pt pts IH]; intros acc; cbn [foldl].
  { cbn. by rewrite decide_True by (by right). }
  rewrite IH. rewrite count_fold by (rewrite Henum; apply NoDup_elements).
  assert (x ∈ enum (observers obs pt) <-> x ∈ observers obs pt) as He by (by rewrite Henum, elem_of_elements).
  cbn zeta. rewrite filter_cons. set (c := length (filter _ pts)).
  destruct (decide (x ∈ observers obs pt)) as [Ho|Ho]; cbn [length].
  - destruct (decide (x ∈ s)) as [Hs|Hs].
    + repeat case_decide; tauto || done.
    + repeat case_decide; repeat match goal with H : _ \/ _ |- _ => destruct H end; try done; try (exfalso; tauto); try (exfalso; lia);
        cbn; f_equal; fold c; unfold id; lia.
  - repeat case_decide; tauto || done.
Qed.
Lemma common_spec s x : common_points obs enum s !! x = if decide (x ∈ s \/ common s x = 0) then None else Some (common s x).
Proof.
  unfold common_points. rewrite count_fold2 by (rewrite Henum; apply NoDup_elements). cbn zeta. rewrite lookup_empty.
  assert (length (filter (fun pt => x ∈ observers obs pt) (enum (points_of obs enum s))) = common s x) as ->; [|by rewrite Nat.add_0_r].
  unfold common. rewrite Henum. set (p := points_of obs enum s).
  assert (NoDup (filter (fun pt => x ∈ observers obs pt) (elements p))) as Hn by (apply NoDup_filter, NoDup_elements).
  rewrite <- (size_list_to_set (C := gset string)) by done. f_equal. apply set_eq. intros lm.
  rewrite elem_of_list_to_set, elem_of_list_filter, elem_of_observers, elem_of_elements, elem_of_intersection. split.
  - intros [(o & -> & H) Hp]. done.
  - intros [Hp H]. split; [|done]. destruct (obs !! x) as [o|]; cbn in H; [eauto|set_solver].
Qed.

Lemma collect_ok min_common max_n pairs : forall idx nb, (forall x n, (x, n) ∈ pairs -> x ∈ dom inst) ->
  exists r p1 p2, collect inst min_common max_n idx pairs nb = Ok r /\ pairs = p1 ++ p2 /\ Forall (fun e => min_common <= e.2) p1 /\
    (p1 = [] \/ idx + length p1 <= max_n) /\ (max_n <= idx + length p1 \/ match p2 with [] => True | e :: _ => e.2 < min_common end) /\
    (forall x, x ∈ r <-> x ∈ nb \/ exists y n, (y, n) ∈ p1 /\ same_instance inst y x).
Proof.
  induction pairs as [|[y n] pairs IH]; intros idx nb Hd; cbn [collect].
  - exists nb, [], []. repeat split; [constructor|by left|by right|by left|]. intros [?|(? & ? & ?%elem_of_nil & _)]; done.
  - destruct (decide _) as [[H1 H2]|H].
    + assert (y ∈ dom inst) as Hy by (eapply Hd; by left). apply elem_of_dom in Hy as [i Hi]. rewrite Hi. cbn [of_option res_bind].
      destruct (IH (S idx) (nb ∪ members inst i)) as (r & p1 & p2 & -> & -> & Hf & Hl & He & Hr). { intros; eapply Hd; right; done. }
      exists r, ((y, n) :: p1), p2. split; [done|]. split; [done|]. split; [by constructor|]. cbn [length]. split; [|split].
      * right. destruct Hl as [->|Hl]; cbn; lia.
      * destruct He as [He|He]; [left; lia|by right].
      * intros x. rewrite Hr, elem_of_union, elem_of_members. split.
        -- intros [[?|Hx]|(z & m & Hz & ?)]; [by left| |].
           ++ right. exists y, n. split; [by left|]. by exists i.
           ++ right. exists z, m. split; [by right|done].
        -- intros [?|(z & m & [[= -> ->]|Hz]%elem_of_cons & Hs)]; [by left; left| |].
           ++ left; right. destruct Hs as (j & Hj & Hx). congruence.
           ++ right. eauto.
    + exists nb, [], ((y, n) :: pairs). repeat split; [constructor|by left| |by left|].
      * cbn. destruct (decide (min_common <= n)); [left; cbn; lia|right; lia].
      * intros [?|(? & ? & ?%elem_of_nil & _)]; done.
Qed.

Lemma obs_inst x n s : common_points obs enum s !! x = Some n -> x ∈ dom inst.
Proof.
  rewrite common_spec. destruct (decide _) as [|Hn]; [done|]. intros _. unfold common in Hn.
  destruct (obs !! x) as [o|] eqn:E; [apply Hdom, elem_of_dom; eauto|]. exfalso. apply Hn. right. cbn. rewrite intersection_empty_r_L. apply size_empty.
Qed.

(** the neighbours of a set of shots: the rig instances of the [max] neighbours that share most points *)
Lemma direct_ok s min_common max_n : exists r chosen, direct_shot_neighbors obs inst enum sort_counts s min_common max_n = Ok r /\
  (forall x, x ∈ r <-> exists y, y ∈ (chosen : gset string) /\ same_instance inst y x) /\ size chosen <= max_n /\
  (forall y, y ∈ chosen -> neighbour obs min_common s y) /\
  (forall x y, neighbour obs min_common s x -> x ∉ chosen -> size chosen = max_n /\ (y ∈ chosen -> common s x <= common s y)).
Proof.
  unfold direct_shot_neighbors. destruct (Hsort (common_points obs enum s)) as [Hp Hs]. set (pairs := sort_counts _) in *.
  assert (forall x n, (x, n) ∈ pairs <-> x ∉ s /\ n = common s x /\ n <> 0) as Hin.
  { intros x n. rewrite Hp, elem_of_map_to_list, common_spec. destruct (decide _) as [Hd|Hd].
    - split; [done|]. intros (H1 & -> & H2). destruct Hd; done.
    - split; [intros [= <-]; tauto|]. intros (_ & -> & _). done. }
  assert (NoDup (map fst pairs)) as Hnd. { rewrite Hp. apply NoDup_fst_map_to_list. }
  destruct (collect_ok min_common (max_n `min` length pairs) pairs 0 ∅) as (r & p1 & p2 & -> & E & Hf & Hl & He & Hr).
  { intros x n H. apply Hin in H as (H1 & -> & H2). eapply (obs_inst x (common s x) s). rewrite common_spec. rewrite decide_False by tauto. done. }
  exists r, (list_to_set (map fst p1)). split; [done|].
  assert (NoDup (map fst p1)) as Hn1. { rewrite E, map_app in Hnd. by apply NoDup_app in Hnd as (? & _). }
  assert (size (list_to_set (map fst p1) : gset string) = length p1) as Hsz by (rewrite size_list_to_set by done; by rewrite map_length).
  assert (length pairs = length p1 + length p2) as Hlen by (by rewrite E, app_length).
  split; [|split; [|split]].
  - intros x. rewrite Hr. split.
    + intros [?|(y & n & Hy & ?)]; [set_solver|]. exists y. split; [|done]. apply elem_of_list_to_set, elem_of_list_fmap. by exists (y, n).
    + intros (y & Hy & ?). right. apply elem_of_list_to_set, elem_of_list_fmap in Hy as ([y' n] & -> & Hy). eauto.
  - rewrite Hsz. destruct Hl as [->|Hl]; cbn in *; lia.
  - intros y Hy. apply elem_of_list_to_set, elem_of_list_fmap in Hy as ([y' n] & -> & Hy). cbn.
    assert ((y', n) ∈ pairs) as Hy' by (rewrite E; set_solver). apply Hin in Hy' as (H1 & -> & H2).
    split; [done|]. apply shares_common. rewrite Forall_forall in Hf. specialize (Hf _ Hy). cbn in Hf. lia.
  - intros x y [Hx Hc] Hnx. apply shares_common in Hc.
    assert ((x, common s x) ∈ p2) as Hx2.
    { assert ((x, common s x) ∈ pairs) as H by (apply Hin; split; [done|split; [done|lia]]). rewrite E in H. apply elem_of_app in H as [H|H]; [|done].
      exfalso. apply Hnx. apply elem_of_list_to_set, elem_of_list_fmap. by exists (x, common s x). }
    assert (forall j b, p2 !! j = Some b -> forall i a, p1 !! i = Some a -> b.2 <= a.2) as Hle.
    { intros j b Hj i a Hi. pose proof (lookup_lt_Some _ _ _ Hi). apply (Hs i (length p1 + j)); [rewrite E; by rewrite lookup_app_l|rewrite E; rewrite lookup_app_r by lia; by replace (length p1 + j - length p1) with j by lia|lia]. }
    split.
    + rewrite Hsz. destruct He as [He|He].
      * destruct (elem_of_list_lookup_1 _ _ Hx2) as [j Hj]. pose proof (lookup_lt_Some _ _ _ Hj). destruct Hl as [->|Hl]; cbn in *; lia.
      * exfalso. destruct p2 as [|[z m] p2]; [set_solver|]. cbn in He.
        destruct (elem_of_list_lookup_1 _ _ Hx2) as [j Hj].
        assert (common s x <= m); [|lia].
        apply (Hs (length p1) (length p1 + j) (z, m) (x, common s x)); [rewrite E; rewrite lookup_app_r by lia; by rewrite Nat.sub_diag|rewrite E; rewrite lookup_app_r by lia; by replace (length p1 + j - length p1) with j by lia|lia].
    + intros Hy. apply elem_of_list_to_set, elem_of_list_fmap in Hy as ([y' n] & -> & Hy). cbn.
      assert ((y', n) ∈ pairs) as Hy' by (rewrite E; set_solver). apply Hin in Hy' as (_ & -> & _).
      destruct (elem_of_list_lookup_1 _ _ Hx2) as [j Hj]. destruct (elem_of_list_lookup_1 _ _ Hy) as [i Hi].
      exact (Hle _ _ Hj _ _ Hi).
Qed.

Definition whole (s : gset string) : Prop := forall x y, x ∈ s -> same_instance inst x y -> y ∈ s.
Lemma same_sym x y : same_instance inst x y -> same_instance inst y x.
Proof. intros (i & ? & ?). by exists i. Qed.
Lemma same_trans x y z : same_instance inst x y -> same_instance inst y z -> same_instance inst x z.
Proof. intros (i & ? & ?) (j & ? & ?). exists i. split; [done|]. congruence. Qed.

Lemma shares_mono s s' x n : s ⊆ s' -> shares obs s x n -> shares obs s' x n.
Proof.
  intros Hs (l & Hl & H). exists l. split; [done|]. intros lm Hlm. destruct (H lm Hlm) as [(y & o & Hy & ?) H2]. split; [|done]. exists y, o. split; [by apply Hs|done].
Qed.
(** balls are finite sets *)
Lemma within_set n c d : exists s : gset string, forall x, x ∈ s <-> within obs inst n c d x.
Proof.
  induction d as [|d (s & Hs)]; cbn [within].
  - destruct (inst !! c) as [i|] eqn:E.
    + exists (members inst i). intros x. rewrite elem_of_members. split; [intros H; by exists i|]. intros (j & Hj & Hx). congruence.
    + exists ∅. intros x. split; [set_solver|]. intros (j & Hj & _). congruence.
  - destruct (direct_ok s n (size (dom inst) + 1)) as (r & chosen & _ & Hr & Hsz & Hc1 & Hc2). exists (s ∪ r). intros x. rewrite elem_of_union, Hr. split.
    + intros [Hx|(y & Hy & Hx)]; [left; by apply Hs|]. right. exists y, s. auto.
    + intros [Hx|(y & s' & Hs' & Hy & Hx)]; [left; by apply Hs|]. right. exists y. split; [|done].
      assert (s' = s) as -> by (apply set_eq; intros z; by rewrite Hs, Hs').
      destruct (decide (y ∈ chosen)) as [|Hno]; [done|]. destruct (Hc2 y y Hy Hno) as [Hsz' _].
      assert (size chosen <= size (dom inst)); [|lia]. apply subseteq_size. intros z Hz.
      destruct (Hc1 z Hz) as [_ Hz']. destruct Hz' as (l & Hl & Hl'). assert (l <> ∅) as Hne. { intros ->. rewrite size_empty in Hl. lia. }
      apply set_choose_L in Hne as [lm Hlm]. destruct (Hl' lm Hlm) as [_ (w & o & Hw & Ho & _)]. apply elem_of_singleton in Hw as ->. apply Hdom, elem_of_dom. eauto.
Qed.
Lemma within_mono n c d d' x : d <= d' -> within obs inst n c d x -> within obs inst n c d' x.
Proof. induction 1; [done|]. intros. cbn. left. auto. Qed.

(** one step of the growth of the interior *)
Lemma grow_ok min_common max_interior c m : forall d interior, whole interior ->
  (forall x, x ∈ interior -> within obs inst min_common c d x) ->
  (size interior < max_interior -> forall x, within obs inst min_common c d x -> x ∈ interior) ->
  exists r, grow_interior obs inst enum sort_counts min_common max_interior m interior = Ok r /\ whole r /\ interior ⊆ r /\
    (forall x, x ∈ r -> within obs inst min_common c (d + m) x) /\
    (size r < max_interior -> forall x, within obs inst min_common c (d + m) x -> x ∈ r) /\
    ((forall x y, same_instance inst x y -> x = y) -> size r <= size interior `max` max_interior).
Proof.
  induction m as [|m IH]; intros d interior Hw Hb Hc; cbn [grow_interior].
  - exists interior. rewrite Nat.add_0_r. repeat (split; [done|]). intros _. lia.
  - destruct (decide _) as [Hlt|Hge].
    + destruct (direct_ok interior min_common (max_interior - size interior)) as (r & chosen & -> & Hr & Hsz & Hc1 & Hc2). cbn [res_bind].
      destruct (IH (S d) (interior ∪ r)) as (r' & -> & H1 & H2 & H3 & H4 & H5).
      * intros x y [Hx|Hx]%elem_of_union Hs; apply elem_of_union; [left; by eapply Hw|right]. apply Hr in Hx as (z & Hz & Hs'). apply Hr. exists z. split; [done|]. by eapply same_trans.
      * intros x [Hx|Hx]%elem_of_union; cbn; [left; by apply Hb|]. apply Hr in Hx as (z & Hz & Hs'). destruct (Hc1 z Hz) as [Hz1 Hz2].
        right. exists z, interior. split; [|by split]. intros w. split; [apply Hb|by apply Hc].
      * intros Hsz' x [Hx|(y & s & Hs & Hy & Hx)]; [apply elem_of_union; left; by apply Hc|].
        assert (s = interior) as ->. { apply set_eq. intros w. rewrite Hs. split; [by apply Hc|apply Hb]. }
        destruct (decide (y ∈ chosen)) as [Hyc|Hyc]; [apply elem_of_union; right; apply Hr; eauto|].
        exfalso. destruct (Hc2 y y Hy Hyc) as [Hsz2 _].
        assert (size (interior ∪ chosen) <= size (interior ∪ r)) as Hle.
        { apply subseteq_size. intros z [Hz|Hz]%elem_of_union; apply elem_of_union; [by left|]. right. apply Hr. exists z. split; [done|].
          destruct (Hc1 z Hz) as [_ (l & Hl & Hl')]. assert (l <> ∅) as Hne. { intros ->. rewrite size_empty in Hl. lia. }
          apply set_choose_L in Hne as [lm Hlm]. destruct (Hl' lm Hlm) as [_ (w & o & Hw' & Ho & _)]. apply elem_of_singleton in Hw' as ->.
          assert (z ∈ dom inst) as Hzi by (apply Hdom, elem_of_dom; eauto). apply elem_of_dom in Hzi as [i Hi]. by exists i. }
        rewrite size_union in Hle; [lia|]. intros z Hz1 Hz2. destruct (Hc1 z Hz2). done.
      * exists r'. split; [done|]. split; [done|]. split; [set_solver|]. replace (d + S m) with (S d + m) by lia. split; [done|]. split; [done|].
        intros Hsingle. specialize (H5 Hsingle).
        assert (size (interior ∪ r) <= max_interior); [|lia].
        assert (r ⊆ chosen) as Hsub. { intros x Hx. apply Hr in Hx as (y & Hy & Hs). apply Hsingle in Hs as ->. done. }
        assert (size (interior ∪ r) <= size interior + size r); [rewrite size_union_alt; assert (size (r ∖ interior) <= size r) by (apply subseteq_size; set_solver); lia|]. apply subseteq_size in Hsub. lia.
    + exists interior. repeat (split; [done|]). split; [|split; [lia|intros _; lia]]. intros x Hx. eapply within_mono; [|by apply Hb]. lia.
Qed.
End Proofs.
