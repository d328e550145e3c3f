From stdpp Require Import prelude gmap strings pretty.
From Verif Require Import Base UnionFindModel UnionFindSpec UnionFindProofs TracksModel TracksSpec TracksProofs
  TrackingModel TrackingProofs MergeModel MergeSpec.

(** ** union_find.h *)
Lemma same_roots_trans {K} `{Countable K} (p q r : gmap K K) : same_roots p q -> same_roots q r -> same_roots p r.
Proof. intros H1 H2 x s. by rewrite (H1 x s), (H2 x s). Qed.

Lemma cfind_ok fuel par x r n : Root par x r n -> n <= fuel ->
  exists par', cfind fuel par x = Ok (par', r) /\ same_roots par par' /\ (forall y, is_Some (par' !! y) <-> is_Some (par !! y)).
Proof.
  revert x n. induction fuel as [|fuel IH]; intros x n HR Hn.
  - assert (n = 0) as -> by lia. inversion HR as [? Hx|]; simplify_eq. simpl. rewrite Hx.
    rewrite decide_True by done. by exists par.
  - inversion HR as [? Hx|? p ? m Hx Hne HRp]; simplify_eq; simpl; rewrite Hx.
    + rewrite decide_True by done. by exists par.
    + rewrite decide_False by done. destruct (IH p m HRp ltac:(lia)) as (par1 & Hf & Hsame & Hdom). rewrite Hf. simpl.
      eexists. split; [done|].
      assert (Hx1 : exists k, Root par1 x r k).
      { apply Hsame. eexists. by eapply Root_up. }
      assert (Hr1 : par1 !! r = Some r).
      { destruct Hx1 as [k Hk]. by eapply Root_root. }
      split.
      * eapply same_roots_trans; [done|]. apply (compress_same_roots par1 [x] r); [|done].
        intros y Hy. apply elem_of_list_singleton in Hy as ->. done.
      * intros y. rewrite lookup_insert_is_Some, Hdom. destruct (decide (x = y)) as [->|]; [|naive_solver].
        split; [intros _; eauto|by left].
Qed.

Record crep (N : nat) (h : list (uf_op nat)) (par : gmap nat nat) : Prop := {
  crep_dom x : is_Some (par !! x) <-> x < N;
  crep_root x : x < N -> exists r n, Root par x r n;
  crep_linked a b ra rb : (exists n, Root par a ra n) -> (exists n, Root par b rb n) -> (ra = rb <-> linked h a b) }.

Lemma crep_same N h par par' : crep N h par -> same_roots par par' -> (forall y, is_Some (par' !! y) <-> is_Some (par !! y)) -> crep N h par'.
Proof.
  intros [Hd Hr Hl] Hs Hdom. split.
  - intros x. by rewrite Hdom.
  - intros x Hx. destruct (Hr x Hx) as (r & n & HR). exists r. apply Hs. eauto.
  - intros a b ra rb Ha Hb. apply Hl; by apply Hs.
Qed.

Lemma crep_find N h par x : crep N h par -> x < N ->
  exists par' r, cfind (size par) par x = Ok (par', r) /\ same_roots par par' /\ crep N h par' /\ (exists n, Root par x r n) /\ r < N.
Proof.
  intros Hc Hx. destruct (crep_root _ _ _ Hc x Hx) as (r & n & HR).
  pose proof (Root_bound _ _ _ _ HR) as Hb.
  destruct (cfind_ok (size par) par x r n HR ltac:(lia)) as (par' & Hf & Hs & Hd).
  exists par', r. split_and!; try done; [by eapply crep_same|eauto|].
  apply (crep_dom _ _ _ Hc). apply Root_root in HR. eauto.
Qed.

Lemma crep_link N h par xs a b ea eb : crep N h par ->
  (exists n, Root par ea a n) -> (exists n, Root par eb b n) -> a <> b -> (forall x, x ∈ xs <-> x = ea \/ x = eb) ->
  crep N (h ++ [OpUnion xs]) (<[a := b]> par).
Proof.
  intros Hc Ha Hb Hne Hxs.
  assert (Hpa : par !! a = Some a) by (destruct Ha as [? Ha]; by eapply Root_root).
  assert (Hpb : par !! b = Some b) by (destruct Hb as [? Hb]; by eapply Root_root).
  assert (Htot : forall x, is_Some (par !! x) -> exists q n, Root par x q n).
  { intros x Hx. apply (crep_root _ _ _ Hc). by apply (crep_dom _ _ _ Hc). }
  pose proof (link_roots par a b Hpb (or_introl Hpa) Hne Htot) as Hlink.
  split.
  - intros x. rewrite lookup_insert_is_Some, (crep_dom _ _ _ Hc). destruct (decide (a = x)) as [<-|]; [|naive_solver].
    split; [|by left]. intros _. apply (crep_dom _ _ _ Hc). eauto.
  - intros x Hx. destruct (crep_root _ _ _ Hc x Hx) as (r & n & HR).
    exists (if decide (r = a) then b else r). apply Hlink. exists r. split; [by exists n|done].
  - intros x y rx ry Hrx Hry. apply Hlink in Hrx as (qx & Hqx & ->). apply Hlink in Hry as (qy & Hqy & ->).
    rewrite linked_union.
    pose proof (crep_linked _ _ _ Hc x y qx qy Hqx Hqy) as Hxy.
    pose proof (crep_linked _ _ _ Hc x ea qx a Hqx Ha) as Hxa.
    pose proof (crep_linked _ _ _ Hc x eb qx b Hqx Hb) as Hxb.
    pose proof (crep_linked _ _ _ Hc y ea qy a Hqy Ha) as Hya.
    pose proof (crep_linked _ _ _ Hc y eb qy b Hqy Hb) as Hyb.
    assert (Hgen : (exists u v, u ∈ xs /\ v ∈ xs /\ linked h x u /\ linked h v y) <-> ((qx = a \/ qx = b) /\ (qy = a \/ qy = b))).
    { split.
      - intros (u & v & Hu & Hv & Hxu & Hvy). apply Hxs in Hu. apply Hxs in Hv. apply linked_sym in Hvy. split.
        + destruct Hu as [->| ->]; tauto.
        + destruct Hv as [->| ->]; tauto.
      - intros [H1 H2].
        assert (Hu : exists u, u ∈ xs /\ linked h x u).
        { destruct H1; [exists ea|exists eb]; rewrite Hxs; tauto. }
        assert (Hv : exists v, v ∈ xs /\ linked h v y).
        { destruct H2; [exists ea|exists eb]; rewrite Hxs; (split; [tauto|apply linked_sym; tauto]). }
        destruct Hu as (u & ? & ?), Hv as (v & ? & ?). by exists u, v. }
    rewrite Hgen, <- Hxy. clear -Hne. repeat case_decide; subst; naive_solver.
Qed.

Definition rank_ok (N : nat) (u : cuf) : Prop := forall x, x < N -> is_Some (c_rank u !! x).

Lemma crep_noop N h par e1 e2 r : crep N h par -> (exists n, Root par e1 r n) -> (exists n, Root par e2 r n) ->
  crep N (h ++ [OpUnion [e1; e2]]) par.
Proof.
  intros Hc H1 H2. destruct Hc as [Hd Hr Hl]. split; [done|done|].
  intros a b ra rb Ha Hb. rewrite linked_union, (Hl a b ra rb Ha Hb). split; [by left|].
  intros [?|(x & y & Hx & Hy & Hax & Hyb)]; [done|]. apply elem_of_two in Hx. apply elem_of_two in Hy.
  assert (H12 : linked h e1 e2) by (by apply (Hl e1 e2 r r H1 H2)).
  eapply linked_trans; [done|]. eapply linked_trans; [|done].
  destruct Hx as [->| ->], Hy as [->| ->]; [constructor|done|by apply linked_sym|constructor].
Qed.

Lemma cunion_ok N h u e1 e2 : crep N h (c_parent u) -> rank_ok N u -> e1 < N -> e2 < N ->
  exists u', cunion u e1 e2 = Ok u' /\ crep N (h ++ [OpUnion [e1; e2]]) (c_parent u') /\ rank_ok N u'.
Proof.
  intros Hc Hrk H1 H2. unfold cunion.
  destruct (crep_find N h _ e1 Hc H1) as (par1 & r1 & Hf1 & Hs1 & Hc1 & HR1 & Hr1). rewrite Hf1. cbn [res_bind].
  destruct (crep_find N h _ e2 Hc1 H2) as (par2 & r2 & Hf2 & Hs2 & Hc2 & HR2 & Hr2). rewrite Hf2. cbn [res_bind].
  apply Hs1, Hs2 in HR1. apply Hs2 in HR2.
  destruct (decide (r1 = r2)) as [->|Hne].
  - eexists. split; [done|]. split; [|done]. simpl. by eapply crep_noop.
  - destruct (Hrk _ Hr1) as [k1 Hk1], (Hrk _ Hr2) as [k2 Hk2]. rewrite Hk1, Hk2. cbn [of_option res_bind].
    destruct (decide (k1 < k2)).
    + eexists. split; [done|]. split; [|done]. simpl. eapply crep_link; eauto. intros x. by rewrite elem_of_two.
    + eexists. split; [done|]. split; simpl.
      * eapply (crep_link _ _ _ _ r2 r1 e2 e1); eauto. intros x. rewrite elem_of_two. tauto.
      * intros x Hx. simpl. case_decide; [|by apply Hrk]. rewrite lookup_insert_is_Some.
        destruct (decide (r1 = x)); [by left|]. right. split; [done|]. by apply Hrk.
Qed.

Lemma union_with_ok N h u e1 rest : crep N h (c_parent u) -> rank_ok N u -> e1 < N -> (forall e, e ∈ rest -> e < N) ->
  exists u', union_with u e1 rest = Ok u' /\ crep N (h ++ map (fun e => OpUnion [e1; e]) rest) (c_parent u') /\ rank_ok N u'.
Proof.
  revert h u. induction rest as [|e2 rest IH]; intros h u Hc Hrk H1 Hin; cbn [union_with map].
  - exists u. by rewrite app_nil_r.
  - destruct (cunion_ok N h u e1 e2 Hc Hrk H1) as (u1 & Hu1 & Hc1 & Hrk1); [apply Hin; left|]. rewrite Hu1. cbn [res_bind].
    destruct (IH _ u1 Hc1 Hrk1 H1) as (u' & Hu' & Hc' & Hrk'); [intros e He; apply Hin; by right|].
    exists u'. by rewrite <- app_assoc in Hc'.
Qed.

Definition star_history (fs : list ((string * Z) * list nat)) : list (uf_op nat) :=
  concat (map (fun '(_, l) => match l with [] => [] | e1 :: rest => map (fun e => OpUnion [e1; e]) rest end) fs).

Lemma union_features_ok N h u fs : crep N h (c_parent u) -> rank_ok N u ->
  (forall k l e, (k, l) ∈ fs -> e ∈ l -> e < N) ->
  exists u', union_features u fs = Ok u' /\ crep N (h ++ star_history fs) (c_parent u').
Proof.
  revert h u. induction fs as [|[k [|e1 rest]] fs IH]; intros h u Hc Hrk Hin; cbn [union_features].
  - exists u. by rewrite app_nil_r.
  - apply IH; [done..|]. intros k' l e Hkl. apply (Hin k'). by right.
  - destruct (union_with_ok N h u e1 rest Hc Hrk) as (u1 & Hu1 & Hc1 & Hrk1).
    { eapply (Hin k); [left|left]. }
    { intros e He. eapply (Hin k); [left|by right]. }
    rewrite Hu1. cbn [res_bind]. destruct (IH _ u1 Hc1 Hrk1) as (u' & Hu' & Hc').
    { intros k' l e Hkl. apply (Hin k'). by right. }
    exists u'. split; [done|]. unfold star_history in *. simpl. by rewrite <- app_assoc in Hc'.
Qed.

Lemma star_linked fs a b :
  linked (star_history fs) a b <-> linked (map (fun '(_, l) => OpUnion l) fs) a b.
Proof.
  assert (Hin : forall o, o ∈ star_history fs <-> exists k e1 rest e, (k, e1 :: rest) ∈ fs /\ e ∈ rest /\ o = OpUnion [e1; e]).
  { intros o. unfold star_history. rewrite elem_of_list_In, in_concat. split.
    - intros (ops & Hops & Ho). apply in_map_iff in Hops as ([k [|e1 rest]] & <- & Hk); [by destruct Ho|].
      apply in_map_iff in Ho as (e & <- & He). exists k, e1, rest, e. by rewrite !elem_of_list_In.
    - intros (k & e1 & rest & e & Hk & He & ->). exists (map (fun e => OpUnion [e1; e]) rest).
      apply elem_of_list_In in Hk. apply elem_of_list_In in He. split; [apply in_map_iff; by exists (k, e1 :: rest)|]. apply in_map_iff. by exists e. }
  assert (Hin2 : forall xs, OpUnion xs ∈ map (fun '(_, l) => OpUnion l) fs <-> exists k : string * Z, (k, xs) ∈ fs).
  { intros xs. rewrite elem_of_list_In, in_map_iff. split.
    - intros ([k l] & [= ->] & Hk). exists k. by rewrite elem_of_list_In.
    - intros (k & Hk). rewrite elem_of_list_In in Hk. by exists (k, xs). }
  split.
  - induction 1 as [a|a b c (xs & Hxs & Ha & Hb) _ IH]; [constructor|].
    apply Hin in Hxs as (k & e1 & rest & e & Hk & He & [= ->]).
    econstructor; [|done]. exists (e1 :: rest). split; [apply Hin2; eauto|]. set_solver.
  - induction 1 as [a|a b c (xs & Hxs & Ha & Hb) _ IH]; [constructor|].
    apply Hin2 in Hxs as [k Hk]. destruct xs as [|e1 rest]; [set_solver|].
    assert (Hto : forall x, x ∈ e1 :: rest -> linked (star_history fs) e1 x).
    { intros x [->|Hx]%elem_of_cons; [constructor|]. econstructor; [|constructor].
      exists [e1; x]. split; [apply Hin; eauto 10|]. set_solver. }
    eapply linked_trans; [apply linked_sym, Hto, Ha|]. eapply linked_trans; [apply Hto, Hb|]. done.
Qed.

Lemma crep_init N : crep N [] (c_parent (cinit N)) /\ rank_ok N (cinit N).
Proof.
  assert (Hl : forall (f : nat -> nat) x, (list_to_map ((fun e => (e, f e)) <$> seq 0 N) : gmap nat nat) !! x = if decide (x < N) then Some (f x) else None).
  { intros f x. case_decide as Hx.
    - apply elem_of_list_to_map_1.
      + rewrite <- list_fmap_compose. rewrite (list_fmap_ext _ id); [|done]. rewrite list_fmap_id. apply NoDup_seq.
      + apply elem_of_list_fmap. exists x. split; [done|]. apply elem_of_seq. lia.
    - apply not_elem_of_list_to_map_1. intros Hin. apply elem_of_list_fmap in Hin as ([y z] & -> & Hin).
      apply elem_of_list_fmap in Hin as (w & [= -> ->] & Hin). simpl in Hx. apply elem_of_seq in Hin. lia. }
  unfold cinit. split.
  - split; simpl.
    + intros x. rewrite Hl. case_decide; [split; eauto|]. split; [intros [? ?]; done|lia].
    + intros x Hx. exists x, 0. constructor. rewrite Hl. by rewrite decide_True.
    + assert (Hself : forall a ra, (exists n, Root (list_to_map ((fun e => (e, e)) <$> seq 0 N) : gmap nat nat) a ra n) -> ra = a).
      { intros a ra [n HR]. inversion HR as [|? p ? m Hp Hpne]; [done|]. subst. rewrite Hl in Hp. case_decide; [|done]. congruence. }
      intros a b ra rb Ha%Hself Hb%Hself. subst. split; [intros ->; constructor|].
      intros Hl'. inversion Hl' as [|? ? ? (xs & Hxs & _)]; [done|]. set_solver.
  - intros x Hx. simpl. rewrite (Hl (fun _ => 0)). rewrite decide_True by done. eauto.
Qed.

Lemma caggregate_ok N h (rho : nat -> nat) par es done0 agg : crep N h par ->
  (forall e, e ∈ es -> e < N /\ exists n, Root par e (rho e) n) -> grouped rho done0 agg ->
  exists agg', caggregate par es agg = Ok agg' /\ grouped rho (done0 ++ es) agg'.
Proof.
  revert par done0 agg. induction es as [|e es IH]; intros par done0 agg Hc Hes Hg; cbn [caggregate].
  - exists agg. by rewrite app_nil_r.
  - destruct (Hes e) as [He HR]; [left|].
    destruct (crep_find N h par e Hc He) as (par1 & r & Hf & Hs & Hc1 & HR1 & _). rewrite Hf. cbn [res_bind].
    assert (r = rho e) as ->.
    { destruct HR as [n HR], HR1 as [n1 HR1]. by destruct (Root_det _ _ _ _ _ _ HR1 HR). }
    destruct (IH par1 (done0 ++ [e]) (sets_add agg (rho e) e) Hc1) as (agg' & Ha & Hg').
    + intros e' He'. destruct (Hes e') as [? ?]; [by right|]. split; [done|]. by apply Hs.
    + by apply grouped_add.
    + exists agg'. split; [done|]. by rewrite <- app_assoc in Hg'.
Qed.

(** ** Merging *)
Section Merge.
Context {O : Type}.
Variable feature_of : O -> Z.
Variable enumT : gmap string (gmap string O) -> list (string * gmap string O).
Variable enumO : gmap string O -> list (string * O).
Variable enumF : gmap (string * Z) (list nat) -> list ((string * Z) * list nat).
Variable srt : list (list nat) -> list (list nat).
Hypothesis HenumT : enumerates enumT.
Hypothesis HenumO : enumerates enumO.
Hypothesis HenumF : enumerates enumF.
Hypothesis Hsrt : forall l, srt l ≡ₚ l.

(** All tracks of all managers, in the order in which they become elements. *)
Fixpoint entries (i : nat) (ms : list (tm O)) : list ((nat * string) * gmap string O) :=
  match ms with
  | [] => []
  | m :: ms' => ((fun '(t, obs) => ((i, t), obs)) <$> enumT (shots_per_track m)) ++ entries (S i) ms'
  end.

Definition collect_step (st : list (string * nat) * gmap (string * Z) (list nat)) (en : (nat * string) * gmap string O) :=
  (st.1 ++ [(en.1.2, en.1.1)], push_features feature_of (length st.1) (enumO en.2) st.2).

Lemma collect_entries i ms st : collect feature_of enumT enumO i ms st = foldl collect_step st (entries i ms).
Proof.
  revert i st. induction ms as [|m ms IH]; intros i st; cbn [collect entries]; [done|].
  rewrite IH, foldl_app. f_equal. unfold collect_manager. generalize (enumT (shots_per_track m)) as l. clear.
  intros l. revert st. induction l as [|[t obs] l IH]; intros st; [done|]. rewrite fmap_cons. cbn [foldl].
  rewrite <- IH. f_equal. by destruct st.
Qed.

Lemma entries_elem i ms j t obs : ((j, t), obs) ∈ entries i ms <->
  exists m, i <= j /\ ms !! (j - i) = Some m /\ shots_per_track m !! t = Some obs.
Proof.
  revert i. induction ms as [|m ms IH]; intros i; cbn [entries].
  - split; [set_solver|]. intros (m & _ & Hm & _). done.
  - rewrite elem_of_app, IH. split.
    + intros [Hin|(m' & Hle & Hm' & Ht)].
      * apply elem_of_list_fmap in Hin as ([t' obs'] & [= -> -> ->] & Hin).
        apply (enum_elem enumT _ _ _ HenumT) in Hin. exists m. rewrite Nat.sub_diag. done.
      * exists m'. split; [lia|]. split; [|done]. replace (j - i) with (S (j - S i)) by lia. done.
    + intros (m' & Hle & Hm' & Ht). destruct (decide (i = j)) as [->|Hne].
      * left. rewrite Nat.sub_diag in Hm'. simpl in Hm'. simplify_eq.
        apply elem_of_list_fmap. exists (t, obs). split; [done|]. by apply (enum_elem enumT _ _ _ HenumT).
      * right. exists m'. split; [lia|]. split; [|done]. replace (j - i) with (S (j - S i)) in Hm' by lia. done.
Qed.

Lemma entries_nodup i ms : NoDup (entries i ms).*1.
Proof.
  revert i. induction ms as [|m ms IH]; intros i; cbn [entries]; [constructor|].
  rewrite fmap_app. apply NoDup_app. split_and!; [| |done].
  - rewrite <- list_fmap_compose.
    rewrite (list_fmap_ext _ (fun e => (i, e.1))); [|by intros ? [? ?] ?].
    change (fun e : string * gmap string O => (i, e.1)) with ((fun t : string => (i, t)) ∘ (fst : string * gmap string O -> string)).
    rewrite list_fmap_compose. apply (NoDup_fmap_2 _). by apply enum_keys_nodup.
  - intros [j t] Hin Hin2. apply elem_of_list_fmap in Hin as ([[j' t'] obs] & [= -> ->] & Hin).
    apply elem_of_list_fmap in Hin as ([t'' obs'] & [= -> -> ->] & _).
    apply elem_of_list_fmap in Hin2 as ([[j'' t2] obs2] & [= <- <-] & Hin2).
    apply entries_elem in Hin2 as (m' & Hle & _). lia.
Qed.

Lemma push_features_elem e obs feats k x : 
  x ∈ default [] (push_features feature_of e obs feats !! k) <->
  x ∈ default [] (feats !! k) \/ (x = e /\ exists s o, (s, o) ∈ obs /\ k = (s, feature_of o)).
Proof.
  unfold push_features. revert feats. induction obs as [|[s o] obs IH]; intros feats; cbn [foldl].
  - set_solver.
  - rewrite IH. setoid_rewrite elem_of_cons. destruct (decide (k = (s, feature_of o))) as [->|Hne].
    + rewrite lookup_insert. simpl. rewrite elem_of_app, elem_of_list_singleton. naive_solver.
    + rewrite lookup_insert_ne by congruence. split; [naive_solver|].
      intros [?|(-> & s' & o' & [[= -> ->]|Hin] & ->)]; [by left|done|]. right. eauto.
Qed.

Lemma collect_spec ms els feats : collect feature_of enumT enumO 0 ms ([], ∅) = (els, feats) ->
  els = (fun en => (en.1.2, en.1.1)) <$> entries 0 ms /\
  forall k e, e ∈ default [] (feats !! k) <->
    exists a obs s o, entries 0 ms !! e = Some (a, obs) /\ obs !! s = Some o /\ k = (s, feature_of o).
Proof.
  rewrite collect_entries. revert els feats. induction (entries 0 ms) as [|en l IH] using rev_ind; intros els feats Heq.
  - simpl in Heq. simplify_eq. split; [done|]. intros k e. rewrite lookup_empty. simpl. split; [set_solver|].
    by intros (? & ? & ? & ? & ? & _).
  - rewrite foldl_app in Heq. simpl in Heq. destruct (foldl collect_step ([], ∅) l) as [els0 feats0] eqn:Hl.
    destruct (IH _ _ eq_refl) as [-> Hf]. unfold collect_step in Heq. simpl in Heq. simplify_eq. split; [by rewrite fmap_app|].
    intros k e. rewrite push_features_elem, Hf, fmap_length. split.
    + intros [(a & obs & s & o & He & Ho & ->)|(-> & s & o & Hin & ->)].
      * exists a, obs, s, o. split; [|done]. by apply lookup_app_l_Some.
      * exists en.1, en.2, s, o. split; [|split; [by apply (enum_elem enumO _ _ _ HenumO)|done]].
        rewrite lookup_app_r by lia. rewrite Nat.sub_diag. by destruct en.
    + intros (a & obs & s & o & He & Ho & ->). apply lookup_app_Some in He as [He|[Hle He]].
      * left. eauto 10.
      * right. apply list_lookup_singleton_Some in He as [He ->]. split; [lia|]. exists s, o. split; [|done].
        by apply (enum_elem enumO _ _ _ HenumO).
Qed.

Lemma add_obs_spec (l : list (string * O)) id merged : consistent merged ->
  let m' := foldl (fun acc '(s, o) => tm_add acc s id o) merged l in
  consistent m' /\
  (forall s t o, observed m' s t = Some o -> observed merged s t = Some o \/ (t = id /\ (s, o) ∈ l)) /\
  (forall s t, is_Some (observed m' s t) <-> is_Some (observed merged s t) \/ (t = id /\ s ∈ l.*1)).
Proof.
  revert merged. induction l as [|[s0 o0] l IH]; intros merged Hc; cbn [foldl].
  - split; [done|]. split; [by left|]. intros. split; [by left|]. intros [?|[_ ?]]; [done|set_solver].
  - destruct (IH (tm_add merged s0 id o0) (consistent_add _ _ _ _ Hc)) as (H1 & H2 & H3). split; [done|]. split.
    + intros s t o Ho. destruct (H2 s t o Ho) as [Ho'|[-> Hin]]; [|right; split; [done|by right]].
      rewrite observed_add in Ho'. case_bool_decide as Heq; [|by left]. destruct Heq as [-> ->]. simplify_eq. right. split; [done|left].
    + intros s t. rewrite H3, observed_add, fmap_cons, elem_of_cons. simpl. case_bool_decide as Heq.
      * destruct Heq as [-> ->]. split; [|intros _; left; eauto]. intros _. right. auto.
      * split; [intros [?|[-> ?]]; auto|]. intros [?|[-> [->|?]]]; [auto|tauto|auto].
Qed.

Lemma add_cluster_spec ms els id cluster merged : consistent merged ->
  els = (fun en => (en.1.2, en.1.1)) <$> entries 0 ms ->
  (forall e, e ∈ cluster -> e < length (entries 0 ms)) ->
  exists m', add_cluster enumO ms els id cluster merged = Ok m' /\ consistent m' /\
    (forall s t o, observed m' s t = Some o -> observed merged s t = Some o \/
        (t = id /\ exists e a obs, e ∈ cluster /\ entries 0 ms !! e = Some (a, obs) /\ obs !! s = Some o)) /\
    (forall s t, is_Some (observed m' s t) <-> is_Some (observed merged s t) \/
        (t = id /\ exists e a obs, e ∈ cluster /\ entries 0 ms !! e = Some (a, obs) /\ is_Some (obs !! s))).
Proof.
  intros Hc -> Hlt. revert merged Hc. induction cluster as [|e cluster IH]; intros merged Hc; cbn [add_cluster].
  - exists merged. split_and!; try done; [by left|]. intros. split; [by left|].
    intros [?|(_ & e & ? & ? & He & _)]; [done|set_solver].
  - destruct (lookup_lt_is_Some_2 (entries 0 ms) e) as [[[j t0] obs0] He]; [apply Hlt; left|].
    rewrite list_lookup_fmap, He. cbn. 
    assert (Hin : ((j, t0), obs0) ∈ entries 0 ms) by (by eapply elem_of_list_lookup_2).
    apply entries_elem in Hin as (m0 & _ & Hm0 & Ht0). rewrite Nat.sub_0_r in Hm0. rewrite Hm0. cbn. rewrite Ht0. cbn.
    destruct (add_obs_spec (enumO obs0) id merged Hc) as (H1 & H2 & H3).
    destruct (IH (fun e' He' => Hlt e' (elem_of_list_further _ _ _ He')) _ H1) as (m' & Hm' & Hc' & Ho' & Hs').
    exists m'. split; [done|]. split; [done|]. split.
    + intros s t o Ho. destruct (Ho' s t o Ho) as [Ho1|(-> & e' & a & obs & He' & Hen & Hobs)].
      * destruct (H2 s t o Ho1) as [?|[-> Hso]]; [by left|]. right. split; [done|].
        exists e, (j, t0), obs0. split; [left|]. split; [done|]. by apply (enum_elem enumO _ _ _ HenumO).
      * right. split; [done|]. exists e', a, obs. split; [by right|done].
    + intros s t. rewrite Hs', H3. rewrite (enum_keys_elem enumO _ _ HenumO). split.
      * intros [[?|[-> Hso]]|(-> & e' & a & obs & He' & Hen & Hobs)]; [by left| |].
        -- right. split; [done|]. exists e, (j, t0), obs0. split; [left|done].
        -- right. split; [done|]. exists e', a, obs. split; [by right|done].
      * intros [?|(-> & e' & a & obs & He' & Hen & Hobs)]; [left; by left|].
        apply elem_of_cons in He' as [->|He'].
        -- left. right. split; [done|]. by simplify_eq.
        -- right. split; [done|]. eauto 10.
Qed.

Lemma add_clusters_spec ms els n clusters merged : consistent merged ->
  els = (fun en => (en.1.2, en.1.1)) <$> entries 0 ms ->
  (forall c e, c ∈ clusters -> e ∈ c -> e < length (entries 0 ms)) ->
  exists m', add_clusters enumO ms els n clusters merged = Ok m' /\ consistent m' /\
    (forall s t o, observed m' s t = Some o -> observed merged s t = Some o \/
        (exists k c e a obs, clusters !! k = Some c /\ t = pretty (n + k) /\ e ∈ c /\ entries 0 ms !! e = Some (a, obs) /\ obs !! s = Some o)) /\
    (forall s t, is_Some (observed m' s t) <-> is_Some (observed merged s t) \/
        (exists k c e a obs, clusters !! k = Some c /\ t = pretty (n + k) /\ e ∈ c /\ entries 0 ms !! e = Some (a, obs) /\ is_Some (obs !! s))).
Proof.
  intros Hc Hels Hlt. revert n merged Hc. induction clusters as [|c clusters IH]; intros n merged Hc; cbn [add_clusters].
  - exists merged. split_and!; try done; [by left|]. intros. split; [by left|].
    by intros [?|(k & c & e & ? & ? & Hk & _)].
  - destruct (add_cluster_spec ms els (pretty n) c merged Hc Hels) as (m1 & Hm1 & Hc1 & Ho1 & Hs1).
    { intros e He. eapply Hlt; [left|done]. }
    rewrite Hm1. cbn [res_bind].
    destruct (IH (fun c' e Hc' => Hlt c' e (elem_of_list_further _ _ _ Hc')) (S n) m1 Hc1) as (m' & Hm' & Hc' & Ho' & Hs').
    exists m'. split; [done|]. split; [done|]. split.
    + intros s t o Ho. destruct (Ho' s t o Ho) as [Ho2|(k & c' & e & a & obs & Hk & -> & He & Hen & Hobs)].
      * destruct (Ho1 s t o Ho2) as [?|(-> & e & a & obs & He & Hen & Hobs)]; [by left|].
        right. exists 0, c, e, a, obs. split; [done|]. by rewrite Nat.add_0_r.
      * right. exists (S k), c', e, a, obs. split; [done|]. by rewrite Nat.add_succ_r.
    + intros s t. rewrite Hs', Hs1. split.
      * intros [[?|(-> & e & a & obs & He & Hen & Hobs)]|(k & c' & e & a & obs & Hk & -> & He & Hen & Hobs)]; [by left| |].
        -- right. exists 0, c, e, a, obs. split; [done|]. by rewrite Nat.add_0_r.
        -- right. exists (S k), c', e, a, obs. split; [done|]. by rewrite Nat.add_succ_r.
      * intros [?|([|k] & c' & e & a & obs & Hk & -> & He & Hen & Hobs)]; [left; by left| |].
        -- simpl in Hk. simplify_eq. left. right. rewrite Nat.add_0_r. split; [done|]. eauto 10.
        -- right. exists k, c', e, a, obs. split; [done|]. by rewrite Nat.add_succ_r.
Qed.

Lemma merge_spec ms : (forall m, m ∈ ms -> consistent m) ->
  exists merged, merge_tracks_managers feature_of enumT enumO enumF srt ms = Ok merged /\ consistent merged /\
    exists id : nat * track_id -> track_id,
      (forall a b, input_track ms a -> input_track ms b -> (id a = id b <-> chain feature_of ms a b)) /\
      (forall i s t, is_Some (input ms i s t) -> is_Some (observed merged s (id (i, t)))) /\
      (forall s k o, observed merged s k = Some o -> exists i t, input ms i s t = Some o /\ id (i, t) = k).
Proof.
  intros Hcons. unfold merge_tracks_managers.
  destruct (collect feature_of enumT enumO 0 ms ([], ∅)) as [els feats] eqn:Hcol.
  destruct (collect_spec ms els feats Hcol) as [Hels Hfeats].
  set (E := entries 0 ms) in *. set (N := length E).
  assert (HlenN : length els = N) by (rewrite Hels, fmap_length; done).
  (* facts about the entries *)
  assert (Hinput : forall i t, (exists obs, ((i, t), obs) ∈ E) <-> input_track ms (i, t)).
  { intros i t. unfold input_track. simpl. split.
    - intros (obs & Hin). apply entries_elem in Hin as (m & _ & Hm & Ht). rewrite Nat.sub_0_r in Hm. eauto.
    - intros (m & Hm & [obs Ht]). exists obs. apply entries_elem. exists m. rewrite Nat.sub_0_r. split; [lia|done]. }
  assert (Hobs : forall i t obs s, ((i, t), obs) ∈ E -> obs !! s = input ms i s t).
  { intros i t obs s Hin. apply entries_elem in Hin as (m & _ & Hm & Ht). rewrite Nat.sub_0_r in Hm.
    unfold input. rewrite Hm. simpl. rewrite observed_eq, (Hcons m); [by rewrite Ht|by eapply elem_of_list_lookup_2]. }
  assert (Hinp : forall i s t o, input ms i s t = Some o -> input_track ms (i, t)).
  { intros i s t o Ho. unfold input in Ho. destruct (ms !! i) as [m|] eqn:Hm; [|done]. simpl in Ho.
    exists m. split; [done|]. simpl. rewrite observed_eq, (Hcons m) in Ho by (by eapply elem_of_list_lookup_2).
    destruct (shots_per_track m !! t); [eauto|done]. }
  assert (Huniq : forall e e' a obs obs', E !! e = Some (a, obs) -> E !! e' = Some (a, obs') -> e = e').
  { intros e e' a obs obs' He He'. eapply (NoDup_lookup E.*1); [apply entries_nodup| |]; rewrite list_lookup_fmap; [rewrite He|rewrite He']; done. }
  destruct els as [|el els0].
  { (* no track at all *)
    simpl in HlenN. exists tm_empty. split; [done|]. split; [done|]. exists (fun _ => "").
    assert (Hno : forall a, ~ input_track ms a).
    { intros [i t] Ha. apply Hinput in Ha as (obs & Hin). apply elem_of_list_lookup in Hin as [e He].
      apply lookup_lt_Some in He. fold N in He. lia. }
    split_and!.
    - intros a b Ha. by destruct (Hno a).
    - intros i s t [o Ho]. by destruct (Hno _ (Hinp _ _ _ _ Ho)).
    - intros s k o. by rewrite observed_empty. }
  rewrite HlenN. cbn [res_bind].
  destruct (crep_init N) as [Hc0 Hrk0].
  destruct (union_features_ok N [] (cinit N) (enumF feats) Hc0 Hrk0) as (u & Hu & Hcu).
  { intros k l e Hkl He. rewrite (HenumF feats) in Hkl. apply elem_of_map_to_list in Hkl.
    assert (Hin : e ∈ default [] (feats !! k)) by (by rewrite Hkl).
    apply Hfeats in Hin as (a & obs & s & o & HE & _). by eapply lookup_lt_Some. }
  rewrite Hu. cbn [res_bind]. simpl in Hcu.
  set (rho := fun e => match cfind (size (c_parent u)) (c_parent u) e with Ok (_, r) => r | Err _ => e end).
  assert (Hrho : forall e, e < N -> exists n, Root (c_parent u) e (rho e) n).
  { intros e He. destruct (crep_find N _ _ e Hcu He) as (par' & r & Hf & _ & _ & HR & _). unfold rho. by rewrite Hf. }
  destruct (caggregate_ok N _ rho (c_parent u) (seq 0 N) [] [] Hcu) as (agg & Hagg & Hnd & Hg).
  { intros e He%elem_of_seq. split; [lia|]. apply Hrho. lia. }
  { split; [constructor|]. intros p l. split; [set_solver|]. intros [-> ?]. done. }
  rewrite Hagg. cbn [res_bind]. simpl in Hg.
  (* linked elements = chained tracks *)
  assert (Hlinked : forall e e', linked (star_history (enumF feats)) e e' <->
    linked (map (fun '(_, l) => OpUnion l) (enumF feats)) e e') by (apply star_linked).
  assert (Hunited : forall e e', united (map (fun '(_, l) => OpUnion l) (enumF feats)) e e' <->
    exists k, e ∈ default [] (feats !! k) /\ e' ∈ default [] (feats !! k)).
  { intros e e'. unfold united. split.
    - intros (xs & Hxs & He & He'). rewrite elem_of_list_In, in_map_iff in Hxs. destruct Hxs as ([k l] & [= ->] & Hk).
      rewrite <- elem_of_list_In, (HenumF feats) in Hk. apply elem_of_map_to_list in Hk. exists k. by rewrite Hk.
    - intros (k & He & He'). destruct (feats !! k) as [l|] eqn:Hk; simpl in *; [|set_solver].
      exists l. split; [|done]. rewrite elem_of_list_In, in_map_iff. exists (k, l). split; [done|].
      rewrite <- elem_of_list_In, (HenumF feats). by apply elem_of_map_to_list. }
  assert (Hshare : forall e e' a a' obs obs', E !! e = Some (a, obs) -> E !! e' = Some (a', obs') ->
    (united (map (fun '(_, l) => OpUnion l) (enumF feats)) e e' <-> share feature_of ms a a')).
  { intros e e' [i t] [i' t'] obs obs' He He'. rewrite Hunited. unfold share. simpl. split.
    - intros (k & Hk & Hk'). apply Hfeats in Hk as (a1 & o1 & s & o & HE1 & Ho1 & ->).
      apply Hfeats in Hk' as (a2 & o2 & s' & o' & HE2 & Ho2 & [= <- Hfe]). rewrite He in HE1. rewrite He' in HE2. simplify_eq.
      exists s, o, o'. split_and!; [| |done].
      + rewrite <- (Hobs _ _ o1); [done|]. by eapply elem_of_list_lookup_2.
      + rewrite <- (Hobs _ _ o2); [done|]. by eapply elem_of_list_lookup_2.
    - intros (s & o & o' & Ho & Ho' & Hfe). exists (s, feature_of o). split; apply Hfeats.
      + exists (i, t), obs, s, o. split; [done|]. split; [|done]. rewrite (Hobs i t); [done|]. by eapply elem_of_list_lookup_2.
      + exists (i', t'), obs', s, o'. split; [done|]. split; [|by rewrite Hfe]. rewrite (Hobs i' t'); [done|]. by eapply elem_of_list_lookup_2. }
  assert (Hchain : forall e e' a a' obs obs', E !! e = Some (a, obs) -> E !! e' = Some (a', obs') ->
    (linked (star_history (enumF feats)) e e' <-> chain feature_of ms a a')).
  { intros e e' a a' obs obs' He He'. rewrite Hlinked. split.
    - intros Hl. revert a obs He. induction Hl as [x|x y z Hxy Hl IH]; intros a obs He.
      + rewrite He in He'. simplify_eq. constructor.
      + assert (Hy : exists ay oy, E !! y = Some (ay, oy)).
        { apply Hunited in Hxy as (k & _ & Hk). apply Hfeats in Hk as (ay & oy & _ & _ & Hy & _). eauto. }
        destruct Hy as (ay & oy & Hy). econstructor; [by eapply Hshare|]. by eapply IH.
    - intros Hch. revert e obs He. induction Hch as [x|x y z Hxy Hch IH]; intros e obs He.
      + rewrite (Huniq _ _ _ _ _ He He'). constructor.
      + assert (Hy : exists ey oy, E !! ey = Some (y, oy)).
        { destruct Hxy as (s & oa & ob & _ & Hob & _). destruct y as [iy ty]. simpl in Hob.
          apply Hinp in Hob. apply Hinput in Hob as (oy & Hin). apply elem_of_list_lookup in Hin as [ey Hey]. eauto. }
        destruct Hy as (ey & oy & Hey). econstructor; [by eapply Hshare|]. eapply IH; eauto. }
  (* clusters *)
  set (cl := srt agg.*2).
  assert (Hcl : forall c, c ∈ cl <-> exists p, c = filter (fun x => rho x = p) (seq 0 N) /\ c <> []).
  { intros c. unfold cl. rewrite (Hsrt agg.*2), elem_of_list_fmap. split.
    - intros ([p l] & -> & Hin). exists p. by apply Hg.
    - intros (p & Hc & Hne). exists (p, c). split; [done|]. by apply Hg. }
  assert (Hclass : forall c e, c ∈ cl -> e ∈ c -> e < N /\ c = filter (fun x => rho x = rho e) (seq 0 N)).
  { intros c e Hc He. apply Hcl in Hc as (p & -> & _). apply elem_of_list_filter in He as [<- He%elem_of_seq]. split; [lia|done]. }
  assert (Hndcl : NoDup cl).
  { unfold cl. rewrite (Hsrt agg.*2). apply NoDup_alt. intros i j t Hi Hj.
    rewrite list_lookup_fmap in Hi, Hj.
    destruct (agg !! i) as [[p l]|] eqn:Ei; simpl in Hi; [|done]. destruct (agg !! j) as [[q l']|] eqn:Ej; simpl in Hj; [|done].
    injection Hi as ->. injection Hj as ->.
    assert (Hp : (p, t) ∈ agg) by (by eapply elem_of_list_lookup_2).
    assert (Hq : (q, t) ∈ agg) by (by eapply elem_of_list_lookup_2).
    assert (p = q) as <-.
    { apply Hg in Hp as [Hp Hne]. apply Hg in Hq as [Hq _]. destruct t as [|x t]; [done|].
      assert (Hx1 : x ∈ filter (fun x => rho x = p) (seq 0 N)) by (rewrite <- Hp; left).
      assert (Hx2 : x ∈ filter (fun x => rho x = q) (seq 0 N)) by (rewrite <- Hq; left).
      apply elem_of_list_filter in Hx1 as [<- _]. apply elem_of_list_filter in Hx2 as [<- _]. done. }
    eapply NoDup_lookup; [exact Hnd| |]; rewrite list_lookup_fmap; [rewrite Ei|rewrite Ej]; done. }
  assert (Hcov : forall e, e < N -> exists k c, cl !! k = Some c /\ e ∈ c).
  { intros e He. assert (Hin : filter (fun x => rho x = rho e) (seq 0 N) ∈ cl).
    { apply Hcl. exists (rho e). split; [done|]. intros Hnil.
      assert (Hin : e ∈ filter (fun x => rho x = rho e) (seq 0 N)) by (apply elem_of_list_filter; split; [done|apply elem_of_seq; lia]).
      rewrite Hnil in Hin. set_solver. }
    apply elem_of_list_lookup in Hin as [k Hk]. exists k, (filter (fun x => rho x = rho e) (seq 0 N)). split; [done|].
    apply elem_of_list_filter. split; [done|]. apply elem_of_seq. lia. }
  assert (Hsamecl : forall k k' c c' e, cl !! k = Some c -> cl !! k' = Some c' -> e ∈ c -> e ∈ c' -> k = k').
  { intros k k' c c' e Hk Hk' He He'.
    destruct (Hclass c e) as [_ H1]; [by eapply elem_of_list_lookup_2|done|].
    destruct (Hclass c' e) as [_ H2]; [by eapply elem_of_list_lookup_2|done|].
    eapply NoDup_lookup; [exact Hndcl|exact Hk|]. by rewrite Hk', H1, H2. }
  destruct (add_clusters_spec ms (el :: els0) 0 cl tm_empty consistent_empty Hels) as (merged & Hm & Hcm & Hom & Hsm).
  { intros c e Hc He. by eapply Hclass. }
  exists merged. split; [done|]. split; [done|].
  set (elem_of_track := fun a => default 0 (fst <$> list_find (fun en => en.1 = a) E)).
  assert (Het : forall e a obs, E !! e = Some (a, obs) -> elem_of_track a = e).
  { intros e a obs He. unfold elem_of_track. destruct (list_find (fun en => en.1 = a) E) as [[e' [a' obs']]|] eqn:Hf; simpl.
    - apply list_find_Some in Hf as (He' & Ha & _). simpl in Ha. subst a'. by eapply Huniq.
    - exfalso. apply list_find_None in Hf. rewrite Forall_forall in Hf. eapply (Hf (a, obs)); [by eapply elem_of_list_lookup_2|done]. }
  exists (fun a => pretty (default 0 (fst <$> list_find (fun c => elem_of_track a ∈ c) cl))).
  assert (Hid : forall e k c, cl !! k = Some c -> e ∈ c -> list_find (fun c => e ∈ c) cl = Some (k, c)).
  { intros e k c Hk He. destruct (list_find (fun c => e ∈ c) cl) as [[k' c']|] eqn:Hf.
    - apply list_find_Some in Hf as (Hk' & He' & _). assert (k = k') as <- by eauto. congruence.
    - exfalso. apply list_find_None in Hf. rewrite Forall_forall in Hf. eapply (Hf c); [by eapply elem_of_list_lookup_2|done]. }
  split_and!.
  - intros [i t] [i' t'] Ha Hb. apply Hinput in Ha as (oa & Ha). apply Hinput in Hb as (ob & Hb).
    apply elem_of_list_lookup in Ha as [e He]. apply elem_of_list_lookup in Hb as [e' He'].
    rewrite (Het _ _ _ He), (Het _ _ _ He').
    pose proof (lookup_lt_Some _ _ _ He) as HeN. pose proof (lookup_lt_Some _ _ _ He') as HeN'. fold N in HeN, HeN'.
    destruct (Hcov e HeN) as (k & c & Hk & Hec). destruct (Hcov e' HeN') as (k' & c' & Hk' & Hec').
    rewrite (Hid _ _ _ Hk Hec), (Hid _ _ _ Hk' Hec'). cbn.
    rewrite <- (Hchain _ _ _ _ _ _ He He').
    rewrite <- (crep_linked _ _ _ Hcu e e' _ _ (Hrho _ HeN) (Hrho _ HeN')).
    destruct (Hclass c e) as [_ Hceq]; [by eapply elem_of_list_lookup_2|done|]. split.
    + intros Heq%(inj pretty). subst k'. assert (c = c') as <- by congruence.
      rewrite Hceq in Hec'. apply elem_of_list_filter in Hec' as [-> _]. done.
    + intros Heq. f_equal. eapply (Hsamecl k k' c c' e'); [done..| |done].
      rewrite Hceq. apply elem_of_list_filter. split; [done|]. apply elem_of_seq. lia.
  - intros i s t [o Ho]. pose proof (Hinp _ _ _ _ Ho) as Ht. apply Hinput in Ht as (obs & Hin).
    pose proof (Hobs _ _ _ s Hin) as Hos. apply elem_of_list_lookup in Hin as [e He].
    rewrite (Het _ _ _ He). pose proof (lookup_lt_Some _ _ _ He) as HeN. fold N in HeN.
    destruct (Hcov e HeN) as (k & c & Hk & Hec). rewrite (Hid _ _ _ Hk Hec). cbn.
    apply Hsm. right. exists k, c, e, (i, t), obs. split_and!; try done. rewrite Hos, Ho. eauto.
  - intros s k o Ho. destruct (Hom s k o Ho) as [Habs|(j & c & e & [i t] & obs & Hj & -> & Hec & He & Hos)].
    { by rewrite observed_empty in Habs. }
    exists i, t. split.
    + rewrite <- (Hobs i t obs); [done|]. by eapply elem_of_list_lookup_2.
    + rewrite (Het _ _ _ He). by rewrite (Hid _ _ _ Hj Hec).
Qed.
End Merge.
