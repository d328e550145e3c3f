(** Proofs about the robust estimators. *)
From stdpp Require Import prelude gmap sorting.
From Coq Require Import Reals Lra Lia.
From Verif Require Import Base Lin RotModel TriangModel BundleModel BundleProofs CullModel CullProofs RobustModel RobustSpec.
Local Open Scope R_scope.

(** ** Scores *)
Lemma places_nil P : places P [] [].
Proof. split; [constructor|]. intros i. split; [by intros ?%elem_of_nil|]. by intros (e & ? & _). Qed.
Lemma places_snoc (P : R -> Prop) errors l e : places P errors l ->
  (P e -> places P (errors ++ [e]) (l ++ [length errors])) /\ (~ P e -> places P (errors ++ [e]) l).
Proof.
  intros [Hs Hi]. assert (forall i, i ∈ l -> (i < length errors)%nat) as Hlt. { intros i (x & Hx & _)%Hi. by apply lookup_lt_Some in Hx. }
  assert (forall i x, (errors ++ [e]) !! i = Some x <-> errors !! i = Some x \/ (i = length errors /\ x = e)) as Hl.
  { intros i x. rewrite lookup_app_Some. split.
    - intros [?|[Hge H]]; [by left|right]. apply list_lookup_singleton_Some in H as [? <-]. split; [lia|done].
    - intros [?|[-> ->]]; [by left|right]. split; [lia|]. by rewrite Nat.sub_diag. }
  split; intros HP; split.
  - clear Hi Hl. induction l as [|a l IH]; [repeat constructor|]. inversion Hs as [|? ? Hs' Hf]; subst. cbn. constructor; [apply IH; [done|]; intros; apply Hlt; by right|].
    apply Forall_app. split; [done|]. constructor; [|done]. apply Hlt. by left.
  - intros i. rewrite elem_of_app, elem_of_list_singleton, Hi. setoid_rewrite Hl. naive_solver.
  - done.
  - intros i. rewrite Hi. setoid_rewrite Hl. naive_solver.
Qed.
Lemma imap_pair_snoc (errors : list R) e : imap pair (errors ++ [e]) = imap pair errors ++ [(length errors, e)].
Proof. rewrite imap_app. cbn. by rewrite Nat.add_0_r. Qed.
Lemma ransac_scored thr errors : scored RANSAC thr errors (RansacScoring thr errors).1 (RansacScoring thr errors).2.
Proof.
  cbn. unfold RansacScoring. induction errors as [|e errors IH] using rev_ind; [split; [apply places_nil|done]|].
  rewrite imap_pair_snoc, foldl_app. cbn [foldl]. destruct (foldl _ _ _) as [s l]. cbn in IH. destruct IH as [IH1 ->].
  destruct (places_snoc _ _ _ e IH1) as [H1 H2]. destruct (Rlt_dec e thr); cbn [fst snd]; [|split; [by apply H2|done]].
  split; [by apply H1|]. rewrite app_length. cbn. by rewrite plus_INR.
Qed.
Lemma truncated_snoc thr errors e : truncated_cost thr (errors ++ [e]) = truncated_cost thr errors + Rmin (e * e) (thr * thr).
Proof. unfold truncated_cost. induction errors as [|a errors IH]; cbn in *; [lra|]. rewrite IH. lra. Qed.
Lemma msac_scored thr errors : Forall (fun e => 0 <= e) errors -> 0 <= thr -> scored MSAC thr errors (MSacScoring thr errors).1 (MSacScoring thr errors).2.
Proof.
  intros Hpos Hthr. cbn. unfold MSacScoring.
  assert (let r := foldl (fun '(score, inliers) '(index, v) => if Rle_dec v thr then (score + v * v, inliers ++ [index]) else (score + thr * thr, inliers)) (0, []) (imap pair errors) in
          places (fun e => e <= thr) errors r.2 /\ r.1 = truncated_cost thr errors) as H.
  { cbn zeta. induction errors as [|e errors IH] using rev_ind; [split; [apply places_nil|done]|].
    apply Forall_app in Hpos as [Hpos He]. rewrite Forall_singleton in He. specialize (IH Hpos).
    rewrite imap_pair_snoc, foldl_app. cbn [foldl]. destruct (foldl _ _ _) as [s l]. cbn in IH. destruct IH as [IH1 ->].
    destruct (places_snoc _ _ _ e IH1) as [H1 H2]. rewrite truncated_snoc. destruct (Rle_dec e thr); cbn [fst snd].
    - split; [by apply H1|]. rewrite Rmin_left by (apply Rmult_le_compat; lra). done.
    - split; [by apply H2|]. rewrite Rmin_right by (apply Rmult_le_compat; lra). done. }
  destruct (foldl _ _ _) as [s l]. cbn in *. destruct H as [H1 ->]. split; [done|]. unfold score_eps. f_equal. f_equal. lra.
Qed.
(** the median *)
Lemma merge_sort_nth (errors : list R) (k : nat) (x : R) : merge_sort Rle errors !! k = Some x ->
  x ∈ errors /\ (length (filter (fun e => (e < x)%R) errors) <= k)%nat /\ (k < length (filter (fun e => (e <= x)%R) errors))%nat.
Proof.
  pose proof (merge_sort_Permutation Rle errors) as HP. assert (Sorted Rle (merge_sort Rle errors)) as Hs.
  { apply Sorted_merge_sort. intros a b. destruct (Rle_dec a b); [by left|right; lra]. }
  apply Sorted_StronglySorted in Hs; [|intros a b c; lra]. intros Hx. split; [rewrite <- HP; by eapply elem_of_list_lookup_2|].
  assert (length (filter (fun e => (e < x)%R) errors) = length (filter (fun e => (e < x)%R) (merge_sort Rle errors))) as -> by by rewrite HP.
  assert (length (filter (fun e => (e <= x)%R) errors) = length (filter (fun e => (e <= x)%R) (merge_sort Rle errors))) as -> by by rewrite HP.
  clear HP. generalize dependent (merge_sort Rle errors). intros l. revert k. induction l as [|a l IH]; intros k Hs Hx; [done|].
  inversion Hs as [|? ? Hs' Hf]; subst. rewrite Forall_forall in Hf. rewrite !filter_cons. destruct k as [|k]; cbn in Hx.
  - injection Hx as ->. rewrite decide_False by lra. rewrite decide_True by lra. cbn. split; [|lia].
    enough (filter (fun e => (e < x)%R) l = []) as -> by (cbn; lia). destruct (filter _ l) as [|b l'] eqn:E; [done|]. assert (b ∈ filter (fun e => (e < x)%R) l) as Hb by (rewrite E; by left).
    apply elem_of_list_filter in Hb as [Hlt Hb]. apply Hf in Hb. lra.
  - specialize (IH _ Hs' Hx) as [IH1 IH2]. assert (a <= x) by (apply Hf; by eapply elem_of_list_lookup_2). rewrite (decide_True (P := a <= x)) by done. cbn. split; [|lia]. case_decide; cbn; lia.
Qed.
Lemma median_spec' errors : errors <> [] -> median_of errors (ComputeMedian errors).
Proof.
  intros Hne. unfold ComputeMedian. assert (length errors <> 0%nat) by (by destruct errors).
  destruct (lookup_lt_is_Some_2 (merge_sort Rle errors) (length errors / 2)) as [x Hx].
  { rewrite merge_sort_Permutation. apply Nat.div_lt; lia. }
  rewrite Hx. cbn. destruct (merge_sort_nth _ _ _ Hx) as (H1 & H2 & H3). split; [done|].
  pose proof (Nat.div_mod (length errors) 2 ltac:(lia)). pose proof (Nat.mod_upper_bound (length errors) 2 ltac:(lia)). lia.
Qed.
Lemma lmeds_scored mult errors : errors <> [] -> scored LMedS mult errors (LMedSScoring mult errors).1 (LMedSScoring mult errors).2.
Proof.
  intros Hne. cbn. exists (ComputeMedian errors). split; [by apply median_spec'|]. split; [|unfold score_eps; f_equal; f_equal; lra].
  generalize (mult * (1.4826 * ComputeMedian errors)). intros thr. clear Hne. induction errors as [|e errors IH] using rev_ind; [apply places_nil|].
  rewrite imap_pair_snoc, foldl_app. cbn [foldl]. destruct (places_snoc _ _ _ e IH) as [H1 H2]. destruct (Rle_dec e thr); [by apply H1|by apply H2].
Qed.
Lemma scoring_scored t thr errors : errors <> [] -> Forall (fun e => 0 <= e) errors -> 0 <= thr ->
  scored t thr errors (scoring t thr errors).1 (scoring t thr errors).2.
Proof. intros. destruct t; [apply ransac_scored|by apply msac_scored|by apply lmeds_scored]. Qed.

(** ** Samples *)
Section Sampler.
Variable draw : nat -> nat -> nat.
Hypothesis Hrange : in_range draw.
Lemma fresh_ok fuel pos range used v p : fresh draw fuel pos range used = Some (v, p) -> v ∉ used /\ (v <= range)%nat.
Proof using Hrange.
  revert pos. induction fuel as [|fuel IH]; intros pos; cbn; [done|]. case_decide; [apply IH|]. intros [= <- <-]. split; [done|apply Hrange].
Qed.
Lemma generate_ok fuel size : forall pos range used l p, GenerateOneSample draw fuel size pos range used = Some (l, p) ->
  NoDup used -> Forall (fun i => i <= range)%nat used -> NoDup l /\ length l = (length used + size)%nat /\ Forall (fun i => i <= range)%nat l.
Proof using Hrange.
  induction size as [|size IH]; intros pos range used l p; cbn.
  - intros [= <- <-] Hn Hf. split_and!; [done|lia|done].
  - destruct (fresh draw fuel pos range used) as [[v q]|] eqn:E; cbn; [|done]. intros H Hn Hf. apply fresh_ok in E as [E1 E2].
    destruct (IH _ _ _ _ _ H) as (H1 & H2 & H3).
    + apply NoDup_app. split_and!; [done| |apply NoDup_singleton]. intros x Hx ->%elem_of_list_singleton. done.
    + apply Forall_app. split; [done|]. by constructor.
    + rewrite app_length in H2. cbn in H2. split_and!; [done|lia|done].
Qed.
Lemma samples_ok {A} fuel (samples : list A) size pos l p : GetRandomSamples draw fuel samples size pos = Ok (l, p) -> taken size samples l.
Proof using Hrange.
  unfold GetRandomSamples. case_decide as Hne; [done|]. destruct (GenerateOneSample _ _ _ _ _ _) as [[idx q]|] eqn:E; cbn; [|done]. intros [= <- <-].
  destruct (generate_ok _ _ _ _ _ _ _ E) as (H1 & H2 & H3); [constructor|constructor|]. exists idx. split; [done|]. split; [done|].
  assert (length samples <> 0%nat) by (by destruct samples). clear - H3 H. induction H3 as [|i idx Hi _ IH]; [constructor|]. cbn.
  destruct (lookup_lt_is_Some_2 samples i) as [a Ha]; [lia|]. rewrite Ha. by constructor.
Qed.
(** termination *)
Lemma fresh_fair n size range used pos : fair draw size n -> (range < size)%nat -> NoDup used -> Forall (fun i => i <= range)%nat used -> (length used <= range)%nat ->
  is_Some (fresh draw n pos range used).
Proof using Hrange.
  intros Hfair Hr Hn Hf Hl. assert (exists v, (v <= range)%nat /\ v ∉ used) as (v & Hv & Hnv).
  { destruct (decide (Forall (fun v => v ∈ used) (seq 0 (S range)))) as [Hall|Hex].
    - exfalso. assert (seq 0 (S range) ⊆+ used) as Hsub. { apply NoDup_submseteq; [apply NoDup_seq|]. intros x Hx. rewrite Forall_forall in Hall. by apply Hall. }
      apply submseteq_length in Hsub. rewrite seq_length in Hsub. lia.
    - apply not_Forall_Exists in Hex; [|apply _]. apply Exists_exists in Hex as (v & Hv & Hnv). exists v. apply elem_of_seq in Hv. split; [lia|done]. }
  destruct (Hfair range v pos Hr Hv) as (j & Hj & Ed). clear - Hj Ed Hnv. revert n pos Hj Ed. induction j as [|j IH]; intros n pos Hj Ed; (destruct n as [|n]; [lia|]); cbn.
  - rewrite Nat.add_0_r in Ed. rewrite Ed. rewrite decide_False by done. eauto.
  - case_decide; [|eauto]. apply IH; [lia|]. by rewrite <- Ed, Nat.add_succ_r.
Qed.
Lemma generate_fair n sz range : fair draw sz n -> (range < sz)%nat -> forall size used pos, NoDup used -> Forall (fun i => i <= range)%nat used -> (length used + size <= S range)%nat ->
  is_Some (GenerateOneSample draw n size pos range used).
Proof using Hrange.
  intros Hfair Hr. induction size as [|size IH]; intros used pos Hn Hf Hl; cbn; [eauto|].
  destruct (fresh_fair n sz range used pos Hfair Hr Hn Hf) as [[v p] E]; [lia|]. rewrite E. cbn. apply fresh_ok in E as [E1 E2]. apply IH.
  - apply NoDup_app. split_and!; [done| |apply NoDup_singleton]. intros x Hx ->%elem_of_list_singleton. done.
  - apply Forall_app. split; [done|]. by constructor.
  - rewrite app_length. cbn. lia.
Qed.
Lemma samples_fair {A} n sz (samples : list A) size pos : fair draw sz n -> (length samples <= sz)%nat -> samples <> [] -> (size <= length samples)%nat ->
  exists l p, GetRandomSamples draw n samples size pos = Ok (l, p).
Proof using Hrange.
  intros Hfair Hsz Hne Hs. unfold GetRandomSamples. rewrite decide_False by done. assert (length samples <> 0%nat) by (by destruct samples).
  destruct (generate_fair n sz (length samples - 1) Hfair ltac:(lia) size [] pos) as [[l p] E]; [constructor|constructor|cbn; lia|]. rewrite E. cbn. eauto.
Qed.
(** ... and not otherwise *)
Lemma samples_diverge {A} n (samples : list A) size pos : samples <> [] -> (length samples < size)%nat -> GetRandomSamples draw n samples size pos = Err Diverges.
Proof using Hrange.
  intros Hne Hs. unfold GetRandomSamples. rewrite decide_False by done. destruct (GenerateOneSample _ _ _ _ _ _) as [[idx q]|] eqn:E; [|done]. exfalso.
  destruct (generate_ok _ _ _ _ _ _ _ E) as (H1 & H2 & H3); [constructor|constructor|]. assert (length samples <> 0%nat) by (by destruct samples).
  assert (idx ⊆+ seq 0 (length samples)) as Hsub. { apply NoDup_submseteq; [done|]. intros i Hi. rewrite Forall_forall in H3. apply H3 in Hi. apply elem_of_seq. lia. }
  apply submseteq_length in Hsub. rewrite seq_length in Hsub. cbn in H2. lia.
Qed.
End Sampler.

(** ** The loop *)
Section Loop.
Context {Data Model : Type}.
Variable draw : nat -> nat -> nat.
Hypothesis Hrange : in_range draw.
Variable fuel minimal : nat.
Variable estimate estimate_non_minimal : list Data -> list Model.
Variable error : Model -> Data -> R.
Variable scorer : list R -> R * list nat.
Variable samples : list Data.
Notation sc m := (scorer (error m <$> samples)).
Hypothesis Hpos : forall m, 0 <= (sc m).1.
Notation state := (@state Data Model).
Notation eval := (evaluate error scorer samples).

Definition from_inliers (seen : list Model) (m : Model) : Prop :=
  exists m' n l, m' ∈ seen /\ (minimal <= n)%nat /\ taken n (omap (fun i => samples !! i) (sc m').2) l /\ m ∈ estimate_non_minimal l.
Definition origin (drawn : list (list Data)) (seen : list Model) (m : Model) : Prop :=
  (exists d, d ∈ drawn /\ m ∈ estimate d) \/ from_inliers seen m.
Record inv_best (drawn : list (list Data)) (seen : list Model) (b : score_info Model) : Prop := InvBest {
  ib_model : exists m0, model b = Some m0 /\ m0 ∈ seen /\ exists d, d ∈ drawn /\ m0 ∈ estimate d;
  ib_lo : exists m, lo_model b = Some m /\ m ∈ seen /\ (score b, inliers b) = sc m;
  ib_max : forall m, m ∈ seen -> (sc m).1 <= score b }.
Record inv (s : state) : Prop := Inv {
  i_best : (seen s = [] /\ best s = score0) \/ inv_best (drawn s) (seen s) (best s);
  i_seen : forall m, m ∈ seen s -> origin (drawn s) (seen s) m;
  i_drawn : Forall (taken minimal samples) (drawn s) }.

Lemma eval_sc m mm : eval m mm = Score (sc m).1 (sc m).2 mm (Some m).
Proof. unfold evaluate. by destruct (scorer _). Qed.
Lemma origin_mono drawn drawn' seen seen' m : drawn ⊆ drawn' -> seen ⊆ seen' -> origin drawn seen m -> origin drawn' seen' m.
Proof. intros H1 H2 [(d & ? & ?)|(m' & n & l & ? & ?)]; [left; exists d; auto|right; exists m', n, l; auto]. Qed.
Lemma best_step drawn drawn' seen b m mm : drawn ⊆ drawn' ->
  (exists m0, mm = Some m0 /\ m0 ∈ seen ++ [m] /\ exists d, d ∈ drawn' /\ m0 ∈ estimate d) ->
  (seen = [] /\ b = score0) \/ inv_best drawn seen b ->
  inv_best drawn' (seen ++ [m]) (max_score (eval m mm) b).
Proof using Hpos Hrange.
  intros Hd Hm0 Hb. unfold max_score. rewrite eval_sc. cbn [score]. destruct (Rlt_dec _ _) as [Hlt|Hge].
  - destruct Hb as [[-> ->]|[(m0 & ? & ? & d & ? & ?) (m1 & ? & ? & ?) H3]]; [pose proof (Hpos m); cbn in Hlt; lra|]. split.
    + exists m0. split; [done|]. split; [apply elem_of_app; by left|]. exists d. auto.
    + exists m1. split; [done|]. split; [apply elem_of_app; by left|done].
    + intros m' [H'| ->%elem_of_list_singleton]%elem_of_app; [by apply H3|lra].
  - split; cbn [model lo_model score inliers].
    + done.
    + exists m. split; [done|]. split; [apply elem_of_app; right; by apply elem_of_list_singleton|by destruct (sc m)].
    + intros m' [H'| ->%elem_of_list_singleton]%elem_of_app; [|lra]. destruct Hb as [[-> ->]|[_ _ H3]]; [by apply elem_of_nil in H'|]. specialize (H3 _ H'). lra.
Qed.
Definition started (s : state) : Prop := inv_best (drawn s) (seen s) (best s).
Lemma lo_step m s : inv s -> started s -> from_inliers (seen s) m ->
  let s' := try_lo_model error scorer samples s m in inv s' /\ started s' /\ drawn s' = drawn s /\ seen s' = seen s ++ [m].
Proof using Hpos Hrange.
  intros [Hb Hs Hd] Hst Hm. cbn zeta. assert (started (try_lo_model error scorer samples s m)) as Hst'.
  { unfold started, try_lo_model. cbn [best drawn seen]. apply best_step with (drawn s); [done| |by right]. destruct (ib_model _ _ _ Hst) as (m0 & ? & ? & ?). exists m0. split; [done|]. split; [apply elem_of_app; by left|done]. }
  split; [|done]. split; cbn [try_lo_model best drawn seen]; [by right| |done]. intros m' [H'| ->%elem_of_list_singleton]%elem_of_app.
  - apply origin_mono with (drawn s) (seen s); [done|set_solver|auto].
  - right. destruct Hm as (m'' & n & l & ? & ?). exists m'', n, l. split; [apply elem_of_app; by left|done].
Qed.
Lemma lo_steps l s : inv s -> started s -> (forall m, m ∈ l -> from_inliers (seen s) m) ->
  let s' := foldl (try_lo_model error scorer samples) s l in inv s' /\ started s' /\ drawn s' = drawn s /\ seen s ⊆ seen s'.
Proof using Hpos Hrange.
  revert s. induction l as [|m l IH]; intros s Hi Hst Hl; [by cbn|]. cbn [foldl].
  destruct (lo_step m s Hi Hst (Hl m ltac:(by left))) as (H1 & H2 & H3 & H4).
  destruct (IH (try_lo_model error scorer samples s m)) as (G1 & G2 & G3 & G4); [done|done| |].
  - intros m' Hm'. destruct (Hl m' ltac:(by right)) as (m'' & n & k & ? & ?). exists m'', n, k. split; [rewrite H4; apply elem_of_app; by left|done].
  - cbn zeta in *. split; [done|]. split; [done|]. split; [congruence|]. rewrite H4 in G4. set_solver.
Qed.
Notation lo := (local_optimization draw fuel minimal estimate_non_minimal error scorer samples).
Lemma lo_inv s s' : inv s -> started s -> lo s = Ok s' -> inv s' /\ started s' /\ drawn s' = drawn s /\ seen s ⊆ seen s'.
Proof using Hpos Hrange.
  intros Hi Hst. unfold local_optimization. destruct (GetRandomSamples _ _ _ _ _) as [[l p]|] eqn:E; cbn [res_bind]; [|done]. intros [= <-].
  apply samples_ok in E; [|done]. destruct (lo_steps (estimate_non_minimal l) (State (best s) p (stop s) (drawn s) (seen s))) as (H1 & H2 & H3 & H4).
  - destruct Hi. by split.
  - done.
  - intros m Hm. destruct (ib_lo _ _ _ Hst) as (m1 & _ & H1 & H2). exists m1, (Nat.max (Nat.min 12 (length (inliers (best s)) / 2)) minimal), l.
    split; [done|]. split; [lia|]. split; [|done]. rewrite <- H2. cbn. done.
  - done.
Qed.
Lemma los_inv l s s' : inv s -> started s -> foldM (fun s (_ : nat) => lo s) s l = Ok s' -> inv s' /\ started s' /\ drawn s' = drawn s /\ seen s ⊆ seen s'.
Proof using Hpos Hrange.
  revert s. induction l as [|m l IH]; intros s Hi Hst; cbn [foldM]; [intros [= <-]; done|]. destruct (lo s) as [s1|] eqn:E; [|done].
  destruct (lo_inv _ _ Hi Hst E) as (H1 & H2 & H3 & H4). intros H. destruct (IH _ H1 H2 H) as (G1 & G2 & G3 & G4). split_and!; [done|done|congruence|by etrans].
Qed.
Notation try1 p i := (try_model draw fuel minimal estimate_non_minimal error scorer p samples i).
Definition stopped (p : params) (i : nat) (s : state) : Prop := stop s = ShouldStop minimal p (length (inliers (best s))) (length samples) i.
Lemma try_stopped p i s m : stop s = true -> try1 p i s m = Ok s.
Proof. intros H. unfold try_model. by rewrite H. Qed.
Lemma model_inv p i s m s' : inv s -> (exists d, d ∈ drawn s /\ m ∈ estimate d) -> try1 p i s m = Ok s' ->
  inv s' /\ drawn s' = drawn s /\ seen s ⊆ seen s' /\ (m ∈ seen s' \/ stop s = true /\ stop s' = true) /\ ((stop s = true /\ s' = s) \/ stopped p i s').
Proof using Hpos Hrange.
  intros Hi Hm. unfold try_model. destruct (stop s) eqn:Est.
  { intros [= <-]. rewrite Est. split_and!; [done|done|done|by right|by left]. }
  set (s1 := State _ _ _ _ _). assert (started s1) as Hst1.
  { unfold started. cbn [s1 best drawn seen]. apply best_step with (drawn s); [done| |apply Hi]. exists m. split; [done|]. split; [apply elem_of_app; right; by apply elem_of_list_singleton|done]. }
  assert (inv s1) as Hi1.
  { destruct Hi as [Hb Hs Hd]. split; [by right| |done]. cbn [s1 drawn seen]. intros m' [H'| ->%elem_of_list_singleton]%elem_of_app; [|by left].
    apply origin_mono with (drawn s) (seen s); [done|set_solver|auto]. }
  assert (seen s1 = seen s ++ [m]) as Hsn by done. assert (drawn s1 = drawn s) as Hdn by done. cbn zeta. clearbody s1.
  assert (forall s2, inv s2 /\ started s2 /\ drawn s2 = drawn s1 /\ seen s1 ⊆ seen s2 ->
    Ok (State (best s2) (pos s2) (ShouldStop minimal p (length (inliers (best s2))) (length samples) i) (drawn s2) (seen s2)) = Ok s' ->
    inv s' /\ drawn s' = drawn s /\ seen s ⊆ seen s' /\ (m ∈ seen s' \/ false = true /\ stop s' = true) /\ ((false = true /\ s' = s) \/ stopped p i s')) as Hend.
  { intros s2 (H1 & H2 & H3 & H4) [= <-]. rewrite Hsn in H4. cbn [drawn seen]. split; [destruct H1; by split|]. split; [congruence|]. split; [set_solver|]. split; [left; set_solver|].
    right. done. }
  destruct (_ && use_local_optimization p).
  - destruct (foldM _ _ _) as [s2|] eqn:E; [|done]. intros H. apply (Hend s2); [|done]. by eapply los_inv.
  - intros H. by apply (Hend s1).
Qed.
Lemma models_inv p i l s s' : inv s -> stop s = false -> (forall m, m ∈ l -> exists d, d ∈ drawn s /\ m ∈ estimate d) -> foldM (try1 p i) s l = Ok s' ->
  inv s' /\ drawn s' = drawn s /\ seen s ⊆ seen s' /\ (l ⊆ seen s' \/ stop s' = true) /\ (stop s' = true -> stopped p i s').
Proof using Hpos Hrange.
  intros Hi Hs Hl. assert (stop s = true -> stopped p i s) as Hst by (by rewrite Hs). clear Hs. revert s Hi Hst Hl. induction l as [|m l IH]; intros s Hi Hst Hl; cbn [foldM].
  - intros [= <-]. split_and!; [done|done|done|left; set_solver|done].
  - destruct (try1 p i s m) as [s1|] eqn:E; [|done]. intros H. destruct (model_inv p i s m s1 Hi (Hl m ltac:(by left)) E) as (H1 & H2 & H3 & H4 & H5).
    destruct (IH s1 H1) as (G1 & G2 & G3 & G4 & G5).
    + destruct H5 as [[? ->]|?]; auto.
    + intros m' Hm'. rewrite H2. apply Hl. by right.
    + done.
    + split; [done|]. split; [congruence|]. split; [by etrans|]. split; [|done]. destruct H4 as [H4|[_ H4]].
      * destruct G4 as [G4|G4]; [left|by right]. intros x [-> |Hx]%elem_of_cons; [by apply G3|by apply G4].
      * right. clear - H H4. revert s1 H4 H. induction l as [|x k IHk]; intros s1 Hs1; cbn [foldM]; [by intros [= <-]|]. cbn in IHk |- *. rewrite try_stopped by done. by apply IHk.
Qed.
Notation loop1 := (loop draw fuel minimal estimate estimate_non_minimal error scorer).
(** All the models of every sample drawn are seen, but for the last sample if the loop was stopped *)
Definition explored (s : state) : Prop :=
  (forall d m, d ∈ drawn s -> m ∈ estimate d -> m ∈ seen s) \/
  (stop s = true /\ forall l d0 d m, drawn s = l ++ [d0] -> d ∈ l -> m ∈ estimate d -> m ∈ seen s).
Lemma loop_inv p n : forall i s s', inv s -> explored s -> length (drawn s) = i -> (stop s = true -> stopped p (i - 1) s) ->
  loop1 p samples n i s = Ok s' ->
  inv s' /\ explored s' /\ (length (drawn s') <= i + n)%nat /\
  (stop s' = true -> stopped p (length (drawn s') - 1) s') /\ (stop s' = false -> length (drawn s') = i + n)%nat.
Proof using Hpos Hrange.
  induction n as [|n IH]; intros i s s' Hi He Hl Hst; cbn [loop].
  - intros [= <-]. split_and!; [done|done|lia| |]; [rewrite Hl; exact Hst|intros; lia].
  - destruct (stop s) eqn:Es.
    { intros [= <-]. split_and!; [done|done|lia| |]; [rewrite Hl; intros; by apply Hst|congruence]. }
    destruct (GetRandomSamples _ _ _ _ _) as [[d q]|] eqn:E; cbn [res_bind]; [|done].
    apply samples_ok in E; [|done].
    destruct (foldM _ _ _) as [s1|] eqn:E1; cbn [res_bind]; [|done]. apply models_inv in E1 as (H1 & H2 & H3 & H4 & H5); [| |done|].
    + cbn [drawn] in H2. cbn [seen] in H3. intros H. apply IH in H as (G1 & G2 & G3 & G4 & G5).
      * split_and!; [done|done|lia|done|intros; rewrite G5 by done; lia].
      * done.
      * destruct He as [He|[He _]]; [|congruence]. destruct H4 as [H4|H4]; [left|right; split; [done|]]; rewrite H2.
        -- intros d' m [Hd'| ->%elem_of_list_singleton]%elem_of_app Hm; [apply H3; by eapply He|by apply H4].
        -- intros l d0 d' m [<- _]%app_inj_tail Hd' Hm. apply H3. by eapply He.
      * rewrite H2, app_length. cbn. lia.
      * intros Hs1. rewrite Nat.sub_succ, Nat.sub_0_r. by apply H5.
    + destruct Hi as [Hb Hs Hd]. split; cbn [best drawn seen].
      * destruct Hb as [Hb|[Hb1 Hb2 Hb3]]; [by left|right]. split; [|done|done]. destruct Hb1 as (m0 & ? & ? & d' & ? & ?). exists m0. split_and!; [done|done|]. exists d'. split; [apply elem_of_app; by left|done].
      * intros m Hm. apply origin_mono with (drawn s) (seen s); [|done|auto]. intros x Hx. apply elem_of_app. by left.
      * apply Forall_app. split; [done|]. by constructor.
    + cbn [drawn]. intros m Hm. exists d. split; [apply elem_of_app; right; by apply elem_of_list_singleton|done].
Qed.
Lemma run_inv p s : run draw fuel minimal estimate estimate_non_minimal error scorer p samples = Ok s ->
  inv s /\ explored s /\ (length (drawn s) <= iterations p)%nat /\
  (stop s = true -> stopped p (length (drawn s) - 1) s) /\ (stop s = false -> length (drawn s) = iterations p)%nat.
Proof using Hpos Hrange.
  unfold run. intros H. apply loop_inv in H; [exact H| | |done|done].
  - split; [by left| |constructor]. cbn [seen]. intros m Hm. by apply elem_of_nil in Hm.
  - left. cbn [drawn]. intros d m Hd. by apply elem_of_nil in Hd.
Qed.
(** ** Termination *)
Definition enough (s : state) : Prop := (minimal <= length (inliers (best s)))%nat.
Hypothesis Hidx : forall m i, i ∈ (sc m).2 -> (i < length samples)%nat.
Hypothesis Hnd : forall m, NoDup (sc m).2.
Lemma gathered m : length (omap (fun i => samples !! i) (sc m).2) = length (sc m).2.
Proof using Hidx.
  assert (forall i, i ∈ (sc m).2 -> (i < length samples)%nat) as H by apply Hidx. revert H. generalize (sc m).2. intros l H. clear - H. induction l as [|i l IH]; [done|]. cbn.
  destruct (lookup_lt_is_Some_2 samples i) as [a ->]; [apply H; by left|]. cbn. f_equal. apply IH. intros. apply H. by right.
Qed.
Lemma sc_le m : (length (sc m).2 <= length samples)%nat.
Proof using Hidx Hnd.
  assert ((sc m).2 ⊆+ seq 0 (length samples)) as H. { apply NoDup_submseteq; [apply Hnd|]. intros i Hi. apply elem_of_seq. specialize (Hidx m i Hi). lia. }
  apply submseteq_length in H. by rewrite seq_length in H.
Qed.
Hypothesis Hfair : fair draw (length samples) fuel.
Hypothesis Hmin : (0 < minimal <= length samples)%nat.
Definition from_some (m : Model) : Prop :=
  exists m' n l, (minimal <= n)%nat /\ taken n (omap (fun i => samples !! i) (sc m').2) l /\ m ∈ estimate_non_minimal l.
Hypothesis Hlo : forall m0 m, (minimal <= length (sc m0).2)%nat -> from_some m -> (sc m0).1 <= (sc m).1 -> (minimal <= length (sc m).2)%nat.
Lemma lo_enough s m : from_some m -> enough s -> (exists m', (score (best s), inliers (best s)) = sc m') ->
  let s' := try_lo_model error scorer samples s m in enough s' /\ exists m', (score (best s'), inliers (best s')) = sc m'.
Proof using Hlo.
  intros Hm He Hs. cbn zeta. unfold enough, try_lo_model. cbn [best]. unfold max_score. rewrite eval_sc. cbn [score]. destruct (Rlt_dec _ _); [by split|]. cbn [inliers score].
  split; [|exists m; by destruct (sc m)]. destruct Hs as [m' Hs]. unfold enough in He. replace (inliers (best s)) with (sc m').2 in He by by rewrite <- Hs. eapply (Hlo m'); [done|done|]. rewrite <- Hs. cbn. lra.
Qed.
Lemma lo_term s : enough s -> (exists m', (score (best s), inliers (best s)) = sc m') ->
  exists s', lo s = Ok s' /\ enough s' /\ exists m', (score (best s'), inliers (best s')) = sc m'.
Proof using Hpos Hlo Hfair Hmin Hidx Hnd Hrange.
  intros He (m' & Hm'). unfold local_optimization. pose proof (gathered m') as Hg. rewrite <- Hm' in Hg. cbn [snd] in Hg.
  pose proof (sc_le m') as Hle. rewrite <- Hm' in Hle. cbn [snd] in Hle. unfold enough in He.
  destruct (samples_fair draw Hrange fuel (length samples) (omap (fun i => samples !! i) (inliers (best s))) (Nat.max (Nat.min 12 (length (inliers (best s)) / 2)) minimal) (pos s) Hfair) as (l & q & E).
  - by rewrite Hg.
  - intros H. rewrite H in Hg. cbn in Hg. lia.
  - rewrite Hg. pose proof (Nat.div_le_upper_bound (length (inliers (best s))) 2 (length (inliers (best s))) ltac:(lia) ltac:(lia)). lia.
  - rewrite E. eexists. split; [reflexivity|]. apply samples_ok in E; [|done]. assert (forall k s, (forall m, m ∈ k -> from_some m) -> enough s -> (exists m', (score (best s), inliers (best s)) = sc m') ->
      let s' := foldl (try_lo_model error scorer samples) s k in enough s' /\ exists m', (score (best s'), inliers (best s')) = sc m') as H.
    { clear - Hlo. induction k as [|m k IH]; intros s Hk He Hs; [done|]. cbn [foldl]. destruct (lo_enough s m (Hk m ltac:(by left)) He Hs) as [H1 H2]. apply IH; [|done|done]. intros x Hx. apply Hk. by right. }
    apply H; [|done|eauto]. intros m Hm. exists m', (Nat.max (Nat.min 12 (length (inliers (best s)) / 2)) minimal), l. split; [lia|]. split; [|done]. by rewrite <- Hm'.
Qed.
Lemma model_term p i s m : exists s', try1 p i s m = Ok s'.
Proof using Hpos Hlo Hfair Hmin Hidx Hnd Hrange.
  unfold try_model. destruct (stop s); [eauto|]. set (s1 := State _ _ _ _ _). cbn zeta. destruct (_ && use_local_optimization p) eqn:Eb; [|eauto].
  assert (enough s1 /\ exists m', (score (best s1), inliers (best s1)) = sc m') as [He Hs].
  { apply andb_true_iff in Eb as [Eb _]. apply andb_true_iff in Eb as [Eb1 Eb2]. destruct (Req_EM_T _ _) as [Eq|]; [|done]. apply Nat.leb_le in Eb2.
    cbn [s1 best] in Eq |- *. unfold enough. cbn [s1 best]. unfold max_score in *. rewrite eval_sc in *. cbn [score inliers] in *. 
    clear s1. revert Eq. destruct (Rlt_dec _ _) as [Hlt|]; cbn [score inliers] in *; intros Eq; [lra|]. split; [done|]. exists m. by destruct (sc m). }
  clearbody s1. clear Eb. enough (exists s2, foldM (fun s (_ : nat) => lo s) s1 (seq 0 (local_optimization_iterations p)) = Ok s2) as [s2 ->] by (cbn; eauto).
  revert s1 He Hs. induction (seq 0 (local_optimization_iterations p)) as [|k l IH]; intros s1 He Hs; cbn [foldM]; [eauto|]. destruct (lo_term s1 He Hs) as (s2 & -> & H1 & H2). cbn. by apply IH.
Qed.
Lemma loop_term p n i s : exists s', loop1 p samples n i s = Ok s'.
Proof using Hpos Hlo Hfair Hmin Hidx Hnd Hrange.
  revert i s. induction n as [|n IH]; intros i s; cbn [loop]; [eauto|]. destruct (stop s); [eauto|].
  destruct (samples_fair draw Hrange fuel (length samples) samples minimal (pos s) Hfair) as (d & q & ->); [done|intros ->; cbn in Hmin; lia|lia|]. cbn [res_bind].
  enough (exists s1, foldM (try1 p i) (State (best s) q false (drawn s ++ [d]) (seen s)) (estimate d) = Ok s1) as [s1 ->] by (cbn; apply IH).
  generalize (State (best s) q false (drawn s ++ [d]) (seen s)). induction (estimate d) as [|m l IHl]; intros s0; cbn [foldM]; [eauto|]. destruct (model_term p i s0 m) as [s1 ->]. cbn. apply IHl.
Qed.
End Loop.
