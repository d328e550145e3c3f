(** C86: the stages of the depth maps: order of the tasks, interruptions, merged cloud *)
From stdpp Require Import prelude gmap strings sorting.
From Coq Require Import Reals.
From Verif Require Import Base Lin DenseModel PipeModel PipeSpec.

Section Stages.
Context {Raw Cln Pts : Type}.
Variable estimate : string -> option Raw.
Variable clean_views : list (string * Raw) -> Raw -> Cln.
Variable prune_views : list (string * Cln) -> Pts.
Variable neighbors : string -> list string.
Variable shots : gset string.
Notation store := (store Raw Cln Pts).
Notation run := (run estimate clean_views prune_views neighbors).
Notation run_task := (run_task estimate clean_views prune_views neighbors).
(** the shots of the reconstruction with more than one neighbour *)
Definition active_shot (s : string) : Prop := s ∈ shots /\ (1 < length (neighbors s))%nat.
Global Instance active_shot_dec s : Decision (active_shot s). Proof. unfold active_shot. apply _. Defined.
(** an order of the tasks of a stage: all the active shots *)
Definition order (l : list string) : Prop := forall s, s ∈ l <-> active_shot s.
Lemma active_spec s : active_shot s <-> s ∈ shots /\ active neighbors s = true. Proof. unfold active_shot, active. by rewrite Nat.ltb_lt. Qed.
Definition empty_store : store := Store ∅ ∅ ∅.
(** what can be found after any number of runs that were interrupted between two saves *)
Inductive history : store -> Prop :=
| history_start : history empty_store
| history_interrupted st o1 o2 o3 ts : history st -> order o1 -> order o2 -> order o3 -> ts `prefix_of` tasks o1 o2 o3 -> history (run st ts).
Hypothesis self : forall s, s ∈ neighbors s.

(** *** What is aimed at *)
Definition tr (s : string) : option Raw := if decide (active_shot s) then estimate s else None.
Definition tv {A} (product : string -> option A) (ids : list string) : list (string * A) := omap (fun s => (fun a => (s, a)) <$> product s) ids.
Definition tc (s : string) : option Cln := r ← tr s; Some (clean_views (tv tr (neighbors s)) r).
Definition tp (s : string) : option Pts := if decide (active_shot s) then match tv tc (neighbors s) with [] => None | v :: vs => Some (prune_views (v :: vs)) end else None.
Definition within {A} (t : string -> option A) (m : gmap string (file A)) : Prop := forall s f, m !! s = Some f -> exists a, f = Whole a /\ t s = Some a.
Definition all_of {A} (t : string -> option A) (m : gmap string (file A)) : Prop := forall s, m !! s = Whole <$> t s.
Definition partial (st : store) : Prop := within tr (raw st) /\ within tc (clean st) /\ within tp (pruned st).
Lemma tv_elem {A} (p : string -> option A) ids s : s ∈ ids -> forall a, p s = Some a -> tv p ids <> [].
Proof. intros H a Ha E. assert ((s, a) ∈ tv p ids) as F; [|by rewrite E in F; apply elem_of_nil in F]. apply elem_of_list_omap. exists s. split; [done|]. by rewrite Ha. Qed.
Lemma gathers_tv {A} (p : string -> option A) ids vs : gathers p ids vs <-> vs = tv p ids.
Proof.
  split.
  - induction 1 as [|s l vs E _ IH|s a l vs E _ IH]; [done| |]; unfold tv in *; cbn; rewrite E; cbn; by rewrite IH.
  - intros ->. induction ids as [|s ids IH]; [constructor|]. unfold tv in *. cbn. destruct (p s) as [a|] eqn:E; cbn; [by apply gathers_some|by apply gathers_none].
Qed.
Lemma views_all {A} (t : string -> option A) m ids : all_of t m -> views_of m ids = Some (tv t ids).
Proof.
  intros H. unfold views_of, tv. induction ids as [|s ids IH]; [done|]. cbn [omap list_omap]. rewrite H. destruct (t s) as [a|]; cbn; [|done]. rewrite IH. done.
Qed.
Lemma within_set {A} (t : string -> option A) m s a : within t m -> t s = Some a -> within t (<[s := Whole a]> m).
Proof. intros H E s' f. destruct (decide (s = s')) as [<-|N]; [rewrite lookup_insert; intros [= <-]; eauto|]. rewrite lookup_insert_ne by done. apply H. Qed.
(** *** One task *)
Lemma step_raw_unchanged st t : all_of tr (raw st) -> (forall s, t = Estimate s -> active_shot s) -> raw (run_task st t) = raw st.
Proof.
  intros H Ht. destruct t as [s|s|s]; cbn.
  - unfold compute_depthmap. destruct (raw st !! s) as [f|] eqn:E; [done|]. rewrite H in E. unfold tr in E. rewrite decide_True in E by by apply Ht. destruct (estimate s); done.
  - unfold clean_depthmap. destruct (clean st !! s); [done|]. destruct (views_of _ _) as [[|]|]; try done. by destruct (_ ≫= _).
  - unfold prune_depthmap. destruct (pruned st !! s); [done|]. by destruct (views_of _ _) as [[|]|].
Qed.
Lemma step_estimate st s : partial st -> active_shot s -> partial (run_task st (Estimate s)) /\ clean (run_task st (Estimate s)) = clean st /\ pruned (run_task st (Estimate s)) = pruned st /\
  raw (run_task st (Estimate s)) !! s = Whole <$> tr s /\ forall s', s' <> s -> raw (run_task st (Estimate s)) !! s' = raw st !! s'.
Proof.
  intros (P1 & P2 & P3) Hs. cbn. unfold compute_depthmap. assert (tr s = estimate s) as Et by (unfold tr; by rewrite decide_True).
  destruct (raw st !! s) as [f|] eqn:E; [|destruct (estimate s) as [r|] eqn:Er].
  - split; [done|]. split; [done|]. split; [done|]. split; [|done]. rewrite E. destruct (P1 s f E) as (r & -> & ->). done.
  - split; [split; [by apply within_set|done]|]. split; [done|]. split; [done|]. cbn. split; [by rewrite lookup_insert, Et|]. intros s' N. by rewrite lookup_insert_ne.
  - split; [done|]. split; [done|]. split; [done|]. split; [|done]. by rewrite E, Et.
Qed.
Lemma step_clean st s : partial st -> all_of tr (raw st) -> active_shot s -> partial (run_task st (Cleaning s)) /\ raw (run_task st (Cleaning s)) = raw st /\ pruned (run_task st (Cleaning s)) = pruned st /\
  clean (run_task st (Cleaning s)) !! s = Whole <$> tc s /\ forall s', s' <> s -> clean (run_task st (Cleaning s)) !! s' = clean st !! s'.
Proof.
  intros (P1 & P2 & P3) HA Hs. cbn. unfold clean_depthmap. destruct (clean st !! s) as [f|] eqn:E.
  - split; [done|]. split; [done|]. split; [done|]. split; [|done]. rewrite E. destruct (P2 s f E) as (r & -> & ->). done.
  - rewrite (views_all tr) by done. rewrite HA. assert (tc s = r ← tr s; Some (clean_views (tv tr (neighbors s)) r)) as Et by done. destruct (tr s) as [r|] eqn:Er; cbn in *.
    + destruct (tv tr (neighbors s)) as [|v vs] eqn:Ev; [by apply (tv_elem tr (neighbors s) s (self s) r) in Ev|].
      split; [split; [done|]; split; [by apply within_set|done]|]. split; [done|]. split; [done|]. cbn. split; [by rewrite lookup_insert, Et|]. intros s' N. by rewrite lookup_insert_ne.
    + assert (match tv tr (neighbors s) with | [] | _ => st end = st) as -> by (by destruct (tv tr (neighbors s))). split; [done|]. split; [done|]. split; [done|]. split; [by rewrite E, Et|done].
Qed.
Lemma step_prune st s : partial st -> all_of tc (clean st) -> active_shot s -> partial (run_task st (Pruning s)) /\ raw (run_task st (Pruning s)) = raw st /\ clean (run_task st (Pruning s)) = clean st /\
  pruned (run_task st (Pruning s)) !! s = Whole <$> tp s /\ forall s', s' <> s -> pruned (run_task st (Pruning s)) !! s' = pruned st !! s'.
Proof.
  intros (P1 & P2 & P3) HA Hs. cbn. unfold prune_depthmap. assert (tp s = match tv tc (neighbors s) with [] => None | v :: vs => Some (prune_views (v :: vs)) end) as Et by (unfold tp; by rewrite decide_True).
  destruct (pruned st !! s) as [f|] eqn:E.
  - split; [done|]. split; [done|]. split; [done|]. split; [|done]. rewrite E. destruct (P3 s f E) as (r & -> & ->). done.
  - rewrite (views_all tc) by done. destruct (tv tc (neighbors s)) as [|v vs].
    + split; [done|]. split; [done|]. split; [done|]. split; [by rewrite E, Et|done].
    + split; [split; [done|]; split; [done|by apply within_set]|]. split; [done|]. split; [done|]. cbn. split; [by rewrite lookup_insert, Et|]. intros s' N. by rewrite lookup_insert_ne.
Qed.
(** *** One stage, or a part of one *)
Lemma stage_estimate l : forall st, partial st -> (forall s, s ∈ l -> active_shot s) -> partial (run st (Estimate <$> l)) /\ clean (run st (Estimate <$> l)) = clean st /\ pruned (run st (Estimate <$> l)) = pruned st /\
  (forall s, s ∈ l -> raw (run st (Estimate <$> l)) !! s = Whole <$> tr s) /\ forall s, s ∉ l -> raw (run st (Estimate <$> l)) !! s = raw st !! s.
Proof.
  induction l as [|s l IH] using rev_ind; intros st P Hl; [split; [done|]; split; [done|]; split; [done|]; split; [by intros s ?%elem_of_nil|done]|].
  destruct (IH st P) as (P' & C' & R' & D' & O'); [intros x Hx; apply Hl, elem_of_app; by left|]. rewrite fmap_app. unfold PipeModel.run in *. rewrite foldl_app. cbn [fmap list_fmap foldl].
  destruct (step_estimate _ s P' (Hl s ltac:(apply elem_of_app; right; left))) as (P2 & C2 & R2 & D2 & O2). split; [done|]. split; [congruence|]. split; [congruence|]. split.
  - intros x Hx. destruct (decide (x = s)) as [-> |N]; [done|]. rewrite O2 by done. apply D'. apply elem_of_app in Hx as [|[=]%elem_of_list_singleton]; done.
  - intros x [Hx Hs]%not_elem_of_app. rewrite O2; [by apply O'|]. intros ->. apply Hs. left.
Qed.
Lemma stage_clean l : forall st, partial st -> all_of tr (raw st) -> (forall s, s ∈ l -> active_shot s) -> partial (run st (Cleaning <$> l)) /\ raw (run st (Cleaning <$> l)) = raw st /\ pruned (run st (Cleaning <$> l)) = pruned st /\
  (forall s, s ∈ l -> clean (run st (Cleaning <$> l)) !! s = Whole <$> tc s) /\ forall s, s ∉ l -> clean (run st (Cleaning <$> l)) !! s = clean st !! s.
Proof.
  induction l as [|s l IH] using rev_ind; intros st P A Hl; [split; [done|]; split; [done|]; split; [done|]; split; [by intros s ?%elem_of_nil|done]|].
  destruct (IH st P A) as (P' & C' & R' & D' & O'); [intros x Hx; apply Hl, elem_of_app; by left|]. rewrite fmap_app. unfold PipeModel.run in *. rewrite foldl_app. cbn [fmap list_fmap foldl].
  destruct (step_clean _ s P' ltac:(by rewrite C') (Hl s ltac:(apply elem_of_app; right; left))) as (P2 & C2 & R2 & D2 & O2). split; [done|]. split; [congruence|]. split; [congruence|]. split.
  - intros x Hx. destruct (decide (x = s)) as [-> |N]; [done|]. rewrite O2 by done. apply D'. apply elem_of_app in Hx as [|[=]%elem_of_list_singleton]; done.
  - intros x [Hx Hs]%not_elem_of_app. rewrite O2; [by apply O'|]. intros ->. apply Hs. left.
Qed.
Lemma stage_prune l : forall st, partial st -> all_of tc (clean st) -> (forall s, s ∈ l -> active_shot s) -> partial (run st (Pruning <$> l)) /\ raw (run st (Pruning <$> l)) = raw st /\ clean (run st (Pruning <$> l)) = clean st /\
  (forall s, s ∈ l -> pruned (run st (Pruning <$> l)) !! s = Whole <$> tp s) /\ forall s, s ∉ l -> pruned (run st (Pruning <$> l)) !! s = pruned st !! s.
Proof.
  induction l as [|s l IH] using rev_ind; intros st P A Hl; [split; [done|]; split; [done|]; split; [done|]; split; [by intros s ?%elem_of_nil|done]|].
  destruct (IH st P A) as (P' & C' & R' & D' & O'); [intros x Hx; apply Hl, elem_of_app; by left|]. rewrite fmap_app. unfold PipeModel.run in *. rewrite foldl_app. cbn [fmap list_fmap foldl].
  destruct (step_prune _ s P' ltac:(by rewrite R') (Hl s ltac:(apply elem_of_app; right; left))) as (P2 & C2 & R2 & D2 & O2). split; [done|]. split; [congruence|]. split; [congruence|]. split.
  - intros x Hx. destruct (decide (x = s)) as [-> |N]; [done|]. rewrite O2 by done. apply D'. apply elem_of_app in Hx as [|[=]%elem_of_list_singleton]; done.
  - intros x [Hx Hs]%not_elem_of_app. rewrite O2; [by apply O'|]. intros ->. apply Hs. left.
Qed.
Lemma tr_active s r : tr s = Some r -> active_shot s. Proof. unfold tr. by destruct (decide (active_shot s)). Qed.
Lemma tc_active s c : tc s = Some c -> active_shot s. Proof. unfold tc. destruct (tr s) eqn:E; [|done]. intros _. by eapply tr_active. Qed.
Lemma tp_active s p : tp s = Some p -> active_shot s. Proof. unfold tp. by destruct (decide (active_shot s)). Qed.
Lemma all_when {A} (t : string -> option A) (m m' : gmap string (file A)) l : (forall s a, t s = Some a -> active_shot s) -> order l -> within t m -> (forall s, s ∈ l -> m' !! s = Whole <$> t s) -> (forall s, s ∉ l -> m' !! s = m !! s) -> all_of t m'.
Proof.
  intros HA HO HW H1 H2 s. destruct (decide (s ∈ l)) as [Hs|Hs]; [by apply H1|]. rewrite H2 by done. assert (t s = None) as E. { destruct (t s) as [a|] eqn:E; [|done]. by apply HA, HO in E. }
  rewrite E. destruct (m !! s) as [f|] eqn:Ef; [|done]. destruct (HW s f Ef) as (a & _ & ?). congruence.
Qed.
Lemma full_run st o1 o2 o3 : partial st -> order o1 -> order o2 -> order o3 -> all_of tr (raw (run st (tasks o1 o2 o3))) /\ all_of tc (clean (run st (tasks o1 o2 o3))) /\ all_of tp (pruned (run st (tasks o1 o2 o3))).
Proof.
  intros P O1 O2 O3. unfold tasks, PipeModel.run. rewrite !foldl_app. destruct (stage_estimate o1 st P ltac:(apply O1)) as (P1 & C1 & U1 & D1 & E1). unfold PipeModel.run in *. set (st1 := foldl _ st _) in *.
  assert (all_of tr (raw st1)) as A1 by (eapply all_when; [apply tr_active|exact O1|apply P|done|done]). destruct (stage_clean o2 st1 P1 A1 ltac:(apply O2)) as (P2 & R2 & U2 & D2 & E2). unfold PipeModel.run in *. set (st2 := foldl _ st1 _) in *.
  assert (all_of tc (clean st2)) as A2 by (eapply all_when; [apply tc_active|exact O2|apply P1|done|done]). destruct (stage_prune o3 st2 P2 A2 ltac:(apply O3)) as (P3 & R3 & C3 & D3 & E3). unfold PipeModel.run in *. set (st3 := foldl _ st2 _) in *.
  split; [by rewrite R3, R2|]. split; [by rewrite C3|]. eapply all_when; [apply tp_active|exact O3|apply P2|done|done].
Qed.
Lemma prefix_app_cases {A} (l k1 k2 : list A) : l `prefix_of` k1 ++ k2 -> l `prefix_of` k1 \/ exists l', l = k1 ++ l' /\ l' `prefix_of` k2.
Proof.
  revert l. induction k1 as [|a k1 IH]; intros l H; [right; by exists l|]. destruct l as [|b l]; [left; apply prefix_nil|]. cbn in H. pose proof (prefix_cons_inv_1 _ _ _ _ H) as ->. apply prefix_cons_inv_2 in H.
  destruct (IH l H) as [P|(l' & -> & P)]; [left; by apply prefix_cons|right; by exists l'].
Qed.
Lemma prefix_fmap_inv {A B} (f : A -> B) l (k : list A) : l `prefix_of` f <$> k -> exists k', l = f <$> k' /\ forall x, x ∈ k' -> x ∈ k.
Proof.
  revert l. induction k as [|a k IH]; intros l H; [exists []; destruct l; [done|by apply prefix_nil_not in H]|]. destruct l as [|b l]; [exists []; split; [done|by intros ? ?%elem_of_nil]|].
  cbn in H. pose proof (prefix_cons_inv_1 _ _ _ _ H) as ->. apply prefix_cons_inv_2 in H. destruct (IH l H) as (k' & -> & Hk). exists (a :: k'). split; [done|]. intros x [-> |Hx]%elem_of_cons; [left|right; by apply Hk].
Qed.
Lemma history_partial st : history st -> partial st.
Proof.
  induction 1 as [|st o1 o2 o3 ts _ P O1 O2 O3 Hp]; [split; [|split]; intros s f; cbn; by rewrite lookup_empty|]. unfold tasks in Hp.
  apply prefix_app_cases in Hp as [Hp|(ts' & -> & Hp)]; [apply prefix_fmap_inv in Hp as (k & -> & Hk); apply stage_estimate; [done|]; intros s Hs; by apply O1, Hk|].
  unfold PipeModel.run. rewrite foldl_app. destruct (stage_estimate o1 st P ltac:(apply O1)) as (P1 & C1 & U1 & D1 & E1). unfold PipeModel.run in *. set (st1 := foldl _ st _) in *.
  assert (all_of tr (raw st1)) as A1 by (eapply all_when; [apply tr_active|exact O1|apply P|done|done]).
  apply prefix_app_cases in Hp as [Hp|(ts & -> & Hp)]; [apply prefix_fmap_inv in Hp as (k & -> & Hk); apply stage_clean; [done|done|]; intros s Hs; by apply O2, Hk|].
  rewrite foldl_app. destruct (stage_clean o2 st1 P1 A1 ltac:(apply O2)) as (P2 & R2 & U2 & D2 & E2). unfold PipeModel.run in *. set (st2 := foldl _ st1 _) in *.
  assert (all_of tc (clean st2)) as A2 by (eapply all_when; [apply tc_active|exact O2|apply P1|done|done]). apply prefix_fmap_inv in Hp as (k & -> & Hk). apply stage_prune; [done|done|]. intros s Hs. by apply O3, Hk.
Qed.
Lemma all_of_finished (st : store) : all_of tr (raw st) -> all_of tc (clean st) -> all_of tp (pruned st) ->
  finished estimate clean_views prune_views neighbors active_shot (fun s => raw st !! s ≫= load) (fun s => clean st !! s ≫= load) (fun s => pruned st !! s ≫= load).
Proof.
  intros A1 A2 A3. assert (forall s, raw st !! s ≫= load = tr s) as L1 by (intros s; rewrite A1; by destruct (tr s)). assert (forall s, clean st !! s ≫= load = tc s) as L2 by (intros s; rewrite A2; by destruct (tc s)).
  assert (forall s, pruned st !! s ≫= load = tp s) as L3 by (intros s; rewrite A3; by destruct (tp s)).
  assert (forall ids, tv (fun s => raw st !! s ≫= load) ids = tv tr ids) as V1. { intros ids. unfold tv. induction ids as [|s ids IH]; [done|]. cbn [omap list_omap]. by rewrite L1, IH. }
  assert (forall ids, tv (fun s => clean st !! s ≫= load) ids = tv tc ids) as V2. { intros ids. unfold tv. induction ids as [|s ids IH]; [done|]. cbn [omap list_omap]. by rewrite L2, IH. }
  split; [|split].
  - intros s r. cbn beta. rewrite L1. unfold tr. destruct (decide (active_shot s)); [|split; [done|tauto]]. split; [done|]. by intros [_ H].
  - intros s c. cbn beta. rewrite L2. split.
    + intros H. split; [by eapply tc_active|]. unfold tc in H. destruct (tr s) as [r|] eqn:E; [|done]. cbn in H. injection H as <-. exists r, (tv tr (neighbors s)). split; [by rewrite L1|]. split; [|done]. apply gathers_tv. by rewrite V1.
    + intros (Hs & r & vs & Hr & Hg & ->). rewrite L1 in Hr. apply gathers_tv in Hg. rewrite V1 in Hg. subst vs. unfold tc. by rewrite Hr.
  - intros s p. cbn beta. rewrite L3. unfold tp. split.
    + destruct (decide (active_shot s)) as [Hs|]; [|done]. destruct (tv tc (neighbors s)) as [|v vs] eqn:E; [done|]. intros H. injection H as <-. split; [done|]. exists v, vs. split; [|done]. apply gathers_tv. by rewrite V2.
    + intros (Hs & v & vs & Hg & ->). apply gathers_tv in Hg. rewrite V2 in Hg. rewrite decide_True by done. by rewrite <-Hg.
Qed.

(** *** The theorems *)
(** Whatever was interrupted before, in whatever order the tasks of a stage are run, a run that is not interrupted leaves the products that are meant, all of them entire *)
Theorem C86_products st o1 o2 o3 : history st -> order o1 -> order o2 -> order o3 ->
  let st' := run st (tasks o1 o2 o3) in
  finished estimate clean_views prune_views neighbors active_shot (fun s => raw st' !! s ≫= load) (fun s => clean st' !! s ≫= load) (fun s => pruned st' !! s ≫= load) /\
  forall s, raw st' !! s <> Some Torn /\ clean st' !! s <> Some Torn /\ pruned st' !! s <> Some Torn.
Proof.
  intros H O1 O2 O3. destruct (full_run st o1 o2 o3 (history_partial st H) O1 O2 O3) as (A1 & A2 & A3). split; [by apply all_of_finished|]. intros s. rewrite A1, A2, A3. destruct (tr s), (tc s), (tp s); done.
Qed.
(** and two such runs leave the same files *)
Theorem C86_same st st' o1 o2 o3 o1' o2' o3' : history st -> history st' -> order o1 -> order o2 -> order o3 -> order o1' -> order o2' -> order o3' ->
  run st (tasks o1 o2 o3) = run st' (tasks o1' o2' o3').
Proof.
  intros H H' O1 O2 O3 O1' O2' O3'. destruct (full_run st o1 o2 o3 (history_partial st H) O1 O2 O3) as (A1 & A2 & A3). destruct (full_run st' o1' o2' o3' (history_partial st' H') O1' O2' O3') as (B1 & B2 & B3).
  destruct (run st _) as [r c p], (run st' _) as [r' c' p']. cbn in *. f_equal; apply map_eq; intros s; [by rewrite A1, B1|by rewrite A2, B2|by rewrite A3, B3].
Qed.
(** a run after a complete one changes nothing *)
Theorem C86_again st o1 o2 o3 o1' o2' o3' : history st -> order o1 -> order o2 -> order o3 -> order o1' -> order o2' -> order o3' ->
  run (run st (tasks o1 o2 o3)) (tasks o1' o2' o3') = run st (tasks o1 o2 o3).
Proof. intros H O1 O2 O3 O1' O2' O3'. apply C86_same; try done. eapply (history_interrupted st o1 o2 o3); done. Qed.
(** Nothing that was saved is ever changed by a later task *)
Theorem C86_kept st ts s : (forall f, raw st !! s = Some f -> raw (run st ts) !! s = Some f) /\ (forall f, clean st !! s = Some f -> clean (run st ts) !! s = Some f) /\ (forall f, pruned st !! s = Some f -> pruned (run st ts) !! s = Some f).
Proof.
  assert (forall st t, (forall f, raw st !! s = Some f -> raw (run_task st t) !! s = Some f) /\ (forall f, clean st !! s = Some f -> clean (run_task st t) !! s = Some f) /\ (forall f, pruned st !! s = Some f -> pruned (run_task st t) !! s = Some f)) as Step.
  { clear. intros st [x|x|x]; cbn; unfold compute_depthmap, clean_depthmap, prune_depthmap.
    - destruct (raw st !! x) eqn:E; [done|]. destruct (estimate x); [|done]. cbn. split; [|done]. intros f Hf. rewrite lookup_insert_ne; [done|]. intros ->. congruence.
    - destruct (clean st !! x) eqn:E; [done|]. destruct (views_of _ _) as [[|]|]; try done. destruct (_ ≫= _); [|done]. cbn. split; [done|]. split; [|done]. intros f Hf. rewrite lookup_insert_ne; [done|]. intros ->. congruence.
    - destruct (pruned st !! x) eqn:E; [done|]. destruct (views_of _ _) as [[|]|]; try done. cbn. split; [done|]. split; [done|]. intros f Hf. rewrite lookup_insert_ne; [done|]. intros ->. congruence. }
  revert st. induction ts as [|t ts IH]; intros st; [done|]. unfold PipeModel.run in *. cbn [foldl]. destruct (IH (run_task st t)) as (I1 & I2 & I3), (Step st t) as (S1 & S2 & S3). split; [|split]; intros f Hf; auto.
Qed.
(** When the estimate of a shot succeeds, the points saved for the shot are those of its own clean depth map as the reference, with the maps of its neighbours *)
Theorem C86_reference raw clean pruned s p : finished estimate clean_views prune_views neighbors active_shot raw clean pruned -> head (neighbors s) = Some s -> estimate s <> None -> pruned s = Some p ->
  exists r c vs, raw s = Some r /\ clean s = Some c /\ p = prune_views ((s, c) :: vs) /\ gathers clean (neighbors s) ((s, c) :: vs).
Proof.
  intros (F1 & F2 & F3) Hn He Hp. apply F3 in Hp as (Hs & v & vs & Hg & ->). destruct (estimate s) as [r|] eqn:Er; [|done]. assert (raw s = Some r) as Hr by (by apply F1).
  assert (exists c, clean s = Some c) as [c Hc]. { exists (clean_views (tv raw (neighbors s)) r). apply F2. split; [done|]. exists r, (tv raw (neighbors s)). split; [done|]. split; [by apply gathers_tv|done]. }
  exists r, c, vs. split; [done|]. split; [done|]. destruct (neighbors s) as [|s' l] eqn:En; [done|]. injection Hn as ->. inversion Hg as [|? ? ? E|? a ? ? E]; subst; [congruence|]. assert (a = c) as -> by congruence. done.
Qed.
End Stages.

(** ** What goes wrong *)
(** If no depth map can be estimated for a shot that has a neighbour with one, the points of that neighbour's map are saved a second time, as the shot's *)
Theorem C86_reference_refuted : exists (estimate : string -> option nat) (neighbors : string -> list string) (shots : gset string) o,
  (forall s, s ∈ shots -> head (neighbors s) = Some s) /\ order neighbors shots o /\ estimate "a" = None /\
  forall (Cln Pts : Type) (clean_views : list (string * nat) -> nat -> Cln) (prune_views : list (string * Cln) -> Pts),
  let st := run estimate clean_views prune_views neighbors empty_store (tasks o o o) in
  clean st !! "a" = None /\ exists c, clean st !! "b" = Some (Whole c) /\ pruned st !! "a" = Some (Whole (prune_views [("b", c)])) /\ pruned st !! "b" = pruned st !! "a".
Proof.
  exists (fun s => if decide (s = "b") then Some 0%nat else None), (fun s => if decide (s = "a") then ["a"; "b"] else if decide (s = "b") then ["b"; "a"] else []), {["a"; "b"]}, ["a"; "b"].
  split; [intros s Hs; apply elem_of_union in Hs as [Hs|Hs]; apply elem_of_singleton in Hs as ->; done|]. split.
  { intros s. unfold active_shot. rewrite elem_of_union, !elem_of_singleton, !elem_of_cons, elem_of_nil. split; [intros [-> |[-> |[]]]|]; [split; [by left|vm_compute; lia]|split; [by right|vm_compute; lia]|tauto]. }
  split; [done|]. intros Cln Pts cv pv. cbv zeta. split; [vm_compute; reflexivity|]. exists (cv [("b", 0%nat)] 0%nat). split; [vm_compute; reflexivity|]. split; vm_compute; reflexivity.
Qed.
(** A depth map whose save was cut short is never computed again, and no shot that has it among its neighbours is ever cleaned, in any later runs *)
Theorem C86_torn_refuted {Raw Cln Pts} estimate (clean_views : list (string * Raw) -> Raw -> Cln) (prune_views : list (string * Cln) -> Pts) neighbors st s s' ts :
  raw st !! s = Some Torn -> s ∈ neighbors s' -> clean st !! s' = None ->
  raw (run estimate clean_views prune_views neighbors st ts) !! s = Some Torn /\ clean (run estimate clean_views prune_views neighbors st ts) !! s' = None.
Proof.
  intros Hr Hn Hc. split; [by apply C86_kept|]. revert st Hr Hc. induction ts as [|t ts IH]; intros st Hr Hc; [done|]. unfold run in *. cbn [foldl]. apply IH; [by apply (C86_kept estimate clean_views prune_views neighbors st [t])|].
  destruct t as [x|x|x]; cbn; unfold compute_depthmap, clean_depthmap, prune_depthmap.
  - destruct (raw st !! x); [done|]. by destruct (estimate x).
  - destruct (clean st !! x) eqn:E; [done|]. destruct (views_of (raw st) (neighbors x)) as [[|v vs]|] eqn:Ev; try done. destruct (_ ≫= _); [|done]. cbn. rewrite lookup_insert_ne; [done|]. intros ->.
    assert (views_of (raw st) (neighbors s') = None); [|congruence]. clear -Hr Hn. unfold views_of. induction (neighbors s') as [|y l IH]; [by apply elem_of_nil in Hn|]. cbn [omap list_omap].
    apply elem_of_cons in Hn as [<-|Hn]; [by rewrite Hr|]. specialize (IH Hn). destruct (raw st !! y) as [f|]; cbn; [|exact IH]. destruct (load f); cbn; [|done]. by rewrite IH.
  - destruct (pruned st !! x); [done|]. by destruct (views_of _ _) as [[|]|].
Qed.
(** and with a cloud cut short there is no merged cloud *)
Theorem C86_torn_cloud_refuted shots files s : s ∈ shots -> files !! s = Some Torn -> merge_depthmaps shots files = None.
Proof.
  intros Hs Hf. unfold merge_depthmaps. assert (mapM load (omap (fun s => files !! s) shots) = None) as ->; [|done].
  induction shots as [|y l IH]; [by apply elem_of_nil in Hs|]. cbn [omap list_omap]. apply elem_of_cons in Hs as [<-|Hs]; [by rewrite Hf|]. specialize (IH Hs). destruct (files !! y) as [f|]; cbn; [|exact IH]. destruct (load f); cbn; [|done]. by rewrite IH.
Qed.

(** ** The merged cloud *)
(** It has the rows of the clouds of the shots, in the order of the shots: every point keeps its normal, color and label *)
Lemma gathers_files (shots : list string) (files : gmap string (file cloud)) : (forall s, files !! s <> Some Torn) -> forall vs, gathers (fun s => files !! s ≫= load) shots vs -> mapM load (omap (fun s => files !! s) shots) = Some (snd <$> vs).
Proof.
  intros H vs. induction 1 as [|s l vs E _ IH|s a l vs E _ IH]; [done| |]; cbn [omap list_omap].
  - destruct (files !! s) as [[f|]|] eqn:Ef; [done|by apply H in Ef|done].
  - destruct (files !! s) as [[f|]|] eqn:Ef; [|by apply H in Ef|done]. cbn in E. injection E as ->. cbn. by rewrite IH.
Qed.
Lemma rows_app p1 n1 c1 l1 p2 n2 c2 l2 : aligned (p1, n1, c1, l1) -> rows (p1 ++ p2, n1 ++ n2, c1 ++ c2, l1 ++ l2) = rows (p1, n1, c1, l1) ++ rows (p2, n2, c2, l2).
Proof.
  intros (H1 & H2 & H3). unfold rows. rewrite (zip_with_app pair p1 p2 n1 n2) by done. rewrite zip_with_app by (rewrite zip_with_length; lia). rewrite zip_with_app; [done|]. rewrite !zip_with_length. lia.
Qed.
Theorem C86_merge shots files vs : (forall s, files !! s <> Some Torn) -> gathers (fun s => files !! s ≫= load) shots vs -> (forall v, v ∈ vs -> aligned v.2) ->
  exists c, merge_depthmaps shots files = Some c /\ aligned c /\ rows c = mjoin ((fun v : string * cloud => rows v.2) <$> vs).
Proof.
  intros HT Hg HA. unfold merge_depthmaps. rewrite (gathers_files shots files HT vs Hg). cbn. exists (concatenate (snd <$> vs)). split; [done|]. clear Hg. induction vs as [|[s [[[p n] c] l]] vs IH]; [done|].
  destruct IH as [IH1 IH2]; [intros v Hv; apply HA; by right|]. pose proof (HA _ ltac:(left)) as HA0. cbn [snd] in HA0. unfold concatenate in *. cbn [fmap list_fmap snd fst mjoin list_join] in *. split.
  - destruct HA0 as (H1 & H2 & H3), IH1 as (I1 & I2 & I3). unfold aligned. rewrite !app_length. split_and!; f_equal; assumption.
  - rewrite rows_app by done. f_equal. exact IH2.
Qed.
(** with no cloud at all it is empty *)
Theorem C86_merge_none shots files : (forall s, s ∈ shots -> files !! s = None) -> merge_depthmaps shots files = Some ([], [], [], []).
Proof.
  intros H. unfold merge_depthmaps. assert (omap (fun s => files !! s) shots = []) as ->; [|done]. induction shots as [|s l IH]; [done|]. cbn. rewrite (H s) by left. apply IH. intros x Hx. apply H. by right.
Qed.

(** ** The hypotheses are met *)
Definition three_neighbors (s : string) : list string := match s with "a" => ["a"; "b"] | "b" => ["b"; "a"; "c"] | "c" => ["c"; "b"] | _ => [s] end.
Lemma three_order l : l ≡ₚ ["a"; "b"; "c"] -> order three_neighbors {["a"; "b"; "c"]} l.
Proof.
  intros E s. rewrite E. unfold active_shot. rewrite !elem_of_union, !elem_of_singleton, !elem_of_cons, elem_of_nil. split; [intros [-> |[-> |[-> |[]]]]; cbn; split; try tauto; lia|tauto].
Qed.
Lemma three_self s : s ∈ three_neighbors s.
Proof. unfold three_neighbors. repeat (match goal with |- context [match ?x with _ => _ end] => destruct x end; try by left). Qed.
Example C86_met : let est s := Some (String.length s) in let cv (vs : list (string * nat)) (r : nat) := (fst <$> vs, r) in let pv (vs : list (string * (list string * nat))) := fst <$> vs in
  exists st ts, history est cv pv three_neighbors {["a"; "b"; "c"]} st /\ st = run est cv pv three_neighbors empty_store ts /\ (exists f, clean st !! "c" = Some f) /\ clean st !! "a" = None /\
  (run est cv pv three_neighbors st (tasks ["b"; "a"; "c"] ["a"; "b"; "c"] ["c"; "b"; "a"])) = run est cv pv three_neighbors empty_store (tasks ["a"; "b"; "c"] ["a"; "b"; "c"] ["a"; "b"; "c"]).
Proof.
  cbv zeta. set (est := fun s => Some (String.length s)). set (cv := fun (vs : list (string * nat)) (r : nat) => (fst <$> vs, r)). set (pv := fun vs : list (string * (list string * nat)) => fst <$> vs).
  set (ts := [Estimate "a"; Estimate "b"; Estimate "c"; Cleaning "c"]). assert (history est cv pv three_neighbors {["a"; "b"; "c"]} (run est cv pv three_neighbors empty_store ts)) as H.
  { apply (history_interrupted _ _ _ _ _ _ ["a"; "b"; "c"] ["c"; "b"; "a"] ["a"; "b"; "c"]); [apply history_start|by apply three_order|apply three_order; symmetry; apply (Permutation_rev ["a"; "b"; "c"])|by apply three_order|]. by exists [Cleaning "b"; Cleaning "a"; Pruning "a"; Pruning "b"; Pruning "c"]. }
  exists (run est cv pv three_neighbors empty_store ts), ts. split; [done|]. split; [done|]. split; [eexists; vm_compute; reflexivity|]. split; [vm_compute; reflexivity|].
  apply (C86_same _ _ _ _ {["a"; "b"; "c"]} three_self); [done|apply history_start|..]; apply three_order; try done; [apply perm_swap|symmetry; apply (Permutation_rev ["a"; "b"; "c"])].
Qed.
Example C86_merge_met : let files : gmap string (file cloud) := {["a" := Whole ([v0], [Vec 0 0 1], [(1, 2, 3)%Z], [4%Z]); "c" := Whole ([Vec 1 0 0; v0], [v0; v0], [(5, 6, 7)%Z; (8, 9, 10)%Z], [11%Z; 12%Z])]} in
  exists c, merge_depthmaps ["c"; "b"; "a"] files = Some c /\ rows c = [((Vec 1 0 0, v0), (5, 6, 7)%Z, 11%Z); ((v0, v0), (8, 9, 10)%Z, 12%Z); ((v0, Vec 0 0 1), (1, 2, 3)%Z, 4%Z)].
Proof. cbv zeta. eexists. split; reflexivity. Qed.

Print Assumptions C86_products.
Print Assumptions C86_same.
Print Assumptions C86_again.
Print Assumptions C86_kept.
Print Assumptions C86_reference.
Print Assumptions C86_reference_refuted.
Print Assumptions C86_torn_refuted.
Print Assumptions C86_torn_cloud_refuted.
Print Assumptions C86_merge.
Print Assumptions C86_merge_none.
