(** Robust estimation (C55). *)
From stdpp Require Import prelude gmap sorting.
From Coq Require Import Reals Lra Lia.
From Verif Require Import Base Lin RotModel RotProofs PoseModel TriangModel TriangSpec TriangProofs TriangProps BundleModel BundleProofs CullModel CullProofs RobustModel RobustSpec RobustProofs.
Local Open Scope R_scope.

Lemma scored_nonneg t thr errors s l : Forall (fun e => 0 <= e) errors -> scored t thr errors s l -> 0 <= s.
Proof.
  intros Hf. assert (0 < 1 / 10 ^ 8) as He by (apply Rdiv_lt_0_compat; [lra|apply pow_lt; lra]). destruct t; cbn [scored].
  - intros [_ ->]. apply pos_INR.
  - intros [_ ->]. assert (0 <= truncated_cost thr errors). { unfold truncated_cost. clear Hf. induction errors as [|e l' IH]; cbn; [lra|]. enough (0 <= Rmin (e * e) (thr * thr)) by lra. apply Rmin_glb; nra. }
    apply Rlt_le, Rdiv_lt_0_compat; lra.
  - intros (m & (Hm & _) & _ & ->). rewrite Forall_forall in Hf. specialize (Hf m Hm). cbn in Hf. apply Rlt_le, Rdiv_lt_0_compat; lra.
Qed.
Lemma scored_places t thr errors s l : scored t thr errors s l -> exists P, places P errors l.
Proof. destruct t; cbn [scored]; [intros [? _]; eauto|intros [? _]; eauto|intros (m & _ & ? & _); eauto]. Qed.
Lemma places_idx P errors l : places P errors l -> (forall i, i ∈ l -> (i < length errors)%nat) /\ NoDup l.
Proof.
  intros [Hs Hi]. split; [intros i (e & He & _)%Hi; by apply lookup_lt_Some in He|]. clear Hi. induction Hs as [|a l Hs IH Hf]; constructor; [|done].
  intros Ha. rewrite Forall_forall in Hf. specialize (Hf a Ha). lia.
Qed.
Lemma gather_forall2 {A} (samples : list A) l : (forall i, i ∈ l -> (i < length samples)%nat) ->
  Forall2 (fun i a => samples !! i = Some a) l (omap (fun i => samples !! i) l).
Proof. induction l as [|i l IH]; intros H; [constructor|]. cbn. destruct (lookup_lt_is_Some_2 samples i) as [a Ha]; [apply H; by left|]. rewrite Ha. constructor; [done|]. apply IH. intros. apply H. by right. Qed.

Lemma places_unique P e l1 l2 : places P e l1 -> places P e l2 -> l1 = l2.
Proof.
  intros [S1 H1] [S2 H2]. assert (AntiSymm (=) lt) by (intros x y; lia). apply (StronglySorted_unique lt); [done|done|]. apply NoDup_Permutation; [| |intros i; by rewrite H1, H2].
  - apply (places_idx P e l1). by split.
  - apply (places_idx P e l2). by split.
Qed.
Lemma median_unique e m1 m2 : median_of e m1 -> median_of e m2 -> m1 = m2.
Proof.
  intros H1 H2. assert (forall a b, median_of e a -> median_of e b -> ~ a < b) as K; [|destruct (Rtotal_order m1 m2) as [?|[?|?]]; [by destruct (K m1 m2)|done|by destruct (K m2 m1)]].
  intros a b (_ & _ & Ha) (_ & Hb & _) Hlt. enough (length (filter (fun x => (x <= a)%R) e) <= length (filter (fun x => (x < b)%R) e))%nat by lia.
  clear - Hlt. induction e as [|x e IH]; [done|]. rewrite !filter_cons. case_decide; case_decide; cbn; lia || lra.
Qed.
Lemma scored_unique t thr e s l s' l' : scored t thr e s l -> scored t thr e s' l' -> s = s' /\ l = l'.
Proof.
  destruct t; cbn [scored].
  - intros [H1 ->] [H2 ->]. by rewrite (places_unique _ _ _ _ H1 H2).
  - intros [H1 ->] [H2 ->]. by rewrite (places_unique _ _ _ _ H1 H2).
  - intros (m1 & H1 & G1 & ->) (m2 & H2 & G2 & ->). rewrite (median_unique _ _ _ H1 H2) in *. by rewrite (places_unique _ _ _ _ G1 G2).
Qed.
Lemma inverse_le a b : 0 <= a -> 0 <= b -> 1 / (b + 1 / 10 ^ 8) <= 1 / (a + 1 / 10 ^ 8) -> a <= b.
Proof.
  assert (0 < 1 / 10 ^ 8) as He by (apply Rdiv_lt_0_compat; [lra|apply pow_lt; lra]). generalize dependent (1 / 10 ^ 8). intros k He Ha Hb H. apply Rnot_lt_le. intros Hlt.
  apply (Rlt_not_le _ _ (Rinv_lt_contravar (b + k) (a + k) ltac:(apply Rmult_lt_0_compat; lra) ltac:(lra))). unfold Rdiv in H. by rewrite !Rmult_1_l in H.
Qed.
Lemma truncated_nonneg thr errors : 0 <= truncated_cost thr errors.
Proof. unfold truncated_cost. induction errors as [|e l' IH]; cbn; [lra|]. enough (0 <= Rmin (e * e) (thr * thr)) by lra. apply Rmin_glb; nra. Qed.

Section C55.
Context {Data Model : Type}.
Variable draw : nat -> nat -> nat.
Hypothesis Hrange : in_range draw.
Variable fuel minimal : nat.
Variable estimate estimate_non_minimal : list Data -> list Model.
Variable error : Model -> Data -> R.
Hypothesis Herr : forall m d, 0 <= error m d.
Variable t : ransac_type.
Variable threshold : R.
Hypothesis Hthr : 0 <= threshold.
Variable p : params.
Variable samples : list Data.
Notation Run := (run draw fuel minimal estimate estimate_non_minimal error (scoring t threshold) p samples).
Notation scores m := (scored t threshold (error m <$> samples)).

Lemma the_score m : samples <> [] -> scores m (scoring t threshold (error m <$> samples)).1 (scoring t threshold (error m <$> samples)).2.
Proof using Herr Hthr.
  intros Hne. apply scoring_scored; [by destruct samples| |done]. apply Forall_fmap, Forall_true. intros. apply Herr.
Qed.
Lemma score_nonneg m : samples <> [] -> 0 <= (scoring t threshold (error m <$> samples)).1.
Proof using Herr Hthr. intros Hne. eapply scored_nonneg; [|by apply the_score]. apply Forall_fmap, Forall_true. intros. apply Herr. Qed.

(** The result is a model that was looked at, with its own score and inliers, and no model looked at scores better; all those come from
    minimal sets of distinct samples, or from distinct inliers of one of them. Without any model there is no result. *)
Theorem C55_result s : samples <> [] -> Run = Ok s ->
  Forall (taken minimal samples) (drawn s) /\
  (forall m, m ∈ seen s -> candidate minimal estimate estimate_non_minimal error t threshold samples (seen s) (drawn s) m) /\
  match seen s with
  | [] => best s = score0
  | _ =>
      (exists m, lo_model (best s) = Some m /\ m ∈ seen s /\ scores m (score (best s)) (inliers (best s))) /\
      (exists m0, model (best s) = Some m0 /\ m0 ∈ seen s /\ exists d, d ∈ drawn s /\ m0 ∈ estimate d) /\
      (forall m' s' i', m' ∈ seen s -> scores m' s' i' -> s' <= score (best s))
  end.
Proof using Hrange Herr Hthr.
  intros Hne H. apply run_inv in H as ([Hb Hs Hd] & _); [|done|intros; by apply score_nonneg]. split; [done|]. split.
  - intros m Hm. destruct (Hs m Hm) as [?|(m' & n & l & H1 & H2 & H3 & H4)]; [by left|right].
    pose proof (the_score m' Hne) as Hsc. destruct (scored_places _ _ _ _ _ Hsc) as [P HP]. destruct (places_idx _ _ _ HP) as [Hidx _]. rewrite fmap_length in Hidx.
    exists m', (scoring t threshold (error m' <$> samples)).2, (omap (fun i => samples !! i) (scoring t threshold (error m' <$> samples)).2), n, l.
    split; [done|]. split; [by eexists|]. split; [by apply gather_forall2|]. done.
  - destruct Hb as [[-> ->]|[H1 (m & H2 & H3 & H4) H5]]; [done|]. destruct (seen s) as [|x l] eqn:Es; [by apply elem_of_nil in H3|]. rewrite <- Es in *.
    split; [|split].
    + exists m. split; [done|]. split; [done|]. pose proof (the_score m Hne) as Hsc. by rewrite <- H4 in Hsc.
    + done.
    + intros m' s' i' Hm' Hs'. etrans; [|by apply (H5 m')]. apply Req_le. pose proof (the_score m' Hne) as Hsc.
      by destruct (scored_unique _ _ _ _ _ _ _ Hs' Hsc).
Qed.
(** What better means: more inliers; a smaller truncated cost; a smaller median *)
Theorem C55_best s m : samples <> [] -> Run = Ok s -> lo_model (best s) = Some m -> forall m', m' ∈ seen s ->
  match t with
  | RANSAC => forall i i', inliers_of error t threshold samples m i -> inliers_of error t threshold samples m' i' -> (length i' <= length i)%nat
  | MSAC => truncated_cost threshold (error m <$> samples) <= truncated_cost threshold (error m' <$> samples)
  | LMedS => forall x x', median_of (error m <$> samples) x -> median_of (error m' <$> samples) x' -> x <= x'
  end.
Proof using Hrange Herr Hthr.
  intros Hne H Hm m' Hm'. destruct (C55_result s Hne H) as (_ & _ & Hb). destruct (seen s) as [|x l] eqn:Es; [by apply elem_of_nil in Hm'|]. rewrite <- Es in *.
  destruct Hb as ((m1 & E1 & _ & Hsc) & _ & Hmax). rewrite Hm in E1. injection E1 as <-. pose proof (the_score m' Hne) as Hsc'. pose proof (Hmax m' _ _ Hm' Hsc') as Hle.
  clear - Hsc Hsc' Hle Herr. destruct t; cbn [scored] in *.
  - intros i i' (si & Hi & _) (si' & Hi' & _). destruct Hsc as [Hsc E], Hsc' as [Hsc' E']. rewrite (places_unique _ _ _ _ Hi Hsc), (places_unique _ _ _ _ Hi' Hsc').
    apply INR_le. congruence.
  - destruct Hsc as [_ E], Hsc' as [_ E']. rewrite E, E' in Hle. apply inverse_le; [apply truncated_nonneg|apply truncated_nonneg|done].
  - intros x x' Hx Hx'. destruct Hsc as (y & Hy & _ & E), Hsc' as (y' & Hy' & _ & E'). rewrite (median_unique _ _ _ Hx Hy), (median_unique _ _ _ Hx' Hy'). rewrite E, E' in Hle.
    assert (forall z m, median_of (error m <$> samples) z -> 0 <= z) as Hz. { intros z k [(d & -> & _)%elem_of_list_fmap _]. apply Herr. }
    apply inverse_le; [by eapply Hz|by eapply Hz|done].
Qed.
(** Nothing drawn is left out, and the loop ends early only when the criterion says so *)
Theorem C55_exhaustive s : samples <> [] -> Run = Ok s ->
  (forall l d0 d m, drawn s = l ++ [d0] -> d ∈ l -> m ∈ estimate d -> m ∈ seen s) /\
  (length (drawn s) = iterations p \/
   (length (drawn s) < iterations p)%nat /\ use_iteration_reduction p = true) /\
  (use_iteration_reduction p = false -> forall d m, d ∈ drawn s -> m ∈ estimate d -> m ∈ seen s).
Proof using Hrange Herr Hthr.
  intros Hne H. apply run_inv in H as (_ & He & Hl & Hst & Hst'); [|done|intros; by apply score_nonneg]. assert (use_iteration_reduction p = false -> stop s = false) as Hr.
  { intros Hr. destruct (stop s) eqn:Es; [|done]. specialize (Hst eq_refl). unfold stopped, ShouldStop in Hst. rewrite Hr, Es in Hst. done. }
  split; [|split].
  - intros l d0 d m E Hd Hm. destruct He as [He|[_ He]]; [|by eapply He]. eapply He; [|done]. rewrite E. apply elem_of_app. by left.
  - destruct (stop s); [|left; by apply Hst']. destruct (use_iteration_reduction p); [|by specialize (Hr eq_refl)]. destruct (decide (length (drawn s) = iterations p)); [by left|right]. split; [lia|done].
  - intros Hu. destruct He as [He|[He _]]; [done|]. rewrite (Hr Hu) in He. done.
Qed.
(** ... that is, when that many draws would all have had an outlier with less than the probability allowed, at the current ratio of inliers *)
Theorem C55_confidence s : samples <> [] -> Run = Ok s -> (length (drawn s) < iterations p)%nat -> 0 < probability p < 1 ->
  let w := INR (length (inliers (best s))) / INR (length samples) in
  epsilon <= w ^ minimal -> (1 - w ^ minimal) ^ (length (drawn s) - 1) < 1 - probability p.
Proof using Hrange Herr Hthr.
  intros Hne H Hlt Hp w Hw. destruct (C55_result s Hne H) as (_ & _ & Hb). apply run_inv in H as (_ & _ & _ & Hst & Hst'); [|done|intros; by apply score_nonneg].
  destruct (stop s) eqn:Es; [|specialize (Hst' eq_refl); lia]. specialize (Hst eq_refl). unfold stopped, ShouldStop in Hst. rewrite Es in Hst. destruct (use_iteration_reduction p); [|done]. cbn [negb] in Hst. fold w in Hst.
  assert (0 <= w <= 1) as Hw1.
  { assert (0 < INR (length samples)) by (apply lt_0_INR; destruct samples; [done|cbn; lia]). assert (length (inliers (best s)) <= length samples)%nat as Hle.
    { destruct (seen s) eqn:E; [rewrite Hb; cbn; lia|]. destruct Hb as ((mb & _ & _ & Hsc) & _). destruct (scored_places _ _ _ _ _ Hsc) as [P HP]. destruct (places_idx _ _ _ HP) as [Hi Hn]. rewrite fmap_length in Hi.
      assert (inliers (best s) ⊆+ seq 0 (length samples)) as Hsub. { apply NoDup_submseteq; [done|]. intros i Hin. apply elem_of_seq. specialize (Hi i Hin). lia. }
      apply submseteq_length in Hsub. by rewrite seq_length in Hsub. }
    unfold w. split; [apply Rmult_le_pos; [apply pos_INR|by apply Rlt_le, Rinv_0_lt_compat]|]. apply Rmult_le_reg_r with (INR (length samples)); [done|]. unfold Rdiv. rewrite Rmult_assoc, Rinv_l, Rmult_1_r, Rmult_1_l by lra. by apply le_INR. }
  assert (w ^ minimal <= 1) as Hwm. { rewrite <- (pow1 minimal). by apply pow_incr. }
  rewrite Rmin_right in Hst by lra. destruct (Rle_dec 1 (probability p)); [lra|]. destruct (Req_EM_T _ _) as [E0|N0].
  - case_decide as Hi; [|done]. rewrite E0, pow_i by lia. lra.
  - destruct (Rlt_dec _ _) as [Hl|]; [|done]. assert (0 < epsilon) by (unfold epsilon; apply Rinv_0_lt_compat, pow_lt; lra). set (q := 1 - w ^ minimal) in *. assert (q < 1) by (unfold q; lra). assert (0 <= q) by (unfold q; lra). assert (0 < q < 1) as Hq by (split; [|lra]; destruct (Rtotal_order q 0) as [?|[?|?]]; [lra|done|lra]).
    assert (ln q < 0) as Hlnq by (rewrite <- ln_1; apply ln_increasing; lra).
    apply ln_lt_inv; [apply pow_lt, Hq|lra|]. rewrite ln_pow by lra. replace (ln (1 - probability p)) with (ln (1 - probability p) / ln q * ln q) by (field; lra).
    apply Rmult_lt_gt_compat_neg_l with (r := ln q) in Hl; [|done]. lra.
Qed.
(** With too few samples the estimation never ends *)
Theorem C55_diverges : samples <> [] -> (length samples < minimal)%nat -> (0 < iterations p)%nat -> Run = Err Diverges.
Proof using Hrange.
  intros Hne Hl Hi. unfold run. destruct (iterations p) as [|n]; [lia|]. cbn [loop stop pos]. by rewrite samples_diverge.
Qed.
(** With enough of them and a generator that does not avoid any value for ever, it ends with a result: always if the score is the number
    of inliers, or without the local optimization; for the other scores when no refined model loses its inliers *)
Theorem C55_terminates : fair draw (length samples) fuel -> (0 < minimal <= length samples)%nat ->
  t = RANSAC \/ use_local_optimization p = false \/
  (forall gathered n l m inl, taken n gathered l -> (minimal <= n)%nat -> m ∈ estimate_non_minimal l -> inliers_of error t threshold samples m inl -> (minimal <= length inl)%nat) ->
  exists s, Run = Ok s.
Proof using Hrange Herr Hthr.
  intros Hfair Hmin Hcase. assert (samples <> []) as Hne by (intros ->; cbn in Hmin; lia). assert (forall m, exists P, places P (error m <$> samples) (scoring t threshold (error m <$> samples)).2) as Hpl.
  { intros m. eapply scored_places. by apply the_score. }
  assert (forall m i, i ∈ (scoring t threshold (error m <$> samples)).2 -> (i < length samples)%nat) as Hidx.
  { intros m. destruct (Hpl m) as [P HP]. destruct (places_idx _ _ _ HP) as [H _]. by rewrite fmap_length in H. }
  assert (forall m, NoDup (scoring t threshold (error m <$> samples)).2) as Hnd.
  { intros m. destruct (Hpl m) as [P HP]. by destruct (places_idx _ _ _ HP) as [_ H]. }
  unfold run. destruct Hcase as [Ht|[Hno|Hlo]].
  - apply loop_term; [done|intros; by apply score_nonneg|done|done|done|done|]. intros m0 m H0 _ Hle. pose proof (the_score m0 Hne) as S0. pose proof (the_score m Hne) as S1. rewrite Ht in *. cbn [scored] in *.
    destruct S0 as [_ E0], S1 as [_ E1]. rewrite E0, E1 in Hle. apply INR_le in Hle. lia.
  - assert (forall n i s, loop draw fuel minimal estimate estimate_non_minimal error (scoring t threshold) p samples n i s = loop draw fuel minimal estimate (fun _ => []) error (scoring t threshold) p samples n i s) as ->.
    { clear - Hno. induction n as [|n IH]; intros i s; [done|]. cbn [loop]. destruct (stop s); [done|]. destruct (GetRandomSamples _ _ _ _ _) as [[d q]|]; [|done]. cbn [res_bind].
      assert (forall k s, foldM (try_model draw fuel minimal estimate_non_minimal error (scoring t threshold) p samples i) s k = foldM (try_model draw fuel minimal (fun _ => []) error (scoring t threshold) p samples i) s k) as Hk.
      { clear IH. induction k as [|m k IH]; intros s0; [done|]. cbn [foldM]. unfold try_model at 1 3. rewrite Hno, !andb_false_r. destruct (stop s0); cbn [res_bind]; apply IH. }
      rewrite Hk. destruct (foldM _ _ _); [|done]. cbn [res_bind]. apply IH. }
    apply loop_term; [done|intros; by apply score_nonneg|done|done|done|done|]. intros m0 m _ (m' & n & l & _ & _ & Hm) _. by apply elem_of_nil in Hm.
  - apply loop_term; [done|intros; by apply score_nonneg|done|done|done|done|]. intros m0 m _ (m' & n & l & Hn & Ht & Hm) _. eapply Hlo; [done|done|done|]. eexists. by apply the_score.
Qed.
End C55.
Print Assumptions C55_result.
Print Assumptions C55_best.
Print Assumptions C55_exhaustive.
Print Assumptions C55_confidence.
Print Assumptions C55_diverges.
Print Assumptions C55_terminates.

(** ** The models: the threshold is an angle *)
Lemma normalized_cos u v : u <> v0 -> v <> v0 -> dot (normalized u) (normalized v) = dot u v / (norm u * norm v).
Proof.
  intros Hu Hv. unfold normalized. destruct (Req_EM_T _ _) as [E|N]; [by apply dot_0 in E|]. destruct (Req_EM_T (dot v v) 0) as [E'|N']; [by apply dot_0 in E'|].
  assert (forall a b, dot (vscale a u) (vscale b v) = a * b * dot u v) as -> by (intros; vreal). pose proof (dot_nonneg u). pose proof (dot_nonneg v). assert (0 < sqrt (dot u u)) by (apply sqrt_lt_R0; lra). assert (0 < sqrt (dot v v)) by (apply sqrt_lt_R0; lra).
  unfold norm. field. lra.
Qed.
Lemma nonzero_norm u : u <> v0 -> 0 < norm u.
Proof. intros Hu. unfold norm. apply sqrt_lt_R0. pose proof (dot_nonneg u). destruct (Rtotal_order (dot u u) 0) as [?|[E|?]]; [lra|by apply dot_0 in E|lra]. Qed.
Lemma angle_threshold u v thr : u <> v0 -> v <> v0 -> 0 <= thr <= PI ->
  (Rabs (1 - dot u v / (norm u * norm v)) < angle_adapter thr <-> angle u v < thr) /\ (Rabs (1 - dot u v / (norm u * norm v)) <= angle_adapter thr <-> angle u v <= thr).
Proof.
  intros Hu Hv Ht. pose proof (cosine_bound u v (nonzero_norm u Hu) (nonzero_norm v Hv)) as Hc. unfold angle, angle_adapter. set (c := dot u v / (norm u * norm v)) in *.
  rewrite Rabs_pos_eq by lra. pose proof (acos_bound c) as Ha. pose proof (cos_acos c Hc) as Hcc. rewrite <- Hcc at 1 3.
  assert (cos thr < cos (acos c) <-> acos c < thr) as K1.
  { split; intros H; [apply cos_decreasing_0; lra|apply cos_decreasing_1; lra]. }
  assert (cos (acos c) < cos thr <-> thr < acos c) as K2.
  { split; intros H; [apply cos_decreasing_0; lra|apply cos_decreasing_1; lra]. }
  split; split; intros H.
  - apply K1. lra.
  - apply K1 in H. lra.
  - apply Rnot_lt_le. intros H'. apply K2 in H'. lra.
  - apply Rnot_lt_le. intros H'. assert (cos (acos c) < cos thr) as H2 by lra. apply K2 in H2. lra.
Qed.
Theorem C55_angle (thr : R) : 0 <= thr <= PI ->
  (forall m b X, b <> v0 -> vadd (mvec m.1 X) m.2 <> v0 -> absolute_pose_error m (b, X) < angle_adapter thr <-> angle b (vadd (mvec m.1 X) m.2) < thr) /\
  (forall m b X, b <> v0 -> vadd X m <> v0 -> known_rotation_error m (b, X) < angle_adapter thr <-> angle b (vadd X m) < thr) /\
  (forall m x y, rotation m -> norm x = 1 -> norm y = 1 -> relative_rotation_error m (x, y) < angle_adapter thr <-> angle (mvec m x) y < thr).
Proof.
  intros Ht. split; [|split].
  - intros m b X Hb HX. unfold absolute_pose_error. cbn [fst snd]. rewrite normalized_cos by done. by apply angle_threshold.
  - intros m b X Hb HX. unfold known_rotation_error. cbn [fst snd]. rewrite normalized_cos by done. by apply angle_threshold.
  - intros m x y Hm Hx Hy. unfold relative_rotation_error. cbn [fst snd]. 
    assert (forall z, norm z = 1 -> z <> v0) as Hz. { intros z Hz ->. unfold norm in Hz. rewrite dot_v0, sqrt_0 in Hz. lra. }
    destruct (angle_threshold (mvec m x) y thr) as [<- _]; [by apply Hz; rewrite rotation_norm|by apply Hz|done|]. rewrite rotation_norm, Hx, Hy by done. replace (dot (mvec m x) y / (1 * 1)) with (dot (mvec m x) y) by field. done.
Qed.
(** The poses handed out place the points back *)
Theorem C55_pose : (forall m, rotation m.1 -> places_back m (ransac_pose m)) /\ (forall m, places_back (mI, m) (ransac_position m)).
Proof.
  split.
  - intros [m tr] Hm v. cbn [ransac_pose fst snd] in *. rewrite mvec_add. rewrite <- mvec_mmul, (rotation_l _ Hm), mvec_I. veq.
  - intros m v. cbn [ransac_position fst snd]. rewrite !mvec_I. veq.
Qed.
(** The line through two points passes through them... *)
Theorem C55_line x1 x2 m : m ∈ line_estimate [x1; x2] -> line_error m x1 = 0 /\ line_error m x2 = 0.
Proof.
  unfold line_estimate. destruct (Req_EM_T x1.1 x2.1) as [|N1]; [by intros ?%elem_of_nil|]. destruct (Req_EM_T x1.1 0) as [|N2]; [by intros ?%elem_of_nil|].
  intros ->%elem_of_list_singleton. unfold line_error. cbn [fst snd].
  split; rewrite <- Rabs_R0; f_equal; field; split; lra || (intros E; apply N1; lra) || done.
Qed.
Theorem C55_line_found x1 x2 : x1.1 <> x2.1 -> x1.1 <> 0 -> exists m, line_estimate [x1; x2] = [m].
Proof. intros. unfold line_estimate. destruct (Req_EM_T x1.1 x2.1); [done|]. destruct (Req_EM_T x1.1 0); [done|]. eauto. Qed.
(** ... but is not found when the first of them has abscissa 0, although it is when they are given in the other order *)
Theorem C55_line_refuted : ~ forall x1 x2, x1.1 <> x2.1 -> exists m, line_estimate [x1; x2] = [m].
Proof.
  intros H. destruct (H (0, 1) (1, 2)) as [m Hm]; [cbn; lra|]. unfold line_estimate in Hm. cbn [fst snd] in Hm. destruct (Req_EM_T 0 1); [lra|]. destruct (Req_EM_T 0 0); [done|lra].
Qed.
Theorem C55_similarity m d : similarity_error m d = 0 <-> d.2 = vadd (mvec m.1 d.1) m.2.
Proof.
  unfold similarity_error. split.
  - intros H. assert (dot (vsub d.2 (vadd (mvec m.1 d.1) m.2)) (vsub d.2 (vadd (mvec m.1 d.1) m.2)) = 0) as E. { unfold norm in H. apply sqrt_eq_0; [apply dot_nonneg|done]. }
    apply dot_0 in E. by apply vsub_0.
  - intros ->. unfold norm. rewrite <- sqrt_0. f_equal. vreal.
Qed.
Print Assumptions C55_angle.
Print Assumptions C55_pose.
Print Assumptions C55_line.
Print Assumptions C55_line_found.
Print Assumptions C55_line_refuted.
Print Assumptions C55_similarity.

(** ** Refuted *)
Ltac rdec := repeat match goal with
  | |- context [Rlt_dec ?a ?b] => destruct (Rlt_dec a b); [try (exfalso; lra)|try (exfalso; lra)]
  | |- context [Rle_dec ?a ?b] => destruct (Rle_dec a b); [try (exfalso; lra)|try (exfalso; lra)]
  end.
(** The inliers are those of the refined model, not of [model] *)
Definition ex_draw (pos range_max : nat) : nat := (pos mod S range_max)%nat.
Definition ex_error (m : bool) (d : nat) : R := if m then (if decide (d = 0%nat) then 0 else 2) else 0.
Definition ex_params : params := Params 1 (99 / 100) true false 1.
Theorem C55_model_inliers_refuted :
  ~ forall (estimate estimate_non_minimal : list nat -> list bool) s m, run ex_draw 5 1 estimate estimate_non_minimal ex_error (scoring RANSAC 1) ex_params [0; 1]%nat = Ok s ->
      model (best s) = Some m -> inliers_of ex_error RANSAC 1 [0; 1]%nat m (inliers (best s)).
Proof.
  assert (scoring RANSAC 1 [0; 2] = (1, [0%nat])) as E1. { cbn. rdec. f_equal. lra. }
  assert (scoring RANSAC 1 [0; 0] = (2, [0; 1]%nat)) as E2. { cbn. rdec. f_equal. lra. }
  assert (forall mm, evaluate ex_error (scoring RANSAC 1) [0; 1]%nat true mm = Score 1 [0%nat] mm (Some true)) as V1.
  { intros mm. unfold evaluate. change (ex_error true <$> [0; 1]%nat) with [0; 2]. by rewrite E1. }
  assert (forall mm, evaluate ex_error (scoring RANSAC 1) [0; 1]%nat false mm = Score 2 [0; 1]%nat mm (Some false)) as V2.
  { intros mm. unfold evaluate. change (ex_error false <$> [0; 1]%nat) with [0; 0]. by rewrite E2. }
  intros H. destruct (H (fun _ => [true]) (fun _ => [false]) (State (Score 2 [0; 1]%nat (Some true) (Some false)) 2 false [[0%nat]] [true; false]) true) as (s & [_ Hp] & _); [|done|].
  - unfold run. cbn [ex_params iterations loop stop pos]. change (GetRandomSamples ex_draw 5 [0; 1]%nat 1 0) with (Ok ([0%nat], 1%nat)). cbn [res_bind foldM best drawn seen app].
    unfold try_model. cbn [stop best]. rewrite V1. unfold max_score at 1 2 3 4. cbn [score score0 inliers]. destruct (Rlt_dec 1 0) as [|_]; [exfalso; lra|]. cbn [score pos drawn seen best]. destruct (Req_EM_T 1 1) as [_|]; [|done].
    change ((1 <=? length [0%nat])%nat) with true. cbn [andb ex_params use_local_optimization local_optimization_iterations seq foldM]. unfold local_optimization. cbn [best inliers pos].
    change (GetRandomSamples ex_draw 5 (omap (fun i => [0; 1]%nat !! i) [0%nat]) (Nat.max (Nat.min 12 (length [0%nat] / 2)) 1) 1) with (Ok ([0%nat], 2%nat)). cbn [res_bind foldl].
    unfold try_lo_model. cbn [best]. rewrite V2. unfold max_score. cbn [score]. destruct (Rlt_dec 2 1) as [|_]; [exfalso; lra|]. done.
  - cbn [best inliers] in Hp. destruct (Hp 1%nat) as [Hp1 _]. destruct (Hp1 ltac:(set_solver)) as (e & He & Hlt). cbn in He. injection He as <-. cbn in Hlt. lra.
Qed.
Print Assumptions C55_model_inliers_refuted.

(** With the truncated cost, a refined model may have a smaller cost and fewer inliers than the minimum: the next refinement never ends,
    however good the generator *)
Definition ex_error2 (m : bool) (d : nat) : R := if m then 1 else if decide (d = 0%nat) then 0 else 2.
Theorem C55_msac_terminates_refuted :
  ~ forall draw (estimate estimate_non_minimal : list nat -> list bool) p samples, in_range draw ->
      (2 <= length samples)%nat -> exists fuel s, run draw fuel 2 estimate estimate_non_minimal ex_error2 (scoring MSAC 1) p samples = Ok s.
Proof.
  intros H. destruct (H ex_draw (fun _ => [true]) (fun _ => [false]) (Params 1 (99 / 100) true false 2) [0; 1; 2]%nat) as (fuel & s & E).
  - intros pos range. unfold ex_draw. pose proof (Nat.mod_upper_bound pos (S range)). lia.
  - cbn. lia.
  - assert (forall mm, evaluate ex_error2 (scoring MSAC 1) [0; 1; 2]%nat true mm = Score (1 / (3 + score_eps)) [0; 1; 2]%nat mm (Some true)) as V1.
    { intros mm. unfold evaluate. change (ex_error2 true <$> [0; 1; 2]%nat) with [1; 1; 1]. unfold scoring, MSacScoring. cbn. do 3 (destruct (Rle_dec 1 1); [|lra]; cbn). f_equal. f_equal. lra. }
    assert (forall mm, evaluate ex_error2 (scoring MSAC 1) [0; 1; 2]%nat false mm = Score (1 / (2 + score_eps)) [0]%nat mm (Some false)) as V2.
    { intros mm. unfold evaluate. change (ex_error2 false <$> [0; 1; 2]%nat) with [0; 2; 2]. unfold scoring, MSacScoring. cbn. destruct (Rle_dec 0 1); [|lra]. cbn. do 2 (destruct (Rle_dec 2 1); [lra|]; cbn). f_equal. f_equal. lra. }
    assert (0 < score_eps) as He by (unfold score_eps; apply Rinv_0_lt_compat, pow_lt; lra).
    assert (0 < 1 / (3 + score_eps)) as P3 by (apply Rdiv_lt_0_compat; lra).
    assert (1 / (3 + score_eps) < 1 / (2 + score_eps)) as P2. { unfold Rdiv. rewrite !Rmult_1_l. apply Rinv_lt_contravar; [apply Rmult_lt_0_compat; lra|lra]. }
    unfold run in E. cbn [iterations loop stop pos] in E. destruct (GetRandomSamples ex_draw fuel [0; 1; 2]%nat 2 0) as [[d q]|]; [|done]. cbn [res_bind foldM best drawn seen app] in E.
    unfold try_model in E. cbn [stop best] in E. rewrite V1 in E. unfold max_score in E. cbn [score score0 inliers] in E. destruct (Rlt_dec (1 / (3 + score_eps)) 0) as [|_]; [exfalso; lra|]. cbn [score pos drawn seen best] in E. destruct (Req_EM_T _ _) as [_|]; [|done].
    change ((2 <=? length [0; 1; 2]%nat)%nat) with true in E. cbn [andb use_local_optimization local_optimization_iterations seq foldM] in E. unfold local_optimization at 1 in E. cbn [best inliers pos] in E.
    destruct (GetRandomSamples _ _ _ _ _) as [[d' q']|]; [|done]. cbn [res_bind foldl] in E.
    unfold try_lo_model in E. cbn [best] in E. rewrite V2 in E. unfold max_score in E. cbn [score] in E. destruct (Rlt_dec (1 / (2 + score_eps)) (1 / (3 + score_eps))) as [|_]; [exfalso; lra|].
    unfold local_optimization in E. cbn [best inliers pos] in E. rewrite samples_diverge in E; [done| |done|].
    + intros pos range. unfold ex_draw. pose proof (Nat.mod_upper_bound pos (S range)). lia.
    + cbn. lia.
Qed.
Print Assumptions C55_msac_terminates_refuted.

(** ** The hypotheses are met: a line through two of four points *)
Lemma ex_draw_fair size : (0 < size)%nat -> fair ex_draw size size.
Proof.
  intros Hs range v pos Hr Hv. unfold ex_draw. exists ((S range + v - pos mod S range) mod S range)%nat. split.
  - pose proof (Nat.mod_upper_bound (S range + v - pos mod S range) (S range)). lia.
  - pose proof (Nat.mod_upper_bound pos (S range)) as Hb. rewrite Nat.add_mod_idemp_r by lia. rewrite <- Nat.add_mod_idemp_l by lia.
    replace (pos mod S range + (S range + v - pos mod S range))%nat with (v + 1 * S range)%nat by lia. rewrite Nat.mod_add by lia. apply Nat.mod_small. lia.
Qed.
Definition ex_points : list (R * R) := [(1, 1); (2, 2); (3, 3); (4, 9)].
Example C55_nonvacuous : exists s (m : R * R),
  (run ex_draw 4 2 line_estimate line_estimate line_error (scoring RANSAC (1 / 10)) (Params 3 (99 / 100) true false 10) ex_points = Ok s) /\
  (lo_model (best s) = Some m) /\ scored RANSAC (1 / 10) (line_error m <$> ex_points) (score (best s)) (inliers (best s)).
Proof.
  assert (in_range ex_draw) as Hr. { intros pos range. unfold ex_draw. pose proof (Nat.mod_upper_bound pos (S range)). lia. }
  assert (forall (m : R * R) d, 0 <= line_error m d) as He by (intros; apply Rabs_pos).
  destruct (C55_terminates ex_draw Hr 4 2 line_estimate line_estimate line_error He RANSAC (1 / 10) ltac:(lra) (Params 3 (99 / 100) true false 10) ex_points) as [s E].
  - apply (ex_draw_fair 4); lia.
  - cbn. lia.
  - by left.
  - exists s. destruct (C55_result ex_draw Hr 4 2 line_estimate line_estimate line_error He RANSAC (1 / 10) ltac:(lra) _ ex_points s ltac:(done) E) as (Hd & _ & Hb).
    destruct (C55_exhaustive ex_draw Hr 4 2 line_estimate line_estimate line_error He RANSAC (1 / 10) ltac:(lra) _ ex_points s ltac:(done) E) as (_ & Hl & Hx).
    destruct (seen s) as [|m0 l]; [exfalso|].
    + destruct Hl as [Hl|[_ ?]]; [|done]. destruct (drawn s) as [|d k]; [done|]. apply Forall_cons in Hd as [(idx & Hn & Hlen & Hf) _]. 
      destruct idx as [|i [|j [|]]]; [done|done| |done]. inversion Hf as [|? a ? ? Ha Hf' E1 E2]; subst. inversion Hf' as [|? b ? ? Hb' Hf'' E1 E2]; subst. inversion Hf''; subst.
      assert (i <> j) as Hij by (intros ->; by apply NoDup_cons in Hn as [Hn _]; apply Hn; left).
      destruct (C55_line_found a b) as [m Hm].
      * intros Heq. do 4 (destruct i as [|i]; [do 4 (destruct j as [|j]; [cbn in Ha, Hb'; try lia; injection Ha as <-; injection Hb' as <-; cbn in Heq; lra|]); done|]). done.
      * do 4 (destruct i as [|i]; [cbn in Ha; injection Ha as <-; cbn; lra|]). done.
      * specialize (Hx eq_refl [a; b] m ltac:(by left)). rewrite Hm in Hx. by apply elem_of_nil in Hx; [|left].
    + destruct Hb as ((m & Hm & _ & Hs) & _). exists m. done.
Qed.
