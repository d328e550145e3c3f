(** Proofs about the reconstruction of two views *)
From stdpp Require Import prelude.
From Coq Require Import Reals Lra Psatz Sorted.
From Verif Require Import Base Lin RotProofs TriangModel TriangSpec TriangProofs TriangProps AnglesModel PlaneSpec PlaneProofs PlaneProps TwoViewModel TwoViewSpec.
Local Open Scope R_scope.

Lemma nonzero_cons b l : nonzero (b :: l) = (if b then [0%nat] else []) ++ (S <$> nonzero l).
Proof.
  unfold nonzero. cbn [imap]. cbn [mjoin list_join]. f_equal. 
  assert (forall (f : nat -> bool -> list nat) l, S <$> mjoin (imap f l) = mjoin (imap (fun i b => S <$> f i b) l)) as H.
  { intros f l0. revert f. induction l0 as [|a l0 IH]; intros f; [done|]. cbn [imap mjoin list_join]. rewrite fmap_app. f_equal. apply IH. }
  rewrite H. f_equal. apply imap_ext. intros i [] _; done.
Qed.
Lemma nonzero_spec l i : i ∈ nonzero l <-> l !! i = Some true.
Proof.
  revert i. induction l as [|b l IH]; intros i; [split; [by intros ?%elem_of_nil|done]|]. rewrite nonzero_cons, elem_of_app, elem_of_list_fmap. destruct i as [|i]; cbn.
  - split; [|intros [= ->]; left; by left]. intros [H|(? & ? & _)]; [|done]. destruct b; [done|by apply elem_of_nil in H].
  - rewrite <- IH. split; [|intros H; right; eauto]. intros [H|(j & [= ->] & H)]; [|done]. destruct b; [|by apply elem_of_nil in H]. apply elem_of_list_singleton in H. done.
Qed.
Lemma nonzero_increasing l : increasing (nonzero l).
Proof.
  unfold increasing. induction l as [|b l IH]; [constructor|]. rewrite nonzero_cons.
  assert (StronglySorted lt (S <$> nonzero l)) as H. { clear - IH. induction IH as [|a l' H IH HF]; [constructor|]. cbn. constructor; [done|]. apply Forall_fmap. eapply Forall_impl; [exact HF|]. cbn. lia. }
  destruct b; [|done]. cbn. constructor; [done|]. apply Forall_fmap, Forall_true. intros. cbn. lia.
Qed.
Lemma near_direction_spec x b th : near_direction x b th = true <-> x <> v0 /\ norm (vsub (direction x) b) < th.
Proof.
  unfold near_direction, direction. destruct (Req_EM_T (norm x) 0) as [E|E].
  - split; [done|]. intros [H _]. by apply norm_0 in E.
  - destruct (Rlt_dec _ _); split; try done; [intros _; split; [intros ->; by rewrite norm_v0 in E|done]|intros [_ ?]; lra].
Qed.
Lemma inliers_lookup b1 b2 r t th i : i ∈ two_view_reconstruction_inliers b1 b2 r t th <->
  exists x1 x2 X, b1 !! i = Some x1 /\ b2 !! i = Some x2 /\ TriangulateTwoBearingsMidpointSolve (v0, x1) (t, mvec r x2) = Some X /\
    near_direction X x1 th = true /\ near_direction (mvec (mT r) (vsub X t)) x2 th = true.
Proof.
  unfold two_view_reconstruction_inliers. rewrite nonzero_spec. unfold compute_inliers_bearings, TriangulateTwoBearingsMidpointMany.
  rewrite lookup_zip_with_Some. split.
  - intros (o & [x1 x2] & E & Hp & Hz). apply lookup_zip_with_Some in Hz as (? & ? & [= <- <-] & H1 & H2). apply lookup_zip_with_Some in Hp as (y1 & y2 & -> & H1' & H2').
    assert (y1 = x1) as -> by congruence. assert (y2 = x2) as -> by congruence.
    destruct (TriangulateTwoBearingsMidpointSolve _ _) as [X|] eqn:ES; [|done]. symmetry in E. apply andb_true_iff in E as [Ea Eb]. exists x1, x2, X. done.
  - intros (x1 & x2 & X & H1 & H2 & HX & Ha & Hb). exists (Some X), (x1, x2). split; [cbn; by rewrite Ha, Hb|]. rewrite !lookup_zip_with_Some. split; eauto 10.
Qed.
Lemma moved r t X : rotation r -> mvec (mT r) (vsub X t) = vadd (mvec (mT r) X) (vopp (mvec (mT r) t)).
Proof. intros _. vring. Qed.
(** Inliers of the motion that sees X at r X + t *)
Lemma inliers_agree b1 b2 r t th i : rotation r -> i ∈ two_view_reconstruction_inliers b1 b2 (mT r) (vopp (mvec (mT r) t)) th <->
  exists x1 x2 X, b1 !! i = Some x1 /\ b2 !! i = Some x2 /\ TriangulateTwoBearingsMidpointSolve (v0, x1) (vopp (mvec (mT r) t), mvec (mT r) x2) = Some X /\ agrees r t th x1 x2 X.
Proof.
  intros Hr. rewrite inliers_lookup. split; intros (x1 & x2 & X & H1 & H2 & HX & Ha); exists x1, x2, X; (split; [done|split; [done|split; [done|]]]).
  - destruct Ha as [Ha Hb]. rewrite mT_T in Hb. replace (mvec r (vsub X (vopp (mvec (mT r) t)))) with (vadd (mvec r X) t) in Hb.
    + apply near_direction_spec in Ha as [A1 A2]. apply near_direction_spec in Hb as [B1 B2]. done.
    + replace (vsub X (vopp (mvec (mT r) t))) with (vadd X (mvec (mT r) t)) by vring. by rewrite mvec_add, <- mvec_mmul, (rotation_r r Hr), mvec_I.
  - destruct Ha as (A1 & A2 & A3 & A4). split; [by apply near_direction_spec|]. apply near_direction_spec. rewrite mT_T. replace (mvec r (vsub X (vopp (mvec (mT r) t)))) with (vadd (mvec r X) t); [done|].
    replace (vsub X (vopp (mvec (mT r) t))) with (vadd X (mvec (mT r) t)) by vring. by rewrite mvec_add, <- mvec_mmul, (rotation_r r Hr), mvec_I.
Qed.
Lemma solve_between r t x1 x2 X : rotation r -> TriangulateTwoBearingsMidpointSolve (v0, x1) (vopp (mvec (mT r) t), mvec (mT r) x2) = Some X -> between_lines r t x1 x2 X.
Proof.
  intros Hr H. destruct (C48_two_views_midpoint _ _ _ H) as (a & b & E & H1 & H2). exists a, b. cbn [fst snd] in *.
  assert (on_line (v0, x1) a = vscale a x1) as E1 by (unfold on_line; cbn; vring).
  assert (on_line (vopp (mvec (mT r) t), mvec (mT r) x2) b = mvec (mT r) (vsub (vscale b x2) t)) as E2 by (unfold on_line; cbn [fst snd]; clear; vring).
  rewrite E1, E2 in *. split; [|done]. rewrite E. f_equal. lra.
Qed.
Lemma cross_scale_sq r x1 x2 : dot (cross (x1) (mvec (mT r) x2)) (cross x1 (mvec (mT r) x2)) = parallax r x1 x2.
Proof. done. Qed.
(** Lines of sight that meet *)
Lemma solve_exact r t x1 x2 X a b : rotation r -> norm x1 = 1 -> norm x2 = 1 -> / 10 ^ 10 <= parallax r x1 x2 -> X = vscale a x1 -> vadd (mvec r X) t = vscale b x2 ->
  TriangulateTwoBearingsMidpointSolve (v0, x1) (vopp (mvec (mT r) t), mvec (mT r) x2) = Some X.
Proof.
  intros Hr N1 N2 Hp E1 E2. apply (C48_two_views_exact _ _ a b); cbn [fst snd]; try done.
  - unfold norm. rewrite dot_mvec by (by apply rotation_T). done.
  - rewrite E1. unfold on_line. cbn. vring.
  - unfold on_line. cbn [fst snd]. rewrite <- mvec_scale, <- E2, mvec_add, <- mvec_mmul, rotation_l, mvec_I by done. generalize (mvec (mT r) t). intros. vring.
Qed.
Lemma direction_scale a x : 0 < a -> norm x = 1 -> direction (vscale a x) = x.
Proof. intros Ha Hx. unfold direction. rewrite norm_vscale, Hx, Rabs_pos_eq by lra. rewrite vscale_vscale. replace (/ (a * 1) * a) with 1 by (field; lra). apply vscale_1. Qed.
Lemma scale_ne a x : a <> 0 -> norm x = 1 -> vscale a x <> v0.
Proof. intros Ha Hx E. assert (norm (vscale a x) = 0) as E' by (rewrite E; apply norm_v0). rewrite norm_vscale, Hx in E'. pose proof (Rabs_pos_lt a Ha). lra. Qed.
Lemma norm_self x : norm (vsub x x) = 0.
Proof. replace (vsub x x) with v0 by vring. apply norm_v0. Qed.
