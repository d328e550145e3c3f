(** C90: relative poses from essential matrices, and essential matrices from many points *)
From stdpp Require Import prelude.
From Coq Require Import Reals Lra Psatz.
From Verif Require Import Base Lin TriangModel FitModel FitSpec FitProofs P3pModel P3pProofs SvdProofs NposeProps EssModel EssSpec EssProofs.
From Verif Require TriangProofs.
Local Open Scope R_scope.

(** ** The relative pose *)
(** The four pairs tried are exactly the rotations and unit translations with this essential matrix, up to a factor *)
Theorem C90_decompositions svd k r t r' t' : is_svd_of (mscale k (essential r t)) (svd (mscale k (essential r t))) -> rotation r -> dot t t = 1 -> k <> 0 ->
  (r', t') ∈ decompositions svd (mscale k (essential r t)) <-> rotation r' /\ dot t' t' = 1 /\ exists c, essential r' t' = mscale c (mscale k (essential r t)).
Proof.
  intros Hs Hr Ht Nk. split.
  - destruct (four svd k r t Hs Hr Ht Nk) as (ra & rb & t0 & -> & Ha & Hb & H0 & Ea & Eb). assert (dot (vopp t0) (vopp t0) = 1) as H0' by (rewrite <- H0; destruct t0; vcbv; ring). assert (Rabs k <> 0) as Na by now apply Rabs_no_R0.
    assert (forall e, mscale e (essential r t) = mscale (e / k) (mscale k (essential r t))) as F by (intros e; rewrite mscale_mscale; f_equal; field; exact Nk).
    rewrite !elem_of_cons, elem_of_nil. intros [[= -> ->]|[[= -> ->]|[[= -> ->]|[[= -> ->]|[]]]]]; (split; [assumption|split; [assumption|]]).
    + eexists. rewrite Ea. apply F.
    + eexists. rewrite Eb. apply F.
    + eexists. rewrite essential_opp, Ea, mscale_mscale. apply F.
    + eexists. rewrite essential_opp, Eb, mscale_mscale. apply F.
  - intros (Hr' & Ht' & c & E). now apply (all_found svd k r t r' t' c).
Qed.
(** What is returned is one of them, of positive score; no other has a score larger by one or more *)
Theorem C90_choice svd E samples p : RelativePoseFromEssential svd E samples = Some p ->
  p ∈ decompositions svd E /\ 0 < score p samples /\ forall q, q ∈ decompositions svd E -> score q samples < score p samples + 1.
Proof.
  unfold RelativePoseFromEssential. set (l := _ <$> _). intros H. destruct (choice_all l [] (0, None) choice_start) as (z & Pz & _ & B & M). rewrite H in M. destruct M as (sp & Hin & Psp & Lz). cbn [app] in *.
  assert (forall s q, (s, q) ∈ l <-> q ∈ decompositions svd E /\ s = score q samples) as El. { intros s q. unfold l. rewrite elem_of_list_fmap. split; [intros (y & [= -> ->] & Hy); auto|intros [Hq ->]; eauto]. }
  apply El in Hin as [Hp ->]. split; [exact Hp|]. split; [exact Psp|]. intros q Hq. specialize (B (score q samples) q (proj2 (El _ _) (conj Hq eq_refl))). lra.
Qed.
(** Nothing is written to the result exactly if no score is positive; for an essential matrix: if all scores are 0 *)
Theorem C90_undefined svd E samples : RelativePoseFromEssential svd E samples = None <-> forall q, q ∈ decompositions svd E -> score q samples <= 0.
Proof.
  unfold RelativePoseFromEssential. set (l := _ <$> _). destruct (choice_all l [] (0, None) choice_start) as (z & Pz & _ & B & M). cbn [app] in *.
  assert (forall s q, (s, q) ∈ l <-> q ∈ decompositions svd E /\ s = score q samples) as El. { intros s q. unfold l. rewrite elem_of_list_fmap. split; [intros (y & [= -> ->] & Hy); auto|intros [Hq ->]; eauto]. }
  destruct (best_decomposition l (0, None)).2 as [p|].
  - destruct M as (sp & Hin & P & _). apply El in Hin as [Hp ->]. split; [discriminate|]. intros H. specialize (H p Hp). lra.
  - destruct M as [_ M]. split; [|reflexivity]. intros _ q Hq. apply (M _ q). now apply El.
Qed.
Theorem C90_undefined_essential svd k r t samples : is_svd_of (mscale k (essential r t)) (svd (mscale k (essential r t))) -> rotation r -> dot t t = 1 -> k <> 0 ->
  RelativePoseFromEssential svd (mscale k (essential r t)) samples = None <-> forall q, q ∈ decompositions svd (mscale k (essential r t)) -> score q samples = 0.
Proof.
  intros Hs Hr Ht Nk. rewrite C90_undefined. split; [|intros H q Hq; rewrite (H q Hq); lra]. destruct (four svd k r t Hs Hr Ht Nk) as (ra & rb & t0 & -> & _). intros H.
  assert (forall x, x ∈ [ra; rb] -> score (x, t0) samples = 0) as Z. { intros x Hx. pose proof (H (x, t0) ltac:(set_solver)) as H1. pose proof (H (x, vopp t0) ltac:(set_solver)) as H2. rewrite score_opp in H2. lra. }
  intros q Hq. rewrite !elem_of_cons, elem_of_nil in Hq. destruct Hq as [-> |[-> |[-> |[-> |[]]]]]; rewrite ?score_opp, Z by set_solver; ring.
Qed.
(** With exact data, points in front of both cameras and one of them not seen in (nearly) parallel directions, the true pose is returned *)
Theorem C90_exact svd k r t samples : is_svd_of (mscale k (essential r t)) (svd (mscale k (essential r t))) -> rotation r -> dot t t = 1 -> k <> 0 ->
  (forall s, s ∈ samples -> dot s.1 s.1 = 1 /\ dot s.2 s.2 = 1 /\ in_front_of_both r t s) -> (exists s, s ∈ samples /\ / 10 ^ 10 <= dot (cross s.1 (mvec (mT r) s.2)) (cross s.1 (mvec (mT r) s.2))) ->
  RelativePoseFromEssential svd (mscale k (essential r t)) samples = Some (r, t).
Proof.
  intros Hs Hr Ht Nk HS (s0 & I0 & P0). assert (exists m, (0 < m)%nat /\ score (r, t) samples = INR m) as (m & Pm & Em).
  { assert (forall s, s ∈ samples -> sample_score (r, t) s = if Rle_dec (/ 10 ^ 10) (dot (cross s.1 (mvec (mT r) s.2)) (cross s.1 (mvec (mT r) s.2))) then 1 else 0) as T.
    { intros s Hin. destruct (HS s Hin) as (H1 & H2 & d1 & d2 & D1 & D2 & Hse). rewrite (score_on_lines r t s d1 d2) by assumption. rewrite !sg_pos by assumption. destruct (Rle_dec _ _); lra. }
    clear HS. revert I0 T. generalize samples. clear samples. intros l. induction l as [|s l IH]; [intros H; inversion H|]. intros I0 T. rewrite score_cons, (T s) by left.
    assert (exists m, score (r, t) l = INR m) as [m E]. { clear -T. induction l as [|x l IH]; [exists O; unfold score; reflexivity|]. destruct IH as [m E]; [intros y Hy; apply T; set_solver|]. rewrite score_cons, (T x), E by set_solver. destruct (Rle_dec _ _); [exists (S m); rewrite S_INR; ring|exists m; ring]. }
    rewrite E. apply elem_of_cons in I0 as [<-|I0].
    - destruct (Rle_dec _ _); [|contradiction]. exists (S m). split; [lia|]. rewrite S_INR. ring.
    - destruct (IH I0) as (m' & P' & E'); [intros y Hy; apply T; now right|]. rewrite E in E'. apply INR_eq in E'. subst m'. destruct (Rle_dec _ _); [exists (S m); split; [lia|rewrite S_INR; ring]|exists m; split; [lia|ring]]. }
  unfold RelativePoseFromEssential. apply (choice_unique _ (r, t) m); [exact Pm| |].
  - intros s q Hin. apply elem_of_list_fmap in Hin as (y & [= -> ->] & Hq). destruct y as [r' t']. apply (C90_decompositions svd k r t r' t' Hs Hr Ht Nk) in Hq as (Hr' & Ht' & c & E). rewrite mscale_mscale in E.
    assert (forall q, rotation q -> essential q t = mscale (-1) (essential r t) -> score (q, t) samples = 0) as Tw.
    { intros q Hq Eq. clear -HS Hr Hq Ht Eq. induction samples as [|x l IH]; [reflexivity|]. rewrite score_cons, IH by (intros y Hy; apply HS; now right). destruct (HS x ltac:(left)) as (H1 & H2 & H3). rewrite (twisted_zero r q t x) by assumption. ring. }
    destruct (same_null _ _ _ _ _ Hr Hr' Ht Ht' E) as [Ek [-> | ->]]; (destruct Ek as [Ek|Ek]; rewrite Ek in E).
    + rewrite mscale_1 in E. apply essential_inj in E; [|assumption..]. subst r'. right. auto.
    + left. rewrite Tw by assumption. lra.
    + left. rewrite essential_opp in E. apply (f_equal (mscale (-1))) in E. rewrite !mscale_mscale in E. replace (-1 * -1) with 1 in E by ring. rewrite mscale_1, Rmult_1_r in E. rewrite score_opp, Tw by assumption. lra.
    + left. rewrite essential_opp in E. apply (f_equal (mscale (-1))) in E. rewrite !mscale_mscale in E. replace (-1 * -1) with 1 in E by ring. rewrite !mscale_1 in E. apply essential_inj in E; [|assumption..]. subst r'. rewrite score_opp, Em. pose proof (pos_INR m). lra.
  - left. split; [reflexivity|]. exists (score (r, t) samples). split; [|exact Em]. apply elem_of_list_fmap. exists (r, t). split; [reflexivity|]. apply (C90_decompositions svd k r t r t Hs Hr Ht Nk). split; [exact Hr|]. split; [exact Ht|]. exists (/ k). rewrite mscale_mscale, Rinv_l, mscale_1 by exact Nk. reflexivity.
Qed.
(** Lists of different lengths are refused *)
Theorem C90_lengths svd last E x1 x2 : length x1 <> length x2 -> relative_pose_from_essential svd E x1 x2 = Err RuntimeError /\ essential_n_points svd last x1 x2 = Err RuntimeError.
Proof. intros H. unfold relative_pose_from_essential, essential_n_points. apply Nat.eqb_neq in H. rewrite H. auto. Qed.
(** The best one is not always returned: the best score so far is cut to an integer *)
Definition z_axis : vec := Vec 0 0 1.
Definition half_turn : mat := Mat (-1) 0 0 0 (-1) 0 0 0 1.
Definition E_z : mat := Mat 0 (-1) 0 1 0 0 0 0 0.
Definition svd_z : svd_of := fun m => if mat_dec m E_z then (mI, (1, 1, 0), W) else real_svd m.
Lemma svd_z_right m : is_svd_of m (svd_z m).
Proof. unfold svd_z. destruct (mat_dec m E_z) as [->|]; [|apply real_svd_right]. unfold is_svd_of, E_z, W, mmul, mT, mI. cbn [m11 m12 m13 m21 m22 m23 m31 m32 m33]. split; [f_equal; ring|]. split; [f_equal; ring|]. split; [f_equal; ring|lra]. Qed.
Lemma decompositions_z : decompositions svd_z E_z = [(half_turn, z_axis); (mI, z_axis); (half_turn, vopp z_axis); (mI, vopp z_axis)].
Proof.
  unfold decompositions, svd_z. destruct (mat_dec E_z E_z) as [_|N]; [|contradiction]. cbv beta iota zeta. unfold flip_column, flip_row. destruct (Rlt_dec (det mI) 0) as [L|_]; [unfold det, mI in L; cbn in L; lra|]. destruct (Rlt_dec (det W) 0) as [L|_]; [unfold det, W in L; cbn in L; lra|].
  assert (last_column mI = z_axis) as -> by reflexivity. rewrite !normalized_of_unit by (unfold z_axis, dot, vopp; cbn; ring).
  assert (mmul mI (mmul W W) = half_turn) as -> by (unfold half_turn, mmul, W, mI; cbn; f_equal; ring). assert (mmul mI (mmul (mT W) W) = mI) as -> by (unfold mmul, W, mT, mI; cbn; f_equal; ring). reflexivity.
Qed.
Lemma half_turn_rotation : rotation half_turn. Proof. unfold rotation, half_turn, mmul, mT, mI, det. cbn. split; [f_equal; ring|ring]. Qed.
Definition sampleA : vec * vec := (Vec (12 / 13) 0 (5 / 13), Vec (- (4 / 5)) 0 (3 / 5)).
Definition sampleB : vec * vec := (Vec (12 / 13) 0 (5 / 13), Vec (4 / 5) 0 (3 / 5)).
Definition sampleN : vec * vec := (Vec (1 / 3) (2 / 3) (- (2 / 3)), Vec (1 / 3) (- (2 / 3)) (2 / 3)).
Ltac numbers := unfold sampleA, sampleB, sampleN, half_turn, z_axis, seen_by_both, mI, mvec, mT, vadd, vscale, vopp, vsub, v0, dot, cross; cbn [fst snd vx vy vz m11 m12 m13 m21 m22 m23 m31 m32 m33].
Lemma eps_small : / 10 ^ 10 <= / 1000. Proof. apply Rinv_le_contravar; lra. Qed.
Lemma scoreA : sample_score (half_turn, z_axis) sampleA = 1 /\ sample_score (mI, z_axis) sampleA = 0.
Proof.
  pose proof eps_small as Eps. split.
  - rewrite (score_on_lines _ _ _ (13 / 4) (15 / 4)); [|apply half_turn_rotation|numbers; field|numbers; field|numbers; f_equal; field]. rewrite !sg_pos by lra. destruct (Rle_dec _ _) as [_|L]; [lra|]. exfalso. apply L. eapply Rle_trans; [exact Eps|]. numbers. lra.
  - rewrite (score_on_lines _ _ _ (- (13 / 14)) (15 / 14)); [|apply rotation_I|numbers; field|numbers; field|numbers; f_equal; field]. rewrite sg_opp, !sg_pos by lra. destruct (Rle_dec _ _); lra.
Qed.
Lemma scoreB : sample_score (half_turn, z_axis) sampleB = 0 /\ sample_score (mI, z_axis) sampleB = 1.
Proof.
  pose proof eps_small as Eps. split.
  - rewrite (score_on_lines _ _ _ (- (13 / 14)) (15 / 14)); [|apply half_turn_rotation|numbers; field|numbers; field|numbers; f_equal; field]. rewrite sg_opp, !sg_pos by lra. destruct (Rle_dec _ _); lra.
  - rewrite (score_on_lines _ _ _ (13 / 4) (15 / 4)); [|apply rotation_I|numbers; field|numbers; field|numbers; f_equal; field]. rewrite !sg_pos by lra. destruct (Rle_dec _ _) as [_|L]; [lra|]. exfalso. apply L. eapply Rle_trans; [exact Eps|]. numbers. lra.
Qed.
Lemma two_views (r1 r2 : vec * vec) l0 l1 d : d = dot r1.2 r1.2 * - dot r2.2 r2.2 - - dot r1.2 r2.2 * dot r1.2 r2.2 -> d <= - / 1000 ->
  l0 * d = - dot r2.2 r2.2 * dot (vsub r2.1 r1.1) r1.2 - - dot r1.2 r2.2 * dot (vsub r2.1 r1.1) r2.2 -> l1 * d = dot r1.2 r1.2 * dot (vsub r2.1 r1.1) r2.2 - dot r1.2 r2.2 * dot (vsub r2.1 r1.1) r1.2 ->
  TriangulateTwoBearingsMidpointSolve r1 r2 = Some (vscale (/ 2) (vadd (vadd r1.1 (vscale l0 r1.2)) (vadd r2.1 (vscale l1 r2.2)))).
Proof.
  intros Ed Ld E0 E1. unfold TriangulateTwoBearingsMidpointSolve. cbv zeta. rewrite <- Ed, <- E0, <- E1. pose proof eps_small as Eps. assert (0 < / 10 ^ 10) by (apply Rinv_0_lt_compat; lra). destruct (Rlt_dec (- / 10 ^ 10) d) as [L|_]; [lra|].
  replace (l0 * d / d) with l0 by (field; lra). replace (l1 * d / d) with l1 by (field; lra). reflexivity.
Qed.
Lemma normalized_ratio v b c q : dot v v = q -> q <> 0 -> dot v b = c -> dot (normalized v) b = c / sqrt q.
Proof. intros <- N <-. unfold normalized. destruct (Req_EM_T (dot v v) 0); [contradiction|]. rewrite dot_scale_l. unfold Rdiv. ring. Qed.
Lemma sample_score_at r t s X Y d l0 l1 : d <= - / 1000 -> d = dot s.1 s.1 * - dot (mvec (mT r) s.2) (mvec (mT r) s.2) - - dot s.1 (mvec (mT r) s.2) * dot s.1 (mvec (mT r) s.2) ->
  l0 * d = - dot (mvec (mT r) s.2) (mvec (mT r) s.2) * dot (vsub (vopp (mvec (mT r) t)) v0) s.1 - - dot s.1 (mvec (mT r) s.2) * dot (vsub (vopp (mvec (mT r) t)) v0) (mvec (mT r) s.2) ->
  l1 * d = dot s.1 s.1 * dot (vsub (vopp (mvec (mT r) t)) v0) (mvec (mT r) s.2) - dot s.1 (mvec (mT r) s.2) * dot (vsub (vopp (mvec (mT r) t)) v0) s.1 ->
  vscale (/ 2) (vadd (vadd v0 (vscale l0 s.1)) (vadd (vopp (mvec (mT r) t)) (vscale l1 (mvec (mT r) s.2)))) = X -> vadd (mvec r X) t = Y ->
  sample_score (r, t) s = (dot (normalized X) s.1 + dot (normalized Y) s.2) / 2.
Proof. intros Ld Ed E0 E1 EX EY. unfold sample_score. rewrite (two_views _ _ l0 l1 d) by (cbn [fst snd]; assumption). cbn [fst snd]. rewrite EX, EY. reflexivity. Qed.
Lemma scoreN : sample_score (half_turn, z_axis) sampleN = 3 / 5 / sqrt (41 / 100) /\ sample_score (mI, z_axis) sampleN = 3 / 8 / sqrt (17 / 64).
Proof.
  split.
  - assert (mvec (mT half_turn) (sampleN.2) = Vec (- (1 / 3)) (2 / 3) (2 / 3)) as E by (numbers; f_equal; field). assert (mvec (mT half_turn) z_axis = z_axis) as Ez by (numbers; f_equal; field).
    rewrite (sample_score_at _ _ _ (Vec 0 (2 / 5) (- (1 / 2))) (Vec 0 (- (2 / 5)) (1 / 2)) (- (80 / 81)) (3 / 5) (3 / 5)); rewrite ?E, ?Ez; [|lra|numbers; field|numbers; field|numbers; field|numbers; f_equal; field|numbers; f_equal; field].
    rewrite (normalized_ratio _ _ (3 / 5) (41 / 100)); [|numbers; field|lra|numbers; field]. rewrite (normalized_ratio _ _ (3 / 5) (41 / 100)); [|numbers; field|lra|numbers; field]. generalize (3 / 5 / sqrt (41 / 100)). intros x. field.
  - assert (mvec (mT mI) (sampleN.2) = Vec (1 / 3) (- (2 / 3)) (2 / 3)) as E by (numbers; f_equal; field). assert (mvec (mT mI) z_axis = z_axis) as Ez by (numbers; f_equal; field).
    rewrite (sample_score_at _ _ _ (Vec (1 / 8) 0 (- (1 / 2))) (Vec (1 / 8) 0 (1 / 2)) (- (32 / 81)) (3 / 8) (3 / 8)); rewrite ?E, ?Ez; [|lra|numbers; field|numbers; field|numbers; field|numbers; f_equal; field|numbers; f_equal; field].
    rewrite (normalized_ratio _ _ (3 / 8) (17 / 64)); [|numbers; field|lra|numbers; field]. rewrite (normalized_ratio _ _ (3 / 8) (17 / 64)); [|numbers; field|lra|numbers; field]. generalize (3 / 8 / sqrt (17 / 64)). intros x. field.
Qed.
Definition three : list (vec * vec) := [sampleA; sampleB; sampleN].
Lemma score_three r t : score (r, t) three = sample_score (r, t) sampleA + sample_score (r, t) sampleB + sample_score (r, t) sampleN.
Proof. unfold score, three. cbn [foldl]. ring. Qed.
Lemma sqrt_between x a b : 0 <= a -> 0 <= b -> a * a < x -> x < b * b -> a < sqrt x < b.
Proof. intros Pa Pb L1 L2. split; [rewrite <- (sqrt_square a Pa) at 1|rewrite <- (sqrt_square b Pb)]; apply sqrt_lt_1; nra. Qed.
Theorem C90_best_refuted : exists svd E samples p q, (forall m, is_svd_of m (svd m)) /\ (exists r t, rotation r /\ dot t t = 1 /\ E = essential r t) /\ (forall s, s ∈ samples -> dot s.1 s.1 = 1 /\ dot s.2 s.2 = 1) /\
  RelativePoseFromEssential svd E samples = Some p /\ q ∈ decompositions svd E /\ score p samples + / 10 < score q samples.
Proof.
  exists svd_z, E_z, three, (mI, z_axis), (half_turn, z_axis). destruct scoreA as [A0 A1], scoreB as [B0 B1], scoreN as [N0 N1].
  assert (score (half_turn, z_axis) three = 1 + 3 / 5 / sqrt (41 / 100)) as S0 by (rewrite score_three, A0, B0, N0; ring). assert (score (mI, z_axis) three = 1 + 3 / 8 / sqrt (17 / 64)) as S1 by (rewrite score_three, A1, B1, N1; ring).
  destruct (sqrt_between (41 / 100) (6 / 10) (65 / 100) ltac:(lra) ltac:(lra) ltac:(lra) ltac:(lra)) as [L1 L2]. destruct (sqrt_between (17 / 64) (1 / 2) (52 / 100) ltac:(lra) ltac:(lra) ltac:(lra) ltac:(lra)) as [L3 L4].
  set (a := sqrt (41 / 100)) in *. set (b := sqrt (17 / 64)) in *. assert (3 / 5 / a < 1 /\ 9 / 10 < 3 / 5 / a) as [F1 F2]. { split; [apply (Rmult_lt_reg_r a); [lra|]; replace (3 / 5 / a * a) with (3 / 5) by (field; lra); lra|apply (Rmult_lt_reg_r a); [lra|]; replace (3 / 5 / a * a) with (3 / 5) by (field; lra); lra]. }
  assert (3 / 8 / b < 75 / 100 /\ 0 < 3 / 8 / b) as [F3 F4]. { split; [apply (Rmult_lt_reg_r b); [lra|]; replace (3 / 8 / b * b) with (3 / 8) by (field; lra); lra|apply (Rmult_lt_reg_r b); [lra|]; replace (3 / 8 / b * b) with (3 / 8) by (field; lra); lra]. }
  split; [apply svd_z_right|]. split; [exists mI, z_axis; split; [apply rotation_I|]; split; [numbers; ring|]; unfold E_z, essential, skew, z_axis, mmul, mI; cbn; f_equal; ring|].
  split. { intros s Hs. unfold three in Hs. rewrite !elem_of_cons, elem_of_nil in Hs. destruct Hs as [-> |[-> |[-> |[]]]]; numbers; split; field. }
  split; [|split; [rewrite decompositions_z; left|rewrite S0, S1; lra]].
  unfold RelativePoseFromEssential. rewrite decompositions_z. cbn [fmap list_fmap]. rewrite !score_opp, S0, S1. cbn [best_decomposition fst].
  assert (forall x, 1 <= x < 2 -> truncated x = 1) as T. { intros x [X1 X2]. destruct (truncated_nonneg x ltac:(lra)) as (z & _ & -> & Z1 & Z2). assert (z = 1%Z) as ->; [|reflexivity]. assert (0 < z < 2)%Z; [|lia]. split; apply lt_IZR; lra. }
  destruct (Rlt_dec 0 (1 + 3 / 5 / a)) as [_|N]; [|lra]. cbn [fst]. rewrite (T (1 + 3 / 5 / a)) by lra. destruct (Rlt_dec 1 (1 + 3 / 8 / b)) as [_|N]; [|lra]. cbn [fst]. rewrite (T (1 + 3 / 8 / b)) by lra.
  destruct (Rlt_dec 1 (- (1 + 3 / 5 / a))) as [L|_]; [lra|]. cbn [fst]. destruct (Rlt_dec 1 (- (1 + 3 / 8 / b))) as [L|_]; [lra|]. reflexivity.
Qed.
(** ** Essential matrices from many points *)
(** What is returned is an essential matrix *)
Theorem C90_npoints_essential svd last samples E : (forall m, is_svd_of m (svd m)) -> E ∈ EssentialNPoints svd last samples -> exists k r t, rotation r /\ dot t t = 1 /\ E = mscale k (essential r t).
Proof.
  intros Hs. unfold EssentialNPoints, SolveAX0. rewrite fmap_length. destruct (length samples <? 9)%nat eqn:L; [intros H; inversion H|]. apply Nat.ltb_ge in L. assert ((8 <? length samples)%nat = true) as -> by (apply Nat.ltb_lt; lia).
  destruct (last (epipolar_row <$> samples)) as [[s8 s9] v]. assert (forall e, E ∈ [enforce svd e] -> exists k r t, rotation r /\ dot t t = 1 /\ E = mscale k (essential r t)) as F. { intros e ->%elem_of_list_singleton. destruct (enforce_is_essential svd e (Hs e)) as (k & r & t & _ & H). eauto. }
  destruct (Req_EM_T s9 0); [destruct (Req_EM_T s8 0); [intros H; inversion H|apply F]|]. destruct (Rlt_dec _ _); [apply F|intros H; inversion H].
Qed.
(** The essential matrix closest to the solution of the equations *)
Theorem C90_closest svd E k r t : is_svd_of E (svd E) -> rotation r -> dot t t = 1 -> inner (msub E (enforce svd E)) (msub E (enforce svd E)) <= inner (msub E (mscale k (essential r t))) (msub E (mscale k (essential r t))).
Proof. apply enforce_closest. Qed.
(** Fewer than nine points give none *)
Theorem C90_npoints_few svd last samples : (length samples < 9)%nat -> EssentialNPoints svd last samples = [].
Proof. intros H. unfold EssentialNPoints, SolveAX0. rewrite fmap_length. apply Nat.ltb_lt in H. now rewrite H. Qed.
(** Exact data that determine the matrix up to a factor give it, with a unit sum of squares *)
Theorem C90_npoints_exact svd last samples r t : (forall m, is_svd_of m (svd m)) -> least_two samples (last (epipolar_row <$> samples)) -> rotation r -> dot t t = 1 -> (9 <= length samples)%nat ->
  (forall s, s ∈ samples -> epipolar (essential r t) s = 0) -> (forall F, (forall s, s ∈ samples -> epipolar F s = 0) -> exists c, F = mscale c (essential r t)) ->
  exists c, c * c = / 2 /\ EssentialNPoints svd last samples = [mscale c (essential r t)].
Proof.
  intros Hs HL Hr Ht Hn H0 HU. unfold EssentialNPoints, SolveAX0. rewrite fmap_length. assert ((length samples <? 9)%nat = false) as -> by (apply Nat.ltb_ge; lia). assert ((8 <? length samples)%nat = true) as -> by (apply Nat.ltb_lt; lia).
  destruct (last (epipolar_row <$> samples)) as [[s8 s9] v]. destruct HL as (S & Hv & Ev & Mv & (w & Hw & Ow & Ew) & _). pose proof (essential_norm r t Hr Ht) as N2. set (G := essential r t) in *.
  assert (epipolar_error G samples = 0) as EG by now apply error_zero. set (c0 := / sqrt 2). assert (c0 * c0 = / 2) as C0. { unfold c0. rewrite <- Rinv_mult, sqrt_sqrt by lra. reflexivity. }
  pose proof (Mv (mscale c0 G)) as M1. rewrite inner_scale, inner_comm, inner_scale, N2, error_scale, EG in M1. specialize (M1 ltac:(lra)). assert (s9 = 0) as -> by nra. assert (epipolar_error v samples = 0) as Ev0 by lra. destruct (HU v (proj1 (error_zero v samples) Ev0)) as [c ->].
  assert (c * c = / 2) as C. { rewrite inner_scale, inner_comm, inner_scale, N2 in Hv. lra. } assert (c <> 0) as Nc by nra.
  destruct (Req_EM_T 0 0) as [_|N]; [|contradiction]. destruct (Req_EM_T s8 0) as [Z|_].
  - exfalso. subst s8. assert (epipolar_error w samples = 0) as Ew0 by lra. destruct (HU w (proj1 (error_zero w samples) Ew0)) as [c' ->]. rewrite inner_scale, inner_comm, inner_scale, N2 in Ow, Hw. nra.
  - exists c. split; [exact C|]. f_equal. now apply enforce_essential.
Qed.
(** Exact data that do not determine it give none *)
Theorem C90_npoints_undetermined svd last samples F G : least_two samples (last (epipolar_row <$> samples)) -> inner F F = 1 -> inner G G = 1 -> inner F G = 0 -> (forall s, s ∈ samples -> epipolar F s = 0 /\ epipolar G s = 0) -> EssentialNPoints svd last samples = [].
Proof.
  intros HL HF HG HFG H0. unfold EssentialNPoints, SolveAX0. destruct (length (epipolar_row <$> samples) <? 9)%nat; [reflexivity|]. destruct (last (epipolar_row <$> samples)) as [[s8 s9] v]. destruct HL as (S & Hv & Ev & Mv & _ & M8).
  assert (forall a b, epipolar_error (madd (mscale a F) (mscale b G)) samples = 0) as Z. { intros a b. apply error_zero. intros s Hin. destruct (H0 s Hin) as [ZF ZG]. unfold epipolar in *. rewrite TriangProofs.mvec_madd, !TriangProofs.mvec_mscale. transitivity (a * dot s.2 (mvec F s.1) + b * dot s.2 (mvec G s.1)); [generalize (mvec F s.1), (mvec G s.1), s.2; clear; intros p q o; destruct p, q, o; vcbv; ring|]. rewrite ZF, ZG. ring. }
  pose proof (Mv F HF) as M1. rewrite (proj2 (error_zero F samples)) in M1 by (intros s Hin; apply H0, Hin). assert (s9 = 0) as -> by nra. destruct (Req_EM_T 0 0) as [_|N]; [|contradiction].
  (* a combination orthogonal to v *)
  set (x := inner v F). set (y := inner v G). assert (exists a b, a * a + b * b = 1 /\ a * x + b * y = 0) as (a & b & Hab & Oab).
  { destruct (Req_EM_T (x * x + y * y) 0) as [E|E]; [exists 1, 0; split; [ring|]; assert (x = 0) by nra; lra|]. set (n := sqrt (x * x + y * y)). assert (n * n = x * x + y * y) as Nn by (apply sqrt_sqrt; nra). assert (n <> 0) as Nz by (intros Z0; rewrite Z0 in Nn; lra).
    exists (y / n), (- (x / n)). split; [transitivity ((x * x + y * y) / (n * n)); [field; exact Nz|rewrite Nn; field; exact E]|field; exact Nz]. }
  specialize (M8 (madd (mscale a F) (mscale b G))). assert (forall p q u, inner u (madd (mscale p F) (mscale q G)) = p * inner u F + q * inner u G) as Lin. { clear. intros p q u. destruct u, F, G. unfold inner, madd, mscale. cbn. ring. }
  rewrite Z, !Lin in M8. rewrite (inner_comm _ F), (inner_comm _ G), !Lin, HF, HG, HFG, (inner_comm G F), HFG in M8. fold x y in M8. specialize (M8 ltac:(lra) Oab). destruct (Req_EM_T s8 0) as [_|N]; [reflexivity|]. exfalso. apply N. nra.
Qed.
Print Assumptions C90_decompositions. Print Assumptions C90_choice. Print Assumptions C90_undefined. Print Assumptions C90_undefined_essential. Print Assumptions C90_exact. Print Assumptions C90_lengths. Print Assumptions C90_best_refuted.
Print Assumptions C90_npoints_essential. Print Assumptions C90_closest. Print Assumptions C90_npoints_few. Print Assumptions C90_npoints_exact. Print Assumptions C90_npoints_undetermined.

(** ** Cases *)
Lemma E_z_essential : E_z = mscale 1 (essential mI z_axis). Proof. unfold E_z, essential, skew, z_axis, mmul, mI, mscale. cbn. f_equal; ring. Qed.
Example pose_found : RelativePoseFromEssential real_svd (mscale 1 (essential mI z_axis)) [sampleB; sampleB] = Some (mI, z_axis).
Proof.
  apply C90_exact; [apply real_svd_right|apply rotation_I|numbers; ring|lra| |].
  - intros s Hs. assert (s = sampleB) as -> by set_solver. split; [numbers; field|]. split; [numbers; field|]. exists (13 / 4), (15 / 4). split; [lra|]. split; [lra|]. numbers. f_equal; field.
  - exists sampleB. split; [left|]. eapply Rle_trans; [apply eps_small|]. numbers. lra.
Qed.
Definition nine : list (vec * vec) :=
  [(Vec 1 0 0, Vec 1 0 0); (Vec 0 0 1, Vec 1 0 0); (Vec 0 1 0, Vec 0 1 0); (Vec 0 0 1, Vec 0 1 0); (Vec 1 0 0, Vec 0 0 1); (Vec 0 1 0, Vec 0 0 1); (Vec 0 0 1, Vec 0 0 1); (Vec 1 1 0, Vec 1 1 0); (Vec 1 (-1) 0, Vec 1 (-1) 0)].
Definition last_nine : list mat -> R * R * mat := fun _ => (1, 0, mscale (/ sqrt 2) E_z).
Lemma nine_error F : epipolar_error F nine = m11 F * m11 F + m13 F * m13 F + m22 F * m22 F + m23 F * m23 F + m31 F * m31 F + m32 F * m32 F + m33 F * m33 F + 2 * ((m11 F + m22 F) * (m11 F + m22 F)) + 2 * ((m12 F + m21 F) * (m12 F + m21 F)).
Proof. destruct F. unfold nine. cbn [epipolar_error]. unfold epipolar, dot, mvec. cbn. ring. Qed.
Lemma nine_least : least_two nine (last_nine (epipolar_row <$> nine)).
Proof.
  unfold last_nine, least_two. set (c := / sqrt 2). assert (c * c = / 2) as C. { unfold c. rewrite <- Rinv_mult, sqrt_sqrt by lra. reflexivity. } assert (c <> 0) as Nc by (intros Z; rewrite Z in C; lra). assert (forall x : R, 0 <= x * x) as Sq by apply Rle_0_sqr.
  split; [lra|]. split; [unfold inner, mscale, E_z; cbn; lra|]. split; [rewrite nine_error; unfold mscale, E_z; cbn; ring|]. split; [intros w _; pose proof (error_nonneg w nine); lra|]. split.
  - exists (Mat 0 0 1 0 0 0 0 0 0). split; [unfold inner; cbn; ring|]. split; [unfold inner, mscale, E_z; cbn; ring|]. rewrite nine_error. cbn. ring.
  - intros w Hw Ow. rewrite nine_error. destruct w as [w1 w2 w3 w4 w5 w6 w7 w8 w9]. unfold inner, mscale, E_z in *. cbn [m11 m12 m13 m21 m22 m23 m31 m32 m33] in *. assert (w2 = w4) as ->. { apply (Rmult_eq_reg_l c); [lra|exact Nc]. } pose proof (Sq (w1 + w5)). pose proof (Sq w4). nra.
Qed.
Example matrix_found : exists c, c * c = / 2 /\ EssentialNPoints real_svd last_nine nine = [mscale c (essential mI z_axis)].
Proof.
  apply C90_npoints_exact; [apply real_svd_right|apply nine_least|apply rotation_I|numbers; ring|cbn; lia| |].
  - apply error_zero. rewrite nine_error. unfold essential, skew, z_axis, mmul, mI. cbn. ring.
  - intros F HF. assert (epipolar_error F nine = 0) as Z by now apply error_zero. rewrite nine_error in Z. destruct F as [w1 w2 w3 w4 w5 w6 w7 w8 w9]. cbn [m11 m12 m13 m21 m22 m23 m31 m32 m33] in Z. assert (forall x : R, 0 <= x * x) as Sq by apply Rle_0_sqr. exists w4.
    pose proof (Sq w1). pose proof (Sq w3). pose proof (Sq w5). pose proof (Sq w6). pose proof (Sq w7). pose proof (Sq w8). pose proof (Sq w9). pose proof (Sq (w1 + w5)). pose proof (Sq (w2 + w4)).
    assert (forall x : R, x * x = 0 -> x = 0) as Q by (intros x Hx; apply Rsqr_0_uniq; exact Hx). assert (w2 + w4 = 0) by (apply Q; lra). unfold essential, skew, z_axis, mmul, mI, mscale. cbn [m11 m12 m13 m21 m22 m23 m31 m32 m33 vx vy vz]. f_equal; try (transitivity 0; [apply Q; lra|ring]); lra.
Qed.
