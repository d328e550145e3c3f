(** Proofs about the residuals of a bundle adjustment. *)
From stdpp Require Import prelude strings.
From Coq Require Import Reals Lra Psatz Lia.
From Verif Require Import Base Lin RotModel RotProofs GeoModel PoseModel PoseSpec PoseProofs AnglesSpec GeoProofs AnglesModel AnglesProofs SubAlignModel TriangProofs SubAlignProofs ResidualModel ResidualSpec.
Local Open Scope R_scope.

Lemma block_pose_valid b : valid (block_to_pose b).
Proof. apply from_c2w_valid, exp_rotation. Qed.
Lemma block_w_rot b : w_rot (block_to_pose b) = mT (vector_to_rotation (b_r b)).
Proof. unfold block_to_pose, from_cam_to_world. cbn. apply rotation_inv, exp_rotation. Qed.
Lemma block_c_rot b : c_rot (block_to_pose b) = vector_to_rotation (b_r b). Proof. done. Qed.
Lemma block_c_tr b : c_tr (block_to_pose b) = b_t b. Proof. done. Qed.
Lemma block_w_tr b : w_tr (block_to_pose b) = vopp (mvec (mT (vector_to_rotation (b_r b))) (b_t b)).
Proof. unfold block_to_pose, from_cam_to_world, inv_tr. cbn. by rewrite rotation_inv by apply exp_rotation. Qed.
Lemma shot_pose_valid i c : valid (pose_of_shot i c).
Proof. apply valid_compose; apply block_pose_valid. Qed.
(** the logarithm of a quaternion *)
Lemma exp_quaternion_log q : unit_q q -> vector_to_rotation (quaternion_to_aa q) = qmat q.
Proof.
  destruct q as [w v]. unfold unit_q, quaternion_to_aa. cbn [fst snd]. intros Hu. destruct (Rlt_dec 0 (dot v v)) as [H|H].
  - fold (norm v). set (n := norm v). assert (0 < n) as Hn by (unfold n, norm; by apply sqrt_lt_R0). assert (n * n = dot v v) as Hnn by (unfold n; apply norm_sq).
    set (th := if Rlt_dec w 0 then atan (n / w) else atan2_pos n w).
    assert (sin (2 * th) * / n * 1 = 2 * w /\ 1 - cos (2 * th) = 2 * (n * n) /\ th <> 0) as (Hs & Hc & Ht).
    { unfold th. destruct (Rlt_dec w 0) as [Hw|Hw].
      - destruct (sincos_double_atan2 n (- w) Hn ltac:(lra) ltac:(lra)) as [E1 E2].
        pose proof (atan2_pos_range n (- w) Hn ltac:(lra)) as Hr. assert (atan (n / w) = - atan2_pos n (- w)) as Ea.
        { unfold atan2_pos. destruct (Req_EM_T (- w) 0); [lra|]. rewrite <- atan_opp. f_equal. field. lra. }
        rewrite Ea. replace (2 * - atan2_pos n (- w)) with (- (2 * atan2_pos n (- w))) by ring. rewrite sin_neg, cos_neg, E1, E2. split; [field; lra|]. split; [|lra]. 
        replace (- w * - w) with (w * w) by ring. nra.
      - destruct (sincos_double_atan2 n w Hn ltac:(lra) ltac:(lra)) as [E1 E2]. pose proof (atan2_pos_range n w Hn ltac:(lra)) as Hr. rewrite E1, E2.
        split; [field; lra|]. split; [nra|lra]. }
    set (r := vscale (2 * th / n) v).
    assert (norm r = Rabs (2 * th)) as Hr. { unfold r. rewrite norm_vscale. fold n. unfold Rdiv. rewrite Rabs_mult, Rabs_inv, (Rabs_pos_eq n) by lra. field. lra. }
    unfold vector_to_rotation. rewrite Hr. destruct (Req_EM_T (Rabs (2 * th)) 0) as [E|E]; [exfalso; revert E; apply Rabs_no_R0; lra|].
    assert (exists e, (e = 1 \/ e = -1) /\ Rabs (2 * th) = e * (2 * th)) as (e & He & Ea). { unfold Rabs. destruct (Rcase_abs (2 * th)); [exists (-1)|exists 1]; split; try tauto; ring. }
    assert (vscale (/ Rabs (2 * th)) r = vscale (e / n) v) as ->. { unfold r. rewrite vscale_vscale. f_equal. rewrite Ea. destruct He as [-> | ->]; field; lra. }
    assert (sin (Rabs (2 * th)) = e * sin (2 * th)) as Hs'. { rewrite Ea. destruct He as [-> | ->]; [by rewrite !Rmult_1_l|]. replace (-1 * (2 * th)) with (- (2 * th)) by ring. rewrite sin_neg. ring. }
    assert (cos (Rabs (2 * th)) = cos (2 * th)) as Hc'. { rewrite Ea. destruct He as [-> | ->]; [by rewrite Rmult_1_l|]. replace (-1 * (2 * th)) with (- (2 * th)) by ring. apply cos_neg. }
    unfold angle_axis_matrix. rewrite Hs', Hc'. assert (e * e = 1) as He2 by (destruct He as [-> | ->]; ring).
    assert (sin (2 * th) = 2 * w * n) as Hs2. { rewrite <- Hs. field. lra. } assert (cos (2 * th) = 1 - 2 * (n * n)) as Hc2 by lra. rewrite Hs2, Hc2. clear - Hn Hnn Hu He2.
    destruct v as [x y z]. unfold dot in *; cbn in *. unfold qmat, vscale; cbn. assert (e / n * (e / n) = / (n * n)) as Hk. { replace (e / n * (e / n)) with (e * e * / (n * n)) by (field; lra). rewrite He2. ring. }
    assert (forall a b, (1 - (1 - 2 * (n * n))) * (e / n * a) * (e / n * b) = 2 * a * b) as K.
    { intros a b. replace ((1 - (1 - 2 * (n * n))) * (e / n * a) * (e / n * b)) with (2 * (n * n) * a * b * (e / n * (e / n))) by ring. rewrite Hk. field. nra. }
    assert (forall a, e * (2 * w * n) * (e / n * a) = 2 * w * a) as L. { intros a. replace (e * (2 * w * n) * (e / n * a)) with (e * e * (2 * w * a)) by (field; lra). rewrite He2. ring. }
    f_equal; rewrite ?K, ?L; try (rewrite Hnn; nra); ring.
  - pose proof (dot_self_0 v H) as ->. assert (w * w = 1) as Hw by (unfold dot, v0 in Hu; cbn in Hu; lra).
    replace (vscale 2 v0) with v0 by vring. rewrite exp_zero. unfold qmat, v0, mI; cbn. rewrite Hw. f_equal; ring.
Qed.
Lemma quaternion_log_norm q : unit_q q -> norm (quaternion_to_aa q) <= PI.
Proof.
  destruct q as [w v]. unfold unit_q, quaternion_to_aa. cbn [fst snd]. intros Hu. pose proof PI_RGT_0 as HP. destruct (Rlt_dec 0 (dot v v)) as [H|H].
  - fold (norm v). set (n := norm v). assert (0 < n) as Hn by (unfold n, norm; by apply sqrt_lt_R0). rewrite norm_vscale. fold n.
    assert (Rabs (if Rlt_dec w 0 then atan (n / w) else atan2_pos n w) <= PI / 2) as Ha.
    { destruct (Rlt_dec w 0) as [Hw|Hw].
      - pose proof (atan_bound (n / w)). apply Rabs_le. lra.
      - pose proof (atan2_pos_range n w Hn ltac:(lra)). apply Rabs_le. lra. }
    unfold Rdiv. rewrite !Rabs_mult, Rabs_inv, (Rabs_pos_eq n), (Rabs_pos_eq 2) by lra. rewrite Rmult_assoc, Rinv_l by lra. lra.
  - pose proof (dot_self_0 v H) as ->. replace (vscale 2 v0) with v0 by vring. rewrite norm_v0. lra.
Qed.
Lemma exp_mult a b : vector_to_rotation (mult_rotations a b) = mmul (vector_to_rotation a) (vector_to_rotation b).
Proof.
  unfold mult_rotations. destruct (aa_quaternion a) as [U1 Q1], (aa_quaternion b) as [U2 Q2].
  rewrite exp_quaternion_log by (by apply quaternion_product_unit). by rewrite quaternion_product_mat, Q1, Q2.
Qed.
Lemma mult_norm a b : norm (mult_rotations a b) <= PI.
Proof. unfold mult_rotations. destruct (aa_quaternion a) as [U1 Q1], (aa_quaternion b) as [U2 Q2]. apply quaternion_log_norm. by apply quaternion_product_unit. Qed.
Lemma mult_zero a b : mult_rotations a b = v0 <-> mmul (vector_to_rotation a) (vector_to_rotation b) = mI.
Proof.
  unfold mult_rotations. destruct (aa_quaternion a) as [U1 Q1], (aa_quaternion b) as [U2 Q2].
  rewrite quaternion_log_zero by (by apply quaternion_product_unit). by rewrite quaternion_product_mat, Q1, Q2.
Qed.
Lemma mult3_zero a b c : mult_rotations3 a b c = v0 <-> mmul (mmul (vector_to_rotation a) (vector_to_rotation b)) (vector_to_rotation c) = mI.
Proof.
  unfold mult_rotations3. destruct (aa_quaternion a) as [U1 Q1], (aa_quaternion b) as [U2 Q2], (aa_quaternion c) as [U3 Q3].
  rewrite quaternion_log_zero by (by repeat apply quaternion_product_unit). by rewrite !quaternion_product_mat, Q1, Q2, Q3.
Qed.
(** ** the pose of a shot *)
Lemma shot_c_rot i c : c_rot (pose_of_shot i c) = mmul (vector_to_rotation (b_r i)) (vector_to_rotation (b_r c)).
Proof.
  destruct (shot_pose_valid i c) as (_ & E & _). rewrite E. unfold pose_of_shot, compose. cbn [w_rot from_world_to_cam]. rewrite !block_w_rot, mT_mmul, !mT_T. done.
Qed.
Lemma shot_origin i c : get_origin (pose_of_shot i c) = vadd (b_t i) (mvec (vector_to_rotation (b_r i)) (b_t c)).
Proof.
  destruct (shot_pose_valid i c) as (_ & _ & E). unfold get_origin. rewrite E. unfold pose_of_shot, compose. cbn [w_rot w_tr from_world_to_cam]. rewrite !block_w_rot, !block_w_tr, mT_mmul, !mT_T.
  pose proof (exp_rotation (b_r c)) as Hc. pose proof (exp_rotation (b_r i)) as Hi. revert Hc Hi. generalize (vector_to_rotation (b_r c)) (vector_to_rotation (b_r i)) (b_t c) (b_t i). clear. intros C I tc ti Hc Hi.
  assert (forall A x, rotation A -> mvec A (mvec (mT A) x) = x) as K by (intros A x HA; by rewrite <- mvec_mmul, (rotation_r _ HA), mvec_I).
  rewrite mvec_mmul, !mvec_add, !mvec_opp, !K by done. rewrite ?mvec_add, ?mvec_opp, ?K by done. vring.
Qed.
Lemma position_origin i c : shot_position i (Some c) = get_origin (pose_of_shot i c).
Proof. unfold shot_position. by rewrite rotate_point, shot_origin. Qed.
Lemma rotation_c_rot i c : vector_to_rotation (shot_rotation i (Some c)) = c_rot (pose_of_shot i c).
Proof. unfold shot_rotation. by rewrite exp_mult, shot_c_rot. Qed.
Lemma zero_pose : block_to_pose (Block v0 v0) = pose0.
Proof.
  apply valid_ext; [apply block_pose_valid|apply valid_pose0| |].
  - rewrite block_w_rot. cbn [b_r]. rewrite exp_zero, mT_I. done.
  - rewrite block_w_tr. cbn [b_r b_t]. rewrite mvec_0. unfold pose0, from_world_to_cam; cbn. vring.
Qed.
Lemma shot_pose_none i : pose_of_shot i (Block v0 v0) = block_to_pose i.
Proof. unfold pose_of_shot. rewrite zero_pose. apply compose_0_l, block_pose_valid. Qed.
Lemma local_transform b x : world_to_local 1 b x = transform (block_to_pose b) x.
Proof.
  unfold world_to_local, transform. rewrite rotate_point, exp_opp, block_w_rot, block_w_tr. generalize (mT (vector_to_rotation (b_r b))) (b_t b). vring.
Qed.
Lemma local_scale s b x : world_to_local s b x = transform (block_to_pose b) (vscale s x).
Proof. rewrite <- local_transform. unfold world_to_local. by rewrite vscale_1. Qed.
Lemma camera_transform i c x : world_to_camera_rig 1 i (Some c) x = transform (pose_of_shot i c) x.
Proof. unfold world_to_camera_rig, pose_of_shot. by rewrite !local_transform, transform_compose. Qed.
Lemma useful_cases blocks constant rc : (useful blocks constant rc = true) \/ (useful blocks constant rc = false /\ blocks rc = Block v0 v0).
Proof.
  destruct (useful blocks constant rc) eqn:E; [by left|right]. split; [done|]. unfold useful in E. apply negb_false_iff, andb_true_iff in E as [_ E].
  unfold is_zero_block in E. destruct (Req_EM_T _ 0) as [E1|]; [|done]. destruct (Req_EM_T _ 0) as [E2|]; [|done]. apply norm_0 in E1, E2. destruct (blocks rc) as [r t]. cbn in *. by subst.
Qed.
(** ** angles *)
Lemma diff_turn a b : - (3 * PI) <= a - b <= 3 * PI -> turn_between a b (diff_between_angles a b).
Proof.
  intros H. unfold turn_between, diff_between_angles. destruct (Rlt_dec PI (a - b)); [|destruct (Rlt_dec (a - b) (- PI))].
  - split; [lra|]. exists 1%Z. lra.
  - split; [lra|]. exists (-1)%Z. lra.
  - split; [lra|]. exists 0%Z. lra.
Qed.
Lemma atan2_opp y x : 0 <= x -> (0 < x \/ y <> 0) -> - atan2 y x = atan2 (- y) x.
Proof.
  intros Hx Hy. unfold atan2. destruct (Rlt_dec 0 x).
  - rewrite <- atan_opp. f_equal. field. lra.
  - assert (x = 0) as -> by lra. destruct (Rlt_dec 0 0); [lra|]. destruct Hy as [|Hy]; [lra|].
    destruct (Rlt_dec 0 y), (Rlt_dec y 0), (Rlt_dec 0 (- y)), (Rlt_dec (- y) 0); lra.
Qed.
(** sine of the roll, as the residual computes it *)
Lemma sin_roll_value m pan tilt roll : has_ptr m pan tilt roll -> acute tilt ->
  let ez := forward_axis m in let la := sqrt (vy ez * vy ez + - vx ez * - vx ez) in
  la = cos tilt /\
  let b := cross (right_axis m) (Vec (vy ez / la) (- vx ez / la) 0) in vx ez * vx b + vy ez * vy b + vz ez * vz b = sin roll.
Proof.
  intros (_ & Hf & Hr) Ht. rewrite Hf, Hr. pose proof (cos_acute _ Ht) as Hc. cbn zeta.
  assert (sqrt (vy (toward pan tilt) * vy (toward pan tilt) + - vx (toward pan tilt) * - vx (toward pan tilt)) = cos tilt) as ->.
  { cbn. replace (_ + _) with (Rsqr (cos tilt)); [apply sqrt_Rsqr; lra|]. unfold Rsqr. transitivity (cos tilt * cos tilt * (sin pan * sin pan + cos pan * cos pan)); [rewrite sc2; ring|ring]. }
  split; [done|]. assert (Vec (vy (toward pan tilt) / cos tilt) (- vx (toward pan tilt) / cos tilt) 0 = beside pan) as ->.
  { unfold toward, beside. cbn. f_equal; field; lra. }
  unfold cross, toward, beside, above, vadd, vscale. cbn.
  pose proof (sc2 pan) as E1. pose proof (sc2 tilt) as E2. assert (F1 : sin pan * sin pan = 1 - cos pan * cos pan) by lra. assert (F2 : sin tilt * sin tilt = 1 - cos tilt * cos tilt) by lra.
  ring_simplify. ring [F1 F2].
Qed.
Lemma scale_zero sd d : sd <> 0 -> 1 / sd * d = 0 <-> d = 0.
Proof. intros H. split; [|intros ->; ring]. intros E. apply Rmult_integral in E as [E|E]; [|done]. exfalso. revert E. unfold Rdiv. rewrite Rmult_1_l. by apply Rinv_neq_0_compat. Qed.
Lemma vscale_sd_zero sd v : sd <> 0 -> vscale (1 / sd) v = v0 <-> v = v0.
Proof. intros H. apply vscale_zero. unfold Rdiv. rewrite Rmult_1_l. by apply Rinv_neq_0_compat. Qed.
Lemma forward_of i c : aa_rotate_point (shot_rotation i (Some c)) (Vec 0 0 1) = forward_axis (w_rot (pose_of_shot i c)).
Proof. rewrite rotate_point, rotation_c_rot. destruct (shot_pose_valid i c) as (_ & -> & _). apply forward_row. Qed.
Lemma right_of i c : aa_rotate_point (shot_rotation i (Some c)) (Vec 1 0 0) = right_axis (w_rot (pose_of_shot i c)).
Proof. rewrite rotate_point, rotation_c_rot. destruct (shot_pose_valid i c) as (_ & -> & _). apply right_row. Qed.
(** ** rotation vectors of less than a half turn *)
Lemma trace_exp r : let m := vector_to_rotation r in m11 m + m22 m + m33 m = 1 + 2 * cos (norm r).
Proof.
  cbn zeta. unfold vector_to_rotation. destruct (Req_EM_T (norm r) 0) as [E|E].
  - rewrite E, (norm_0 _ E). unfold angle_axis_matrix, vscale, v0; cbn. rewrite cos_0. ring.
  - pose proof (unit_axis r E) as Hu. revert Hu. generalize (vscale (/ norm r) r). generalize (norm r). intros n a Hu. destruct a as [x y z]. unfold dot in Hu; cbn in Hu. unfold angle_axis_matrix, vscale; cbn. transitivity ((1 - cos n) * (x * x + y * y + z * z) + 3 * cos n); [ring|rewrite Hu; ring].
Qed.
Lemma log_unique r r' : vector_to_rotation r = vector_to_rotation r' -> norm r < PI -> norm r' <= PI -> r = r'.
Proof.
  intros E H H'. destruct (Rlt_dec (norm r') PI) as [L|L].
  - by rewrite <- (log_exp r H), <- (log_exp r' L), E.
  - exfalso. pose proof (trace_exp r) as T. pose proof (trace_exp r') as T'. cbn zeta in T, T'. rewrite E, T' in T. assert (norm r' = PI) as En by lra. rewrite En, cos_PI in T.
    pose proof (norm_nonneg r). assert (cos PI < cos (norm r)) as Hc by (apply cos_decreasing_1; lra). rewrite cos_PI in Hc. lra.
Qed.
