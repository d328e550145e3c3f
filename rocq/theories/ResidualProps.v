(** C77: what the residuals of a bundle adjustment say about the poses. *)
From stdpp Require Import prelude strings.
From Coq Require Import Reals Lra Psatz Lia.
From Verif Require Import Base Lin RotModel RotProofs GeoModel PoseModel PoseSpec PoseProofs AnglesSpec GeoProofs AnglesModel AnglesProofs SubAlignModel TriangProofs SubAlignProofs ResidualModel ResidualSpec ResidualProofs.
Local Open Scope R_scope.

(** The parameters of a block hold a pose: writing a pose and reading it back gives it back, for both parametrisations, and any
    parameters are those of a pose. *)
Theorem C77_block_pose : forall p, valid p -> block_to_pose (pose_to_block p) = p /\ block_to_pose_w (pose_to_block_w p) = p.
Proof.
  intros p Hv. pose proof Hv as (Hr & Hc & Ho). pose proof (rotation_T _ Hr) as HT. split.
  - apply valid_ext; [apply block_pose_valid|done| |].
    + rewrite block_w_rot. unfold pose_to_block, rotation_cam_to_world_min. cbn [b_r]. rewrite Hc, (proj1 (exp_log _ HT)), mT_T. done.
    + rewrite block_w_tr. unfold pose_to_block, rotation_cam_to_world_min. cbn [b_r b_t]. rewrite Hc, (proj1 (exp_log _ HT)), mT_T, Ho.
      rewrite mvec_opp, <- mvec_mmul, (rotation_r _ Hr), mvec_I. apply vopp_opp.
  - apply valid_ext; [apply from_w2c_valid, exp_rotation|done| |done]. unfold block_to_pose_w, pose_of_vector, pose_to_block_w, get_rotation. cbn [w_rot b_r from_world_to_cam].
    rewrite exp_opp, Hc, (proj1 (exp_log _ HT)), mT_T. done.
Qed.
Theorem C77_pose_block : forall b, valid (block_to_pose b) /\ (norm (b_r b) < PI -> pose_to_block (block_to_pose b) = b).
Proof.
  intros [r t]. split; [apply block_pose_valid|]. intros H. unfold pose_to_block, rotation_cam_to_world_min. rewrite block_c_rot, block_c_tr. cbn [b_r b_t] in *. by rewrite log_exp.
Qed.
(** The functors read the pose of the shot off the parameters: its origin, its orientation, and where it sees a point; the rig camera
    is left out only when it is the identity. *)
Theorem C77_shot : forall inst rc, valid (pose_of_shot inst rc) /\
  shot_position inst (Some rc) = get_origin (pose_of_shot inst rc) /\
  vector_to_rotation (shot_rotation inst (Some rc)) = c_rot (pose_of_shot inst rc) /\
  (forall x, world_to_camera_rig 1 inst (Some rc) x = transform (pose_of_shot inst rc) x) /\
  (forall s x, world_to_camera_rig s inst (Some rc) x = transform (pose_of_shot inst rc) (vscale s x)).
Proof.
  intros i c. split; [apply shot_pose_valid|]. split; [apply position_origin|]. split; [apply rotation_c_rot|]. split; [apply camera_transform|].
  intros s x. rewrite <- camera_transform. unfold world_to_camera_rig. by rewrite !local_scale, !vscale_1.
Qed.
Theorem C77_shot_alone : forall inst, pose_of_shot inst (Block v0 v0) = block_to_pose inst /\
  shot_position inst None = get_origin (block_to_pose inst) /\ vector_to_rotation (shot_rotation inst None) = c_rot (block_to_pose inst) /\
  (forall x, world_to_camera_rig 1 inst None x = transform (block_to_pose inst) x).
Proof. intros i. split; [apply shot_pose_none|]. split; [done|]. split; [done|]. intros x. apply local_transform. Qed.

(** ** Which rig camera is read *)
Section Wiring.
Context (blocks : string -> block) (constant : string -> bool).
(** what a functor must read for a shot: its rig camera, or nothing if that is the identity *)
Definition reads (rc : string) (b : option block) : Prop := b = Some (blocks rc) \/ (b = None /\ blocks rc = Block v0 v0).
Lemma reads_position i rc b : reads rc b -> shot_position i b = get_origin (pose_of_shot i (blocks rc)).
Proof. intros [-> | [-> ->]]; [apply position_origin|]. rewrite shot_pose_none. done. Qed.
Lemma reads_rotation i rc b : reads rc b -> vector_to_rotation (shot_rotation i b) = c_rot (pose_of_shot i (blocks rc)).
Proof. intros [-> | [-> ->]]; [apply rotation_c_rot|]. rewrite shot_pose_none. done. Qed.
Theorem C77_two_rig_cameras : forall rc_i rc_j, let '(l, a, b) := wire_two blocks constant rc_i rc_j in
  reads rc_i (read blocks l a) /\ reads rc_j (read blocks l b) /\ NoDup l.
Proof.
  intros rc_i rc_j. unfold wire_two. destruct (useful_cases blocks constant rc_i) as [E|[E Z]]; rewrite E.
  - destruct (useful_cases blocks constant rc_j) as [E'|[E' Z']]; rewrite E'.
    + destruct (decide (rc_j <> rc_i)) as [N|N].
      * split; [by left|]. split; [by left|]. cbn. apply NoDup_cons. split; [set_solver|apply NoDup_singleton].
      * assert (rc_j = rc_i) as -> by (by apply dec_stable). split; [by left|]. split; [by left|]. apply NoDup_singleton.
    + split; [by left|]. split; [by right|]. apply NoDup_singleton.
  - destruct (useful_cases blocks constant rc_j) as [E'|[E' Z']]; rewrite E'.
    + destruct (decide (rc_j <> rc_i)) as [N|N].
      * split; [by right|]. split; [by left|]. apply NoDup_singleton.
      * assert (rc_j = rc_i) as -> by (by apply dec_stable). congruence.
    + split; [by right|]. split; [by right|]. apply NoDup_nil_2.
Qed.
(** Three shots: right unless the second and the third share a rig camera that the first does not have. *)
Theorem C77_three_rig_cameras_partial : forall rc_0 rc_1 rc_2, (rc_2 = rc_1 -> rc_2 <> rc_0 -> blocks rc_2 = Block v0 v0 /\ constant rc_2 = true) ->
  let '(l, a, b, c) := wire_three blocks constant rc_0 rc_1 rc_2 in
  reads rc_0 (read blocks l a) /\ reads rc_1 (read blocks l b) /\ reads rc_2 (read blocks l c) /\ NoDup l.
Proof.
  intros rc_0 rc_1 rc_2 H.
  assert (let '(l, _, _, _) := wire_three blocks constant rc_0 rc_1 rc_2 in NoDup l) as HN.
  { unfold wire_three, wire_two. destruct (useful blocks constant rc_0), (useful blocks constant rc_1), (useful blocks constant rc_2); repeat case_decide; cbn;
      repeat (apply NoDup_cons; split; [set_solver|]); apply NoDup_nil_2. }
  revert HN. match goal with |- _ -> ?G => enough (let '(l, a, b, c) := wire_three blocks constant rc_0 rc_1 rc_2 in
    reads rc_0 (read blocks l a) /\ reads rc_1 (read blocks l b) /\ reads rc_2 (read blocks l c)) as HR by (destruct (wire_three blocks constant rc_0 rc_1 rc_2) as [[[? ?] ?] ?]; tauto) end.
  unfold wire_three, wire_two.
  destruct (useful_cases blocks constant rc_0) as [E0|[E0 Z0]]; rewrite E0; destruct (useful_cases blocks constant rc_1) as [E1|[E1 Z1]]; rewrite E1;
    destruct (useful_cases blocks constant rc_2) as [E2|[E2 Z2]]; rewrite E2; repeat case_decide; unfold reads, read; cbn;
    try (repeat split; (left; congruence) || (right; split; congruence)).
  all: destruct (decide (rc_2 = rc_0)) as [->|N0]; [try congruence; repeat split; (left; congruence) || (right; split; congruence)|].
  all: assert (rc_2 = rc_1) as -> by (apply dec_stable; tauto).
  all: destruct (H eq_refl N0) as [Z C]; exfalso; unfold useful, is_zero_block in E2; rewrite Z, C in E2; cbn [b_r b_t] in E2; rewrite norm_v0 in E2; destruct (Req_EM_T 0 0); [discriminate|done].
Qed.
End Wiring.
(** The third shot is given the rig camera of the first one when it shares its own with the second. *)
Theorem C77_three_rig_cameras_refuted : exists blocks constant rc_0 rc_1 rc_2, let '(l, a, b, c) := wire_three blocks constant rc_0 rc_1 rc_2 in
  read blocks l c = Some (blocks rc_0) /\ blocks rc_0 <> blocks rc_2 /\ blocks rc_2 <> Block v0 v0.
Proof.
  exists (fun rc => if decide (rc = "front"%string) then Block v0 (Vec 1 0 0) else Block v0 (Vec 0 1 0)), (fun _ => false), "front"%string, "back"%string, "back"%string.
  unfold wire_three, wire_two, useful. cbn [andb negb]. repeat case_decide; try done; try tauto. cbn. repeat case_decide; try done. split; [done|]. split; intros E; injection E; lra.
Qed.

(** ** Angles and the vertical *)
Theorem C77_up_vector : forall acc sd inst rc, sd <> 0 ->
  (norm acc < / 10 ^ 10 -> up_vector_error acc sd inst rc = Err RuntimeError) /\
  (/ 10 ^ 10 <= norm acc -> exists e, up_vector_error acc sd inst rc = Ok e /\
    (e = v0 <-> mvec (c_rot (pose_of_shot inst rc)) acc = Vec 0 0 (norm acc))).
Proof.
  intros acc sd i c Hsd. unfold up_vector_error. destruct (Rlt_dec _ _) as [H|H]; split; intros H'; try lra; [done|].
  eexists. split; [done|]. rewrite vscale_sd_zero, vsub_zero by done. rewrite rotate_point, rotation_c_rot, mvec_scale.
  assert (0 < norm acc) as Hn. { assert (0 < / 10 ^ 10) by (apply Rinv_0_lt_compat, pow_lt; lra). lra. }
  generalize (mvec (c_rot (pose_of_shot i c)) acc). intros [x y z]. unfold vscale; cbn. split.
  - intros [= E1 E2 E3]. f_equal.
    + apply Rmult_integral in E1 as [E|E]; [|done]. exfalso. revert E. apply Rinv_neq_0_compat. lra.
    + apply Rmult_integral in E2 as [E|E]; [|done]. exfalso. revert E. apply Rinv_neq_0_compat. lra.
    + rewrite <- (Rmult_1_r (norm acc)), <- E3. field. lra.
  - intros [= -> -> ->]. f_equal; field; lra.
Qed.
(** For a camera of a known pan, tilt and roll, each residual is the difference to the measured angle, the short way around, over the
    standard deviation. *)
Theorem C77_pan : forall a sd inst rc pan tilt roll, has_ptr (w_rot (pose_of_shot inst rc)) pan tilt roll -> angle pan -> acute tilt -> 2 / 10 ^ 8 <= cos tilt ->
  - (2 * PI) <= a <= 2 * PI -> exists d, turn_between pan a d /\ pan_angle_error a sd inst rc = d / sd.
Proof.
  intros a sd i c pan tilt roll H Hp Ht Hc Ha. pose proof (read_pan _ _ _ _ H Hp Ht) as E. exists (diff_between_angles pan a). split; [apply diff_turn; unfold angle in Hp; lra|].
  unfold pan_angle_error. unfold pan_from_rotation in E. rewrite forward_row in E. rewrite !forward_of, E.
  assert (1 / sd * diff_between_angles pan a = diff_between_angles pan a / sd) as -> by (unfold Rdiv; ring).
  destruct (Rlt_dec _ _) as [Hx|]; [|done]. destruct (Rlt_dec _ _) as [Hy|]; [|done]. exfalso. destruct H as (_ & Hf & _). rewrite Hf in Hx, Hy. cbn [toward vx vy] in Hx, Hy.
  rewrite Rabs_mult, (Rabs_pos_eq (cos tilt)) in Hx, Hy by lra. pose proof (sc2 pan) as S. assert (0 < / 10 ^ 8) as He by (apply Rinv_0_lt_compat, pow_lt; lra).
  assert (Rabs (sin pan) * Rabs (sin pan) = sin pan * sin pan) as Es by (rewrite <- Rabs_mult; apply Rabs_pos_eq; nra).
  assert (Rabs (cos pan) * Rabs (cos pan) = cos pan * cos pan) as Ec by (rewrite <- Rabs_mult; apply Rabs_pos_eq; nra).
  pose proof (Rabs_pos (sin pan)). pose proof (Rabs_pos (cos pan)). unfold Rdiv in Hc. set (e := / 10 ^ 8) in *. clearbody e.
  assert (Rabs (sin pan) < / 2) by (apply Rnot_le_lt; intros G; nra). assert (Rabs (cos pan) < / 2) by (apply Rnot_le_lt; intros G; nra). nra.
Qed.
(** Looking straight up or down there is no pan: the residual is 0. *)
Theorem C77_pan_vertical : forall a sd inst rc, let f := forward_axis (w_rot (pose_of_shot inst rc)) in Rabs (vx f) < / 10 ^ 8 -> Rabs (vy f) < / 10 ^ 8 -> pan_angle_error a sd inst rc = 0.
Proof. intros a sd i c f Hx Hy. unfold pan_angle_error. rewrite !forward_of. fold f. destruct (Rlt_dec _ _); [|done]. by destruct (Rlt_dec _ _). Qed.
Theorem C77_tilt : forall a sd inst rc pan tilt roll, has_ptr (w_rot (pose_of_shot inst rc)) pan tilt roll -> acute tilt -> - (2 * PI) <= a <= 2 * PI ->
  exists d, turn_between tilt a d /\ tilt_angle_error a sd inst rc = d / sd.
Proof.
  intros a sd i c pan tilt roll H Ht Ha. pose proof (read_tilt _ _ _ _ H Ht) as E. exists (diff_between_angles tilt a). split; [apply diff_turn; unfold acute in Ht; lra|].
  unfold tilt_angle_error. rewrite forward_of. unfold tilt_from_rotation in E. rewrite forward_row in E. destruct H as (_ & Hf & _). pose proof (cos_acute _ Ht) as Hc.
  rewrite atan2_opp, E; [unfold Rdiv; ring|apply sqrt_pos|]. left. rewrite Hf. apply sqrt_lt_R0. cbn. pose proof (sc2 pan).
  replace (_ + _) with (cos tilt * cos tilt * (sin pan * sin pan + cos pan * cos pan)) by ring. rewrite sc2. nra.
Qed.
Theorem C77_roll : forall a sd inst rc pan tilt roll, has_ptr (w_rot (pose_of_shot inst rc)) pan tilt roll -> acute tilt -> / 10 ^ 5 <= cos tilt ->
  - (PI / 2) <= roll <= PI / 2 -> - (1 - / 10 ^ 5) < sin roll -> - (2 * PI) <= a <= 2 * PI ->
  exists d, turn_between roll a d /\ roll_angle_error a sd inst rc = d / sd.
Proof.
  intros a sd i c pan tilt roll H Ht Hc Hr Hs Ha. exists (diff_between_angles roll a). split; [apply diff_turn; lra|].
  destruct (sin_roll_value _ _ _ _ H Ht) as [El Es]. unfold roll_angle_error. rewrite !forward_of, !right_of, El. destruct (Rlt_dec _ _); [lra|].
  rewrite El in Es. cbn zeta in Es. cbn [vx vy vz] in Es |- *. rewrite Es. destruct (Rle_dec _ _); [lra|]. rewrite asin_sin by lra. unfold Rdiv; ring.
Qed.
(** The residual cannot tell a camera from the same camera upside down: only the sine of the roll is compared. *)
Theorem C77_roll_upside_down_refuted : forall sd inst rc pan tilt roll, has_ptr (w_rot (pose_of_shot inst rc)) pan tilt roll -> acute tilt -> / 10 ^ 5 <= cos tilt ->
  PI / 2 < roll < PI -> roll_angle_error (PI - roll) sd inst rc = 0.
Proof.
  intros sd i c pan tilt roll H Ht Hc Hr. destruct (sin_roll_value _ _ _ _ H Ht) as [El Es]. unfold roll_angle_error. rewrite !forward_of, !right_of, El. destruct (Rlt_dec _ _); [lra|].
  rewrite El in Es. cbn zeta in Es. cbn [vx vy vz] in Es |- *. rewrite Es. destruct (Rle_dec _ _); [done|]. rewrite <- sin_PI_x, asin_sin by lra.
  unfold diff_between_angles. replace (PI - roll - (PI - roll)) with 0 by ring. pose proof PI_RGT_0. destruct (Rlt_dec PI 0); [lra|]. destruct (Rlt_dec 0 (- PI)); [lra|]. ring.
Qed.

(** ** Distances and motions *)
(** The gauge: the residual grows with the distance of the two instances, and at the distance they started from it is positive, but
    not more than 10^-20 over twice the square of that distance. *)
Theorem C77_gauge : forall p1 p2 a b, let n := norm (vsub (get_origin p1) (get_origin p2)) in / 10 ^ 20 <= n ->
  (norm (vsub (b_t a) (b_t b)) = n -> 0 < gauge_residual p1 p2 a b <= / 10 ^ 20 / (2 * (n * n))) /\
  (forall a' b', norm (vsub (b_t a) (b_t b)) < norm (vsub (b_t a') (b_t b')) -> gauge_residual p1 p2 a b < gauge_residual p1 p2 a' b').
Proof.
  intros p1 p2 a b n Hn. unfold gauge_residual, translation_prior_error. fold n. unfold eps_sq. assert (0 < / 10 ^ 20) as He by (apply Rinv_0_lt_compat, pow_lt; lra).
  rewrite Rmax_left by lra. set (e := / 10 ^ 20) in *. clearbody e. split.
  - intros Hd. rewrite <- norm_sq, Hd. assert (0 < n * n) as Hnn by nra.
    assert (sqrt (n * n + e) / n = sqrt (1 + e / (n * n))) as ->.
    { replace (1 + e / (n * n)) with ((n * n + e) / (n * n)) by (field; lra). rewrite sqrt_div_alt by lra. by rewrite sqrt_square by lra. }
    assert (0 < e / (n * n)) as Hq by (by apply Rdiv_lt_0_compat). set (q := e / (n * n)) in *.
    assert (ln (1 + q) = 2 * ln (sqrt (1 + q))) as E2. { rewrite <- (sqrt_sqrt (1 + q)) at 1 by lra. rewrite ln_mult by (apply sqrt_lt_R0; lra). ring. }
    split.
    + assert (0 < ln (1 + q)); [|lra]. rewrite <- ln_1. apply ln_increasing; lra.
    + assert (ln (1 + q) <= q). { destruct (Rle_lt_dec (ln (1 + q)) q) as [|G]; [done|]. exfalso. pose proof (exp_increasing _ _ G) as G2. rewrite exp_ln in G2 by lra. pose proof (exp_ineq1 q ltac:(lra)). lra. }
      replace (e / (2 * (n * n))) with (q / 2) by (unfold q; field; lra). lra.
  - intros a' b' Hlt. pose proof (norm_nonneg (vsub (b_t a) (b_t b))). pose proof (norm_sq (vsub (b_t a) (b_t b))) as E1. pose proof (norm_sq (vsub (b_t a') (b_t b'))) as E2.
    apply ln_increasing.
    + apply Rdiv_lt_0_compat; [|lra]. apply sqrt_lt_R0. nra.
    + unfold Rdiv. apply Rmult_lt_compat_r; [apply Rinv_0_lt_compat; lra|]. apply sqrt_lt_1; nra.
Qed.
(** Linear motion of three shots: the position residual vanishes exactly when the second is as far from the first as it should be
    (a fraction [alpha] of the way to the third); the rotation residual exactly when it has turned [alpha] of the way. *)
Theorem C77_linear_motion : forall blocks constant alpha psd osd i0 i1 i2 rc_0 rc_1 rc_2, psd <> 0 -> osd <> 0 ->
  (rc_2 = rc_1 -> rc_2 <> rc_0 -> blocks rc_2 = Block v0 v0 /\ constant rc_2 = true) ->
  let P0 := pose_of_shot i0 (blocks rc_0) in let P1 := pose_of_shot i1 (blocks rc_1) in let P2 := pose_of_shot i2 (blocks rc_2) in
  let e := linear_motion_residual blocks constant alpha psd osd i0 i1 i2 rc_0 rc_1 rc_2 in
  (/ 10 ^ 15 < norm (vsub (get_origin P2) (get_origin P0)) ->
    (e.1 = v0 <-> norm (vsub (get_origin P1) (get_origin P0)) = alpha * norm (vsub (get_origin P2) (get_origin P0)))) /\
  (norm (vsub (get_origin P2) (get_origin P0)) <= / 10 ^ 15 ->
    (e.1 = v0 <-> get_origin P1 = vadd (get_origin P0) (vscale alpha (vsub (get_origin P2) (get_origin P0))))) /\
  (e.2 = v0 -> exists r, vector_to_rotation r = mmul (c_rot P2) (mT (c_rot P0)) /\ norm r <= PI /\ c_rot P1 = mmul (vector_to_rotation (vscale alpha r)) (c_rot P0)) /\
  (forall r, vector_to_rotation r = mmul (c_rot P2) (mT (c_rot P0)) -> norm r < PI ->
    (e.2 = v0 <-> c_rot P1 = mmul (vector_to_rotation (vscale alpha r)) (c_rot P0))).
Proof.
  intros blocks constant alpha psd osd i0 i1 i2 rc_0 rc_1 rc_2 Hp Ho Hw P0 P1 P2 e. pose proof (C77_three_rig_cameras_partial blocks constant rc_0 rc_1 rc_2 Hw) as W.
  unfold linear_motion_residual in e. destruct (wire_three blocks constant rc_0 rc_1 rc_2) as [[[l a] b] c]. destruct W as (W0 & W1 & W2 & _).
  set (c0 := read blocks l a) in *. set (c1 := read blocks l b) in *. set (c2 := read blocks l c) in *.
  pose proof (reads_position blocks i0 _ _ W0) as T0. pose proof (reads_position blocks i1 _ _ W1) as T1. pose proof (reads_position blocks i2 _ _ W2) as T2.
  pose proof (reads_rotation blocks i0 _ _ W0) as R0. pose proof (reads_rotation blocks i1 _ _ W1) as R1. pose proof (reads_rotation blocks i2 _ _ W2) as R2.
  fold P0 in T0, R0. fold P1 in T1, R1. fold P2 in T2, R2. unfold e, linear_motion_error. cbn zeta. cbn [fst snd]. rewrite T0, T1, T2. clear T0 T1 T2. clearbody P0 P1 P2 c0 c1 c2. clear e W0 W1 W2 Hw.
  set (r0 := shot_rotation i0 c0) in *. set (r1 := shot_rotation i1 c1) in *. set (r2 := shot_rotation i2 c2) in *. clearbody r0 r1 r2.
  set (t0 := get_origin P0). set (t1 := get_origin P1). set (t2 := get_origin P2).
  assert (0 < / 10 ^ 15) as He by (apply Rinv_0_lt_compat, pow_lt; lra).
  assert (HR : forall r, vector_to_rotation (vscale alpha (mult_rotations r2 (vopp r0))) = r -> (vscale (1 / osd) (mult_rotations (vscale alpha (mult_rotations r2 (vopp r0))) (mult_rotations r0 (vopp r1))) = v0 <-> c_rot P1 = mmul r (c_rot P0))).
  { intros r <-. rewrite vscale_sd_zero by done. rewrite mult_zero, exp_mult, exp_opp, R0, R1. rewrite three_I.
    - split; congruence.
    - apply exp_rotation.
    - rewrite <- R0. apply exp_rotation.
    - rewrite <- R1. apply exp_rotation. }
  split; [|split; [|split]].
  - intros Hn. destruct (Rlt_dec _ _) as [_|]; [|done]. set (d := norm (vsub t2 t0)) in *. set (x := norm (vsub t1 t0)). split.
    + intros [= E]. apply scale_zero in E; [|done]. assert (x / d = alpha) as <- by lra. field. lra.
    + intros ->. unfold v0. f_equal; field; lra.
  - intros Hn. destruct (Rlt_dec _ _); [lra|]. rewrite vscale_sd_zero, vsub_zero by done. split.
    + intros ->. vring.
    + intros ->. generalize (vscale alpha (vsub t2 t0)). vring.
  - intros Hz. exists (mult_rotations r2 (vopp r0)). split; [by rewrite exp_mult, exp_opp, R0, R2|]. split; [apply mult_norm|]. by apply (HR _ eq_refl).
  - intros r Hr Hn. apply HR. do 2 f_equal. symmetry. apply log_unique; [|done|apply mult_norm]. by rewrite Hr, exp_mult, exp_opp, R0, R2.
Qed.
(** The direction is not compared: a second shot that went the other way has residual 0. *)
Theorem C77_linear_motion_direction_refuted : exists i0 i1 i2, let e := linear_motion_residual (fun _ => Block v0 v0) (fun _ => true) (1 / 2) 1 1 i0 i1 i2 "c" "c" "c" in
  e.1 = v0 /\ b_t i0 = v0 /\ b_t i2 = Vec 2 0 0 /\ b_t i1 = Vec (-1) 0 0.
Proof.
  exists (Block v0 v0), (Block v0 (Vec (-1) 0 0)), (Block v0 (Vec 2 0 0)). unfold linear_motion_residual, wire_three, wire_two, useful, is_zero_block. cbn [b_r b_t]. rewrite norm_v0.
  destruct (Req_EM_T 0 0); [|done]. cbn. split; [|done].
  assert (forall x, norm (vsub (Vec x 0 0) v0) = Rabs x) as N. { intros x. unfold norm, dot, vsub, v0; cbn. rewrite <- sqrt_Rsqr_abs. f_equal. unfold Rsqr. ring. }
  unfold linear_motion_error. cbn zeta. cbn [fst shot_position b_t]. rewrite !N. rewrite (Rabs_pos_eq 2) by lra. replace (Rabs (-1)) with 1 by (rewrite Rabs_left; lra).
  assert (/ 10 ^ 15 < 2) as H. { apply (Rle_lt_trans _ 1); [|lra]. rewrite <- Rinv_1. apply Rinv_le_contravar; [lra|]. apply pow_R1_Rle. lra. }
  destruct (Rlt_dec _ _); [|done]. unfold v0. f_equal; field.
Qed.
(** The heatmap: a shot above the middle of the cell (row, col), rows to the south and columns to the east of the north west corner, costs the value there. *)
Theorem C77_heatmap : forall interpolate xo yo height width resolution sd inst rc row col, resolution <> 0 ->
  vx (get_origin (pose_of_shot inst rc)) = xo + (col - width / 2) * resolution -> vy (get_origin (pose_of_shot inst rc)) = yo - (row - height / 2) * resolution ->
  heatmap_error interpolate xo yo height width resolution sd inst rc = interpolate row col / sd.
Proof.
  intros f xo yo h w res sd i c row col Hr Hx Hy. unfold heatmap_error. rewrite !position_origin, Hx, Hy.
  replace (h / 2 - (yo - (row - h / 2) * res - yo) / res) with row by (field; done). replace (w / 2 + (xo + (col - w / 2) * res - xo) / res) with col by (field; done). unfold Rdiv. ring.
Qed.
(** ** Standard deviations and bounds *)
Theorem C77_std_deviation : forall a b, 0 <= a < b -> std_deviation_error b < std_deviation_error a.
Proof.
  intros a b H. unfold std_deviation_error. assert (0 < / 10 ^ 20) as He by (apply Rinv_0_lt_compat, pow_lt; lra). set (e := / 10 ^ 20) in *. pose proof PI_RGT_0.
  assert (0 < 2 * PI * (a * a + e)) by (apply Rmult_lt_0_compat; nra). assert (2 * PI * (a * a + e) < 2 * PI * (b * b + e)) by (apply Rmult_lt_compat_l; nra).
  unfold Rdiv. rewrite !Rmult_1_l. apply ln_increasing; [apply Rinv_0_lt_compat, sqrt_lt_R0; lra|]. apply Rinv_lt_contravar; [apply Rmult_lt_0_compat; apply sqrt_lt_R0; lra|]. apply sqrt_lt_1; lra.
Qed.
(** The barrier that keeps the transition of a dual camera between 0 and 1: its square is least in the middle, grows to both sides and is the same on both. *)
Lemma barrier_product l u x : 0 < x - l + / 10 ^ 10 -> 0 < u - x + / 10 ^ 10 -> parameter_barrier l u x = ln ((x - l + / 10 ^ 10) * (u - x + / 10 ^ 10)) + 2 * ln ((u - l) * (1 / 2)).
Proof. intros H1 H2. unfold parameter_barrier. cbn zeta. rewrite (ln_mult (x - l + _)) by assumption. reflexivity. Qed.
Theorem C77_barrier : forall x y, 0 <= x <= 1 -> 0 <= y <= 1 ->
  (Rabs (x - 1 / 2) < Rabs (y - 1 / 2) -> parameter_barrier 0 1 x ^ 2 < parameter_barrier 0 1 y ^ 2) /\
  (Rabs (x - 1 / 2) = Rabs (y - 1 / 2) -> parameter_barrier 0 1 x = parameter_barrier 0 1 y).
Proof.
  assert (0 < / 10 ^ 10 < / 10) as He.
  { split; [apply Rinv_0_lt_compat, pow_lt; lra|]. apply Rinv_lt_contravar; [|simpl; lra]. apply Rmult_lt_0_compat; [lra|]. apply pow_lt; lra. }
  assert (F : forall x, 0 <= x <= 1 -> let p := (x - 0 + / 10 ^ 10) * (1 - x + / 10 ^ 10) in
    0 < p < 1 /\ p = (1 / 2 + / 10 ^ 10) * (1 / 2 + / 10 ^ 10) - Rabs (x - 1 / 2) * Rabs (x - 1 / 2) /\ parameter_barrier 0 1 x = ln p + 2 * ln (1 / 2)).
  { intros x Hx p. assert (Rabs (x - 1 / 2) * Rabs (x - 1 / 2) = (x - 1 / 2) * (x - 1 / 2)) as EA by (rewrite <- Rabs_mult; apply Rabs_pos_eq, (Rle_0_sqr (x - 1 / 2))).
    set (e := / 10 ^ 10) in *. assert (p = (1 / 2 + e) * (1 / 2 + e) - Rabs (x - 1 / 2) * Rabs (x - 1 / 2)) as Ep by (rewrite EA; unfold p; field). split; [|split; [done|]].
    - split; [unfold p; nra|]. rewrite Ep, EA. nra.
    - unfold e in *. rewrite barrier_product by lra. fold p. do 2 f_equal. f_equal. lra. }
  intros x y Hx Hy. destruct (F x Hx) as (Px & Ex & Bx). destruct (F y Hy) as (Py & Ey & By). rewrite Bx, By. clear F Bx By.
  set (p := (x - 0 + / 10 ^ 10) * (1 - x + / 10 ^ 10)) in *. set (q := (y - 0 + / 10 ^ 10) * (1 - y + / 10 ^ 10)) in *. clearbody p q. split.
  - intros H. pose proof (Rabs_pos (x - 1 / 2)). assert (q < p) as Hqp by nra. pose proof (ln_increasing q p ltac:(lra) Hqp) as L. pose proof (ln_increasing p 1 ltac:(lra) ltac:(lra)) as L1. rewrite ln_1 in L1.
    pose proof (ln_increasing (1 / 2) 1 ltac:(lra) ltac:(lra)) as L2. rewrite ln_1 in L2. nra.
  - intros H. rewrite Ex, Ey, H. done.
Qed.
(** For other bounds it is no barrier: the constant that should make it vanish in the middle is added instead of subtracted, and between 0
    and 4 the value 1/4 costs less than the middle. *)
Theorem C77_barrier_refuted : parameter_barrier 0 1 (1 / 2) < 0 /\ parameter_barrier 0 4 (1 / 4) ^ 2 < parameter_barrier 0 4 2 ^ 2.
Proof.
  assert (0 < / 10 ^ 10 < / 10) as He.
  { split; [apply Rinv_0_lt_compat, pow_lt; lra|]. apply Rinv_lt_contravar; [|simpl; lra]. apply Rmult_lt_0_compat; [lra|]. apply pow_lt; lra. }
  rewrite !barrier_product by lra. set (e := / 10 ^ 10) in *. clearbody e. split.
  - pose proof (ln_increasing (1 / 2) 1 ltac:(lra) ltac:(lra)) as L2. rewrite ln_1 in L2. replace ((1 - 0) * (1 / 2)) with (1 / 2) by field.
    pose proof (ln_increasing ((1 / 2 - 0 + e) * (1 - 1 / 2 + e)) 1 ltac:(nra) ltac:(nra)) as L1. rewrite ln_1 in L1. lra.
  - replace ((4 - 0) * (1 / 2)) with 2 by field. pose proof (ln_increasing 1 2 ltac:(lra) ltac:(lra)) as L. rewrite ln_1 in L.
    pose proof (ln_increasing ((1 / 4 - 0 + e) * (4 - 1 / 4 + e)) 2 ltac:(nra) ltac:(nra)) as L1.
    pose proof (ln_increasing (1 / 2) ((1 / 4 - 0 + e) * (4 - 1 / 4 + e)) ltac:(nra) ltac:(nra)) as L2. replace (ln (1 / 2)) with (- ln 2) in L2 by (rewrite <- ln_Rinv by lra; f_equal; lra).
    pose proof (ln_increasing 2 ((2 - 0 + e) * (4 - 2 + e)) ltac:(lra) ltac:(nra)) as L3.
    set (A := ln ((1 / 4 - 0 + e) * (4 - 1 / 4 + e))) in *. set (B := ln ((2 - 0 + e) * (4 - 2 + e))) in *. nra.
Qed.

(** ** Priors *)
Lemma prior_scale_pos sigma i : 0 < prior_scale sigma i.
Proof. unfold prior_scale. apply Rdiv_lt_0_compat; [lra|]. eapply Rlt_le_trans; [|apply Rmax_r]. apply Rinv_0_lt_compat, pow_lt. lra. Qed.
(** The residuals of a prior all vanish exactly when every constrained parameter has the value of the (transformed) prior. *)
Theorem C77_prior : forall sigma prior indexes logarithmic transform adjust parameters, (forall s, adjust = Some s -> s <> 0) ->
  (forall i, In i indexes -> logarithmic i = true -> 0 < nthR parameters i / nthR (transform prior) i) ->
  all_zero (data_prior_error sigma prior indexes logarithmic transform adjust parameters) <-> (forall i, In i indexes -> nthR parameters i = nthR (transform prior) i).
Proof.
  intros sigma prior indexes lg transform adjust parameters Ha Hl. unfold all_zero, data_prior_error. rewrite Forall_fmap, Forall_forall. cbn zeta.
  assert (forall i, (match adjust with Some s => prior_scale sigma i / s | None => prior_scale sigma i end) <> 0) as Hs.
  { intros i. pose proof (prior_scale_pos sigma i). destruct adjust as [s|]; [|lra]. unfold Rdiv. apply Rmult_integral_contrapositive. split; [lra|]. by apply Rinv_neq_0_compat, Ha. }
  split; intros H i Hi.
  - specialize (H i ltac:(by apply elem_of_list_In)). cbn in H. apply Rmult_integral in H as [H|H]; [by destruct (Hs i)|]. destruct (lg i) eqn:E; [|lra]. specialize (Hl i Hi E).
    rewrite <- ln_1 in H. apply ln_inv in H; [|done|lra]. assert (nthR (transform prior) i <> 0) as Hn. { intros Hz. rewrite Hz in H. unfold Rdiv in H. rewrite Rinv_0 in H. lra. }
    transitivity (nthR parameters i / nthR (transform prior) i * nthR (transform prior) i); [field; done|rewrite H; ring].
  - apply elem_of_list_In in Hi. cbn. rewrite (H i Hi). destruct (lg i) eqn:E; [|ring]. specialize (Hl i Hi E). rewrite (H i Hi) in Hl.
    assert (nthR (transform prior) i <> 0) as Hn. { intros Hz. rewrite Hz in Hl. unfold Rdiv in Hl. rewrite Rinv_0 in Hl. lra. } unfold Rdiv. rewrite Rinv_r, ln_1 by done. ring.
Qed.
Lemma pose_at_block o : pose_to_block (pose_at o) = Block v0 o.
Proof.
  unfold pose_at, set_origin, set_translation, pose_to_block, rotation_cam_to_world_min, pose0, inv_tr. cbn [c_rot c_tr w_rot w_tr from_world_to_cam]. unfold inv_rot. rewrite !(rotation_inv _ rotation_I), mT_I, !mvec_I. f_equal.
  - rewrite <- exp_zero. apply log_exp. rewrite norm_v0. apply PI_RGT_0.
  - apply vopp_opp.
Qed.
(** The GPS prior: the distances to the reading, moved by the bias, in standard deviations (and, with an adjusted standard deviation, in units of it). *)
Theorem C77_gps : forall position sd bias adjust inst, / 2 ^ 52 <= vx sd -> / 2 ^ 52 <= vy sd -> / 2 ^ 52 <= vz sd ->
  let d := vsub (get_origin (block_to_pose inst)) (biased bias position) in let s := default 1 adjust in
  instance_position_error position sd bias adjust inst = [vx d / vx sd / s; vy d / vy sd / s; vz d / vz sd / s].
Proof.
  intros position sd bias adjust inst Hx Hy Hz d s. unfold instance_position_error, data_prior_error. rewrite !pose_at_block. unfold similarity_prior_transform, list_of_block, nthR, prior_scale. cbn.
  replace (Vec (vx position) (vy position) (vz position)) with position by (by destruct position). rewrite rotate_point. rewrite !Rmax_left by done. unfold d, biased, get_origin. unfold mvec. cbn [c_tr block_to_pose from_cam_to_world vsub vadd vx vy vz].
  destruct adjust as [k|]; cbn [default from_option id] in s; unfold s, Datatypes.id, Rdiv; rewrite ?Rinv_1; (f_equal; [ring|]); (f_equal; [ring|]); apply (f_equal (fun x => [x])); ring.
Qed.
Theorem C77_gps_zero : forall position sd bias adjust inst, (forall s, adjust = Some s -> s <> 0) ->
  all_zero (instance_position_error position sd bias adjust inst) <-> get_origin (block_to_pose inst) = biased bias position.
Proof.
  intros position sd bias adjust inst Ha. unfold instance_position_error. rewrite C77_prior by done. rewrite pose_at_block. unfold similarity_prior_transform, list_of_block, nthR, get_origin. rewrite block_c_tr. cbn.
  replace (Vec (vx position) (vy position) (vz position)) with position by (by destruct position). rewrite rotate_point. fold (biased bias position). split.
  - intros H. apply vec_eq; [apply (H 3%nat)|apply (H 4%nat)|apply (H 5%nat)]; tauto.
  - intros E i [<-|[<-|[<-|[]]]]; by rewrite E.
Qed.
Theorem C77_point_prior : forall position sd has_altitude point,
  all_zero (point_prior_error position sd has_altitude point) <-> vx point = vx position /\ vy point = vy position /\ (has_altitude = true -> vz point = vz position).
Proof.
  intros position sd ha point. unfold point_prior_error. rewrite C77_prior by (done || (intros; done)). unfold nthR, list_of_vec. destruct ha; cbn; split.
  - intros H. split; [apply (H 0%nat); tauto|]. split; [apply (H 1%nat); tauto|]. intros _. apply (H 2%nat). tauto.
  - intros (H1 & H2 & H3) i [<-|[<-|[<-|[]]]]; try done. by apply H3.
  - intros H. split; [apply (H 0%nat); tauto|]. split; [apply (H 1%nat); tauto|done].
  - intros (H1 & H2 & _) i [<-|[<-|[]]]; done.
Qed.
Theorem C77_rig_camera_prior : forall sigma prior rc, valid prior -> all_zero (rig_camera_prior_error sigma prior rc) -> block_to_pose rc = prior.
Proof.
  intros sigma prior rc Hv H. unfold rig_camera_prior_error in H. rewrite C77_prior in H by (done || (intros; done)). rewrite <- (proj1 (C77_block_pose prior Hv)). f_equal.
  set (b := pose_to_block prior) in *. clearbody b. destruct rc as [[a1 a2 a3] [a4 a5 a6]], b as [[b1 b2 b3] [b4 b5 b6]]. unfold nthR, list_of_block in H. cbn in H.
  pose proof (H 0%nat ltac:(tauto)). pose proof (H 1%nat ltac:(tauto)). pose proof (H 2%nat ltac:(tauto)). pose proof (H 3%nat ltac:(tauto)). pose proof (H 4%nat ltac:(tauto)). pose proof (H 5%nat ltac:(tauto)). cbn in *. by subst.
Qed.
Theorem C77_rig_camera_prior_attained : forall sigma prior, all_zero (rig_camera_prior_error sigma prior (pose_to_block prior)).
Proof. intros sigma prior. unfold rig_camera_prior_error. rewrite C77_prior; [done|done|intros; done]. Qed.
(** Cameras: focal lengths and aspect ratios are compared by their ratio, the others by their difference. *)
Theorem C77_camera_prior : forall logarithmic sigma prior parameters, length prior = length sigma -> length parameters = length sigma ->
  (forall i, logarithmic i = true -> (i < length sigma)%nat -> 0 < nthR prior i /\ 0 < nthR parameters i) ->
  all_zero (camera_prior_error logarithmic sigma prior parameters) <-> parameters = prior.
Proof.
  intros lg sigma prior parameters L1 L2 Hp. unfold camera_prior_error. rewrite C77_prior; [|done|].
  2:{ intros i Hi El. apply in_seq in Hi. destruct (Hp i El ltac:(lia)). by apply Rdiv_lt_0_compat. }
  split; [|by intros ->]. intros H. apply (nth_ext _ _ 0 0); [congruence|]. intros i Hi. apply H, in_seq. lia.
Qed.

(** ** Depths, relative motions, common positions *)
Theorem C77_depth : forall blocks constant depth sd is_radial inst rc point, let x := transform (pose_of_shot inst (blocks rc)) point in
  depth_residual blocks constant depth sd is_radial inst rc point = ((if is_radial then norm x else vz x) - depth) / sd.
Proof.
  intros blocks constant depth sd ir inst rc point x. unfold depth_residual, relative_depth_error. destruct (useful_cases blocks constant rc) as [E|[E Z]]; rewrite E.
  - rewrite camera_transform. fold x. unfold Rdiv. ring.
  - unfold world_to_camera_rig. rewrite local_transform. unfold x. rewrite Z, shot_pose_none. unfold Rdiv. ring.
Qed.
(** The relative motion: no answer for a scale of 0; otherwise all residuals vanish exactly when the pose of i seen from j is the
    observed one, in the scale of j, and the ratio of the scales, if observed, is the observed one. *)
Lemma all_zero_vec v : all_zero (list_of_vec v) <-> v = v0.
Proof. unfold all_zero, list_of_vec. rewrite !Forall_cons, Forall_nil. destruct v as [x y z]; cbn. split; [intros (-> & -> & -> & _); done|intros [= -> -> ->]; done]. Qed.
Lemma mul_rows_zero m v : all_zero v -> all_zero (mul_rows m v).
Proof.
  intros H. unfold mul_rows, all_zero. apply Forall_fmap, Forall_forall. intros row _. cbn. revert v H. induction row as [|x row IH]; intros [|y v] H; cbn; try done. apply Forall_cons in H as [-> H]. rewrite (IH v H). ring.
Qed.
Theorem C77_relative_motion : forall rij tij sij m observed i j si sj, injective_rows m ->
  (si = 0 \/ sj = 0 -> relative_motion_error rij tij sij m observed i j si sj = None) /\
  (si <> 0 -> sj <> 0 -> exists e, relative_motion_error rij tij sij m observed i j si sj = Some e /\
    (all_zero e <-> relative_to (block_to_pose j) (block_to_pose i) = pose_of_vector rij (vscale (/ sj) tij) /\ (observed = true -> sj = sij * si))).
Proof.
  intros rij tij sij m observed i j si sj Hm. unfold relative_motion_error. split.
  - intros [-> | ->]; repeat destruct (Req_EM_T _ _); done.
  - intros Hi Hj. destruct (Req_EM_T si 0); [done|]. destruct (Req_EM_T sj 0); [done|]. eexists. split; [done|].
    assert (all_zero (mul_rows m (relative_motion_residual rij tij sij observed i j si sj)) <-> all_zero (relative_motion_residual rij tij sij observed i j si sj)) as ->.
    { split; [apply Hm; done|apply mul_rows_zero]. }
    unfold relative_motion_residual. unfold all_zero at 1. rewrite !Forall_app, Forall_cons, Forall_nil. fold (all_zero (list_of_vec (mult_rotations3 rij (vopp (b_r i)) (b_r j)))).
    match goal with |- context [Forall _ (list_of_vec ?v)] => fold (all_zero (list_of_vec v)) end. rewrite !all_zero_vec, mult3_zero, vsub_zero, exp_opp, rotate_point, exp_opp.
    pose proof (exp_rotation (b_r i)) as Ri. pose proof (exp_rotation (b_r j)) as Rj. pose proof (exp_rotation rij) as Rr.
    set (A := vector_to_rotation (b_r i)) in *. set (B := vector_to_rotation (b_r j)) in *. set (C := vector_to_rotation rij) in *.
    assert (mmul (mmul C (mT A)) B = mI <-> mmul (mT B) A = C) as ->.
    { split; intros E.
      - assert (mmul (mmul (mmul C (mT A)) B) (mmul (mT B) A) = mmul (mT B) A) as E1 by (by rewrite E, mmul_I_l). rewrite <- E1, !mmul_assoc, <- (mmul_assoc (mmul C (mT A))), (rotation_r _ Rj), mmul_I_r, <- mmul_assoc, (rotation_l _ Ri), mmul_I_r. done.
      - rewrite <- E. rewrite <- (mmul_assoc (mT B)), (rotation_r _ Ri), mmul_I_r. by apply rotation_l. }
    assert (relative_to (block_to_pose j) (block_to_pose i) = pose_of_vector rij (vscale (/ sj) tij) <-> mmul (mT B) A = C /\ tij = vscale sj (mvec (mT B) (vsub (b_t i) (b_t j)))) as ->.
    { unfold relative_to, pose_of_vector. rewrite block_w_rot, block_w_tr, block_c_rot, block_c_tr. fold A B C. split.
      - intros E. assert (E1 := f_equal w_rot E). assert (E2 := f_equal w_tr E). cbn in E1, E2. split; [done|]. 
        assert (tij = vscale sj (vscale (/ sj) tij)) as Et by (rewrite vscale_vscale, Rinv_r, vscale_1; done). rewrite Et, <- E2. generalize (mT B) (b_t i) (b_t j). vring.
      - intros [E1 E2]. f_equal; [done|]. rewrite E2, vscale_vscale, Rinv_l, vscale_1 by done. generalize (mT B) (b_t i) (b_t j). vring. }
    destruct observed; [|intuition congruence]. split.
    + intros (E1 & E2 & E3 & _). split; [done|]. intros _. assert (sj / si = sij) as <- by lra. field. done.
    + intros ((E1 & E2) & E3). split; [done|]. split; [done|]. split; [|done]. rewrite (E3 eq_refl). field. done.
Qed.
(** The relative rotation of two shots, rig cameras included: zero exactly when the rotation from the camera i to the camera j is the observed one. *)
Theorem C77_relative_rotation : forall blocks constant rij m i j rc_i rc_j, (forall v, mvec m v = v0 -> v = v0) ->
  let Pi := pose_of_shot i (blocks rc_i) in let Pj := pose_of_shot j (blocks rc_j) in
  relative_rotation_residual blocks constant rij m i j rc_i rc_j = v0 <-> w_rot (relative_to Pj Pi) = vector_to_rotation rij.
Proof.
  intros blocks constant rij m i j rc_i rc_j Hm Pi Pj. pose proof (C77_two_rig_cameras blocks constant rc_i rc_j) as W. unfold relative_rotation_residual. destruct (wire_two _ _ _ _) as [[l a] b]. destruct W as (W0 & W1 & _).
  unfold relative_rotation_error. assert (forall v, mvec m v = v0 <-> v = v0) as -> by (intros v; split; [apply Hm|intros ->; apply mvec_0]).
  rewrite mult3_zero, exp_opp, (reads_rotation _ _ _ _ W0), (reads_rotation _ _ _ _ W1). fold Pi Pj. cbn [relative_to w_rot from_world_to_cam].
  destruct (shot_pose_valid j (blocks rc_j)) as (Vj & Cj & _). fold Pj in Vj, Cj. destruct (shot_pose_valid i (blocks rc_i)) as (Vi & Ci & _). fold Pi in Vi, Ci.
  rewrite Cj, Ci, mT_T. set (A := w_rot Pi) in *. set (B := w_rot Pj) in *. pose proof (exp_rotation rij) as Rr. set (C := vector_to_rotation rij) in *. split; intros E.
  - assert (mmul (mmul (mmul C A) (mT B)) (mmul B (mT A)) = mmul B (mT A)) as E1 by (by rewrite E, mmul_I_l). rewrite <- E1, !mmul_assoc, <- (mmul_assoc (mmul C A)), (rotation_l _ Vj), mmul_I_r, <- mmul_assoc, (rotation_r _ Vi), mmul_I_r. done.
  - rewrite <- E. rewrite <- (mmul_assoc B), (rotation_l _ Vi), mmul_I_r. by apply rotation_r.
Qed.
(** Shots at a common position: zero exactly when their heights are equal and they are not farther apart than the margin to the east and to the north. *)
Theorem C77_common_position : forall blocks constant margin sd i j rc_i rc_j, sd <> 0 ->
  let d := vsub (get_origin (pose_of_shot i (blocks rc_i))) (get_origin (pose_of_shot j (blocks rc_j))) in
  common_position_residual blocks constant margin sd i j rc_i rc_j = v0 <-> Rabs (vx d) <= margin /\ Rabs (vy d) <= margin /\ vz d = 0.
Proof.
  intros blocks constant margin sd i j rc_i rc_j Hsd d. pose proof (C77_two_rig_cameras blocks constant rc_i rc_j) as W. unfold common_position_residual. destruct (wire_two _ _ _ _) as [[l a] b]. destruct W as (W0 & W1 & _).
  unfold common_position_error. rewrite (reads_position _ _ _ _ W0), (reads_position _ _ _ _ W1). fold d. rewrite vscale_sd_zero by done.
  assert (forall x, Rmax 0 (x - margin) = 0 <-> x <= margin) as K. { intros x. unfold Rmax. destruct (Rle_dec 0 (x - margin)); split; intros; lra. }
  split; [intros [= E1 E2 E3]; split; [by apply K|]; split; [by apply K|done]|]. intros (H1 & H2 & H3). unfold v0. f_equal; [by apply K|by apply K|done].
Qed.
(** The scale of an instance: with a shared scale, that of every instance of the reconstruction. *)
Theorem C77_shared_scale : forall scales i j, get_scale true scales i = get_scale true scales j /\ (scales <> [] <-> exists s, get_scale true scales i = Ok s).
Proof. intros scales i j. split; [done|]. destruct scales as [|[n s] l]; cbn; split; [done| |by eexists|done]. intros [s E]. done. Qed.

(** ** Concrete cases *)
(** a forward looking camera (C63): looking north, level; and what the residuals say of it *)
Definition north : block := pose_to_block (from_world_to_cam (rotation_from_ptr_v2 0 0 0) v0).
Lemma north_pose : pose_of_shot north (Block v0 v0) = from_world_to_cam (rotation_from_ptr_v2 0 0 0) v0.
Proof. rewrite shot_pose_none. unfold north. apply C77_block_pose, from_w2c_valid. rewrite ptr_v2_matrix. apply rotation_mmul; [apply rotation_mmul|]; first [apply turn_z_rotation|apply turn_x_rotation]. Qed.
Example C77_angles_met : has_ptr (w_rot (pose_of_shot north (Block v0 v0))) 0 0 0 /\ angle 0 /\ acute 0 /\ 2 / 10 ^ 8 <= cos 0 /\ / 10 ^ 5 <= cos 0.
Proof.
  rewrite north_pose. cbn [w_rot from_world_to_cam]. split; [rewrite ptr_v2_matrix; apply ptr_has|]. pose proof PI_RGT_0. split; [unfold angle; lra|]. split; [unfold acute; lra|]. rewrite cos_0. split.
  - apply (Rmult_le_reg_r (10 ^ 8)); [apply pow_lt; lra|]. unfold Rdiv. rewrite Rmult_assoc, Rinv_l by (apply pow_nonzero; lra). simpl; lra.
  - rewrite <- Rinv_1. apply Rinv_le_contravar; [lra|]. apply pow_R1_Rle. lra.
Qed.
Example C77_up_met : / 10 ^ 10 <= norm (Vec 0 (-9) 0) /\ mvec (c_rot (pose_of_shot north (Block v0 v0))) (Vec 0 (-9) 0) = Vec 0 0 (norm (Vec 0 (-9) 0)).
Proof.
  assert (norm (Vec 0 (-9) 0) = 9) as ->. { unfold norm, dot; cbn. replace (0 * 0 + -9 * -9 + 0 * 0) with (Rsqr 9) by (unfold Rsqr; ring). apply sqrt_Rsqr. lra. }
  split; [apply (Rle_trans _ 1); [|lra]; rewrite <- Rinv_1; apply Rinv_le_contravar; [lra|]; apply pow_R1_Rle; lra|].
  rewrite north_pose. unfold from_world_to_cam, inv_rot. cbn [c_rot]. rewrite rotation_inv.
  2:{ rewrite ptr_v2_matrix. apply rotation_mmul; [apply rotation_mmul|]; first [apply turn_z_rotation|apply turn_x_rotation]. }
  unfold rotation_from_ptr_v2, euler_matrix_szxz. replace (0 + PI / 2) with (PI / 2) by ring. rewrite sin_PI2, cos_PI2, sin_0, cos_0. unfold mvec; cbn. f_equal; ring.
Qed.
Example C77_relative_motion_met : injective_rows ((fun i => (fun j => if decide (i = j) then 2 else 0) <$> seq 0 7) <$> seq 0 7).
Proof.
  intros v L H. destruct v as [|a [|b [|c [|d [|e [|f [|g [|h v]]]]]]]]; try done. cbn in H. repeat (case_decide; try done). cbn in H. rewrite !Forall_cons in H |- *.
  destruct H as (G1 & G2 & G3 & G4 & G5 & G6 & G7 & _). repeat split; try done; lra.
Qed.

Example C77_gauge_met : / 10 ^ 20 <= norm (vsub (get_origin (pose_at (Vec 3 0 4))) (get_origin (pose_at v0))).
Proof.
  assert (forall o, get_origin (pose_at o) = o) as E by (intros o; change (get_origin (pose_at o)) with (b_t (pose_to_block (pose_at o))); by rewrite pose_at_block). rewrite !E.
  replace (norm (vsub (Vec 3 0 4) v0)) with 5.
  - apply (Rle_trans _ 1); [|lra]. rewrite <- Rinv_1. apply Rinv_le_contravar; [lra|]. apply pow_R1_Rle. lra.
  - unfold norm, dot, vsub, v0; cbn. replace ((3 - 0) * (3 - 0) + (0 - 0) * (0 - 0) + (4 - 0) * (4 - 0)) with (Rsqr 5) by (unfold Rsqr; ring). rewrite sqrt_Rsqr; lra.
Qed.
Example C77_wiring_met : let blocks := fun rc : string => if decide (rc = "front"%string) then Block v0 (Vec 1 0 0) else Block v0 v0 in
  wire_two blocks (fun _ => true) "front" "back" = (["front"%string], Some 0%nat, None) /\
  wire_three blocks (fun _ => false) "front" "back" "side" = (["front"%string; "back"%string; "side"%string], Some 0%nat, Some 1%nat, Some 2%nat).
Proof.
  intros blocks. unfold wire_two, wire_three, wire_two, useful. cbn [andb negb]. split; [|done]. unfold blocks, is_zero_block. cbn. repeat case_decide; try done; try tauto. cbn. rewrite norm_v0.
  assert (norm (Vec 1 0 0) = 1) as -> by (unfold norm, dot; cbn; replace (1 * 1 + 0 * 0 + 0 * 0) with 1 by ring; apply sqrt_1). repeat destruct (Req_EM_T _ _); try done; lra.
Qed.

Print Assumptions C77_block_pose.
Print Assumptions C77_linear_motion.
Print Assumptions C77_gauge.
Print Assumptions C77_relative_motion.
Print Assumptions C77_gps.
Print Assumptions C77_camera_prior.
