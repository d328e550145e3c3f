(** C44, continued: covariance.cc, and the pose functor against the pose *)
From stdpp Require Import prelude strings.
From Coq Require Import Reals Lra.
From Coquelicot Require Import Coquelicot.
From Verif Require Import Base Lin RotModel RotProofs CamModel PoseModel PoseSpec PoseProofs FunctorModel ProjModel FunctorSpec ProjSpec FunctorProofs FunctorLeaves FunctorProj FunctorPose FunctorCameras FunctorProps.
Local Open Scope R_scope.
Set Bullet Behavior "Strict Subproofs".

Lemma axis_angle_transposed (r : vec) (x : vec) : epsilon < dot r r ->
  Pose_Forward (list_of_vec x) (list_of_vec r ++ [0; 0; 0]) = list_of_vec (mvec (mT (vector_to_rotation r)) x).
Proof.
  intros He. pose proof epsilon_pos. assert (Hn : 0 < norm r) by (apply sqrt_lt_R0; lra).
  assert (Hn2 : norm r * norm r = dot r r) by (apply sqrt_sqrt; lra).
  unfold vector_to_rotation. destruct (Req_EM_T (norm r) 0) as [E|_]; [lra|].
  destruct r as [a b c], x as [x y z]. unfold Pose_Forward, list_of_vec, angle_axis_matrix. cbn [vx vy vz app nth vscale mvec mT m11 m12 m13 m21 m22 m23 m31 m32 m33].
  replace (- a * - a + - b * - b + - c * - c) with (dot (Vec a b c) (Vec a b c)) by (unfold dot; cbn; ring).
  destruct (Rlt_dec _ _) as [_|N]; [|exfalso; apply N; lra].
  change (sqrt (dot (Vec a b c) (Vec a b c))) with (norm (Vec a b c)).
  rewrite <- Hn2. set (n := norm (Vec a b c)) in *. 
  repeat match goal with |- _ :: _ = _ :: _ => apply f_equal2 end; try reflexivity; field; lra.
Qed.
Lemma pose_forward_shift a b c o1 o2 o3 x y z : Pose_Forward [x; y; z] [a; b; c; o1; o2; o3] = Pose_Forward [x - o1; y - o2; z - o3] [a; b; c; 0; 0; 0].
Proof. unfold Pose_Forward. cbn [nth]. rewrite !Rminus_0_r. reflexivity. Qed.
(** A pose whose rotation is zero, or not nearly zero *)
Definition usual_pose (p : pose) : Prop := rotation_cam_to_world_min p = v0 \/ / 2 ^ 52 < dot (rotation_cam_to_world_min p) (rotation_cam_to_world_min p).
Definition pose_params (p : pose) : list R := list_of_vec (rotation_cam_to_world_min p) ++ list_of_vec (c_tr p).
Theorem C44_pose_transform p x : valid p -> usual_pose p ->
  Forward PoseFunctor (list_of_vec x) (pose_params p) = list_of_vec (transform p x).
Proof.
  intros HV Hu. cbn [Forward PoseFunctor]. unfold pose_params. 
  assert (E : transform p x = mvec (mT (c_rot p)) (vsub x (c_tr p))).
  { destruct HV as ([HR _] & -> & ->). unfold transform.
    assert (HI : mmul (w_rot p) (mT (w_rot p)) = mI) by exact HR.
    replace (mT (mT (w_rot p))) with (w_rot p) by (destruct (w_rot p); reflexivity).
    set (W := w_rot p) in *. set (t := w_tr p).
    assert (E1 : mvec W (vsub x (vopp (mvec (mT W) t))) = vadd (mvec W x) (mvec (mmul W (mT W)) t)). 
    { destruct W, t, x. unfold mvec, mmul, mT, vsub, vadd, vopp. cbn. f_equal; ring. }
    rewrite E1, HI. destruct t, (mvec W x). unfold vadd, mvec, mI. cbn. f_equal; ring. }
  rewrite E. set (r := rotation_cam_to_world_min p) in *.
  assert (Hr : vector_to_rotation r = c_rot p).
  { apply exp_log. destruct HV as (HR & -> & _). now apply rotation_T. }
  rewrite <- Hr. unfold list_of_vec at 1 2 3. cbn [app]. rewrite pose_forward_shift.
  destruct Hu as [H0|He].
  - change (r = v0) in H0. rewrite H0, exp_zero. unfold Pose_Forward. cbn [nth v0 vx vy vz]. destruct (Rlt_dec _ _) as [L|_].
    + exfalso. pose proof epsilon_pos. lra.
    + destruct x as [x y z], (c_tr p) as [o1 o2 o3]. unfold list_of_vec. cbn.
      repeat match goal with |- _ :: _ = _ :: _ => apply f_equal2 end; try reflexivity; ring.
  - apply (axis_angle_transposed r (vsub x (c_tr p)) He).
Qed.

Lemma good_Pose_false_small x rt : theta2_of rt = 0 -> good PoseFunctor false x rt.
Proof.
  intros H0. pose proof epsilon_pos as Hep.
  assert (Hc : rt.[0] = 0 /\ rt.[1] = 0 /\ rt.[2] = 0) by (unfold theta2_of in H0; split; [|split]; nra). destruct Hc as (H00 & H01 & H02).
  assert (HJ : Pose_jacobian false x rt = [1; 0; 0; 0; 1; 0; 0; 0; 1]).
  { unfold Pose_jacobian, AngleAxisToRotation. destruct (Rlt_dec _ _) as [_|N].
    - cbn [s_of s_opp real_scalar]. rewrite H00, H01, H02, !Ropp_0. reflexivity.
    - exfalso. apply N. cbn [s_add s_mul s_value real_scalar]. rewrite H00, H01, H02. lra. }
  split; [reflexivity|cbn [PoseFunctor ForwardDerivatives snd OutSize]; rewrite HJ; reflexivity|].
  intros xs ps t dxs dps Hl Hlp Hx Hp Hm Hmp Hd j Hj. cbn in Hl, Hlp, Hj.
  cbn [PoseFunctor InSize ParamSize OutSize] in Hl, Hlp, Hj. components. specialize (Hd eq_refl). repeat (apply zeros_cons in Hd as [<- Hd]).
  cbn [PoseFunctor ForwardDerivatives Forward snd]. rewrite HJ. subst. cbn [at_time map nth] in H00, H01, H02.
  destruct (pose_small r r0 r1 r2 r3 r4 r5 r6 r7 ps t _ _ _ _ _ _ _ _ _ ltac:(eassumption) ltac:(eassumption) ltac:(eassumption) ltac:(eassumption) ltac:(eassumption) ltac:(eassumption) ltac:(eassumption) ltac:(eassumption) ltac:(eassumption)) as (P0 & P1 & P2).
  { rewrite H00, H01, H02. lra. }
  change (Stride PoseFunctor false) with 3%nat. rewrite H00, H01, H02 in *.
  destruct j as [|[|[|j]]]; [| | |lia].
  1: by_value; [exact P0|]. 2: by_value; [exact P1|]. 3: by_value; [exact P2|].
  all: cbv [sum_n foldr map seq nth app Nat.add Nat.mul]; ring.
Qed.

(** The jacobian used to estimate the covariance of a point is the derivative of the projection of the point with respect to
    its position, and the residual is the observation minus the projection. *)
Theorem C44_covariance c p observation point : valid p -> usual_pose p -> smooth_point (cam_type c) (list_of_vec (transform p point)) ->
  length (cam_values c) = camera_size (cam_type c) ->
  exists u v, Project c (transform p point) = Some (u, v) /\
  let '(J, residual) := ComputeJacobianReprojectionError c p observation point in
  residual = (observation.1 - u, observation.2 - v) /\
  derivative_at 3 2 (fun x => match Project c (transform p (Vec (nth 0 x 0) (nth 1 x 0) (nth 2 x 0))) with Some q => [q.1; q.2] | None => [] end) (list_of_vec point) J.
Proof.
  intros HV Hu Hs Hl. set (t := cam_type c) in *. set (r := rotation_cam_to_world_min p) in *.
  assert (HE : forall x, Pose_Forward (list_of_vec x) (pose_params p) = list_of_vec (transform p x)) by (intros; now apply C44_pose_transform).
  assert (G : good (Compose [Generic (Dispatch t); PoseFunctor]) false (list_of_vec point) (pose_params p ++ cam_values c)).
  { unfold pose_params. fold r. destruct Hu as [H0|He].
    - apply good_compose; [apply sized_camera|apply sized_compose, sized_Pose|reflexivity| |].
      + apply good_single. apply good_Pose_false_small. fold r in H0. rewrite H0. unfold theta2_of. cbn. ring.
      + apply good_camera; [|now left]. apply smooth_domain.
        change (smooth_point t (Pose_Forward (list_of_vec point) ((list_of_vec r ++ list_of_vec (c_tr p)) ++ cam_values c))).
        change (Pose_Forward (list_of_vec point) ((list_of_vec r ++ list_of_vec (c_tr p)) ++ cam_values c)) with (Pose_Forward (list_of_vec point) (pose_params p)).
        rewrite HE. exact Hs.
    - apply good_pose_camera; [reflexivity|exact He| |now left]. apply smooth_domain. fold (pose_params p). rewrite HE. exact Hs. }
  pose proof (good_derivative_point _ _ _ G eq_refl) as D.
  assert (HC : ParamSize (Compose [Generic (Dispatch t); PoseFunctor]) = (camera_size t + 6)%nat).
  { cbn [Compose ParamSize ComposeIndex]. rewrite camera_size_eq. cbn. lia. }
  specialize (D ltac:(rewrite app_length, HC, Hl; cbn; lia)).
  pose proof (good_value _ _ _ _ G) as V.
  assert (HF : forall x, Forward (Compose [Generic (Dispatch t); PoseFunctor]) (list_of_vec x) (pose_params p ++ cam_values c) =
     default [] (Generic_Forward (Dispatch t) (list_of_vec (transform p x)) (cam_values c))).
  { intros x. rewrite <- HE. reflexivity. }
  assert (HP : forall x, exists u v, Generic_Forward (Dispatch t) x (cam_values c) = Some [u; v]).
  { intros x. destruct t; eexists; eexists; reflexivity. }
  unfold ComputeJacobianReprojectionError. fold r t. rewrite (app_assoc (list_of_vec r)). fold (pose_params p).
  change (list_of_vec r ++ list_of_vec (c_tr p)) with (pose_params p).
  change (ForwardDerivatives (Compose [Generic (Dispatch t); PoseFunctor]) false) with (ProjectPosePointDerivatives t) in V, D.
  destruct (ProjectPosePointDerivatives t _ _) as [value J]. cbn [fst snd] in V, D.
  destruct (HP (list_of_vec (transform p point))) as (u & v & Hq). exists u, v.
  unfold Project. fold t. rewrite Hq. split; [reflexivity|]. split.
  - rewrite V, HF, Hq. reflexivity.
  - eapply derivative_at_ext; [|exact D]. intros w Hw. cbn in Hw. conc w 3%nat Hw. cbn [nth].
    change [e; e0; e1] with (list_of_vec (Vec e e0 e1)). rewrite HF. destruct (HP (list_of_vec (transform p (Vec e e0 e1)))) as (u' & v' & Hq').
    rewrite Hq'. reflexivity.
Qed.

(** A camera at the origin that looks along z, and a point in front of it: the derivative given to the optimiser for the rotation
    is wrong. *)
Definition seen_from_origin : blocks := Blocks [0; 0; 1] [0; 0; 0; 0; 0; 0] [0; 0; 0; 0; 0; 0] [0; 0; 1].
Theorem C44_identity_pose_refuted :
  let e := new_error PERSPECTIVE (0, 0) 1 false in let b := seen_from_origin in
  well_formed 3 b /\ smooth_point PERSPECTIVE (transformed e b) /\
  let '(_, (_, J_rig_instance, _, _)) := Evaluate2D 3 e b in
  ~ derivative_at 6 2 (fun v => Evaluate2D_residuals 3 e (with_rig_instance b v)) (b_rig_instance b) J_rig_instance.
Proof.
  cbn zeta. pose proof epsilon_pos as Hep.
  assert (HT : transformed (new_error PERSPECTIVE (0, 0) 1 false) seen_from_origin = [0; 0; 1]).
  { unfold transformed, seen_from_origin, new_error. cbn [re_use_rig_camera b_point b_rig_instance Forward PoseFunctor]. unfold Pose_Forward. cbn [nth].
    destruct (Rlt_dec _ _) as [L|_]; [exfalso; lra|]. repeat match goal with |- _ :: _ = _ :: _ => apply f_equal2 end; try reflexivity; ring. }
  split; [repeat split|]. split; [rewrite HT; cbn; lra|].
  destruct (Evaluate2D 3 (new_error PERSPECTIVE (0, 0) 1 false) seen_from_origin) as [res [[[J1 J2] J3] J4]] eqn:E. intros HD.
  assert (HJ : J2.[1] = 1).
  { unfold Evaluate2D, seen_from_origin, new_error in E. cbn [re_use_rig_camera re_type re_scale re_observed b_camera b_rig_instance b_rig_camera b_point] in E.
    unfold ProjectPoseDerivatives in E. cbn [ComposeForwardDerivatives] in E. cbn [PoseFunctor ForwardDerivatives] in E.
    rewrite Pose_jacobian_small in E by (unfold theta2_of; cbn; lra). injection E as _ _ <- _ _.
    cbv -[Rplus Rmult Ropp Rminus R0 R1 IZR Rinv Rdiv Pose_Forward]. 
    unfold Pose_Forward. cbn [nth]. destruct (Rlt_dec _ _) as [L|_]; [exfalso; lra|]. cbn [nth]. field. }
  pose proof (C44_partial_derivatives _ _ _ _ _ 0 1 HD eq_refl ltac:(lia) ltac:(lia)) as P.
  change (0 * 6 + 1)%nat with 1%nat in P. rewrite HJ in P. cbn [b_rig_instance seen_from_origin nth] in P.
  assert (Q : derivable_pt_lim (fun h => - h) 0 (-1)) by (replace (-1) with (- 1) by ring; apply derivable_pt_lim_opp, derivable_pt_lim_id).
  apply is_derive_Reals in P, Q.
  assert (Q' : is_derive (fun h : R => (Evaluate2D_residuals 3 (new_error PERSPECTIVE (0, 0) 1 false) (with_rig_instance seen_from_origin (<[1%nat:=h]> [0; 0; 0; 0; 0; 0]))).[0]) 0 (-1)).
  { eapply is_derive_ext_loc; [|exact Q].
    assert (L : locally 0 (fun s : R => s * s < epsilon)).
    { apply (locally_lt (fun s : R => s * s) 0 0); [derives; ring|lra]. }
    eapply filter_imp; [|exact L]. intros h Hh. cbn beta in Hh. symmetry.
    unfold Evaluate2D_residuals, transformed, seen_from_origin, new_error, with_rig_instance.
    cbn [re_use_rig_camera re_type re_scale re_observed b_camera b_rig_instance b_rig_camera b_point Forward PoseFunctor insert list_insert].
    assert (HP : Pose_Forward [0; 0; 1] [0; h; 0; 0; 0; 0] = [- h; 0; 1]).
    { unfold Pose_Forward. cbn [nth]. destruct (Rlt_dec _ _) as [L'|_]; [exfalso; lra|]. 
      repeat match goal with |- _ :: _ = _ :: _ => apply f_equal2 end; try reflexivity; ring. }
    change (Forward (Generic (Dispatch PERSPECTIVE)) (Pose_Forward [0; 0; 1] [0; h; 0; 0; 0; 0]) [0; 0; 1]) with
      (default [] (Generic_Forward (Dispatch PERSPECTIVE) (Pose_Forward [0; 0; 1] [0; h; 0; 0; 0; 0]) [0; 0; 1])).
    rewrite HP. cbv -[Rplus Rmult Ropp Rminus R0 R1 IZR Rinv Rdiv]. field. }
  pose proof (is_derive_unique _ _ _ P) as E1. pose proof (is_derive_unique _ _ _ Q') as E2.
  enough (1 = -1) by lra. rewrite <- E1, <- E2. reflexivity.
Qed.

(** The inverse covariance is symmetric and its quadratic form is the sum of the squared displacements of the projections. *)
Definition displacement2 (J : list R) (d : vec) : R :=
  let u := scalar_product (row 3 0 J) (list_of_vec d) in let v := scalar_product (row 3 1 J) (list_of_vec d) in u * u + v * v.
Lemma row_nth n i (J d : list R) : length d = n -> (i * n + n <= length J)%nat -> scalar_product (row n i J) d = sum_n n (fun k => J.[i * n + k] * d.[k]).
Proof.
  intros Hd HJ. unfold row. replace (sum_n n (fun k => J.[i * n + k] * d.[k])) with (sum_n n (fun k => (drop (i * n) J).[k] * d.[k])).
  2:{ apply sum_n_ext. intros k Hk. f_equal. rewrite !nth_lookup, lookup_drop. reflexivity. }
  assert (HL : (n <= length (drop (i * n) J))%nat) by (rewrite drop_length; lia). generalize dependent (drop (i * n) J). clear HJ. intros l.
  revert l d Hd. induction n as [|n IH]; intros l d Hd HL. { destruct d; [|discriminate]. reflexivity. }
  destruct d as [|y d]; [discriminate|]. destruct l as [|x l]; [cbn in HL; lia|]. cbn [take firstn scalar_product]. rewrite (IH l d); [|cbn in Hd; lia|cbn in HL; lia].
  unfold sum_n. cbn [seq map foldr nth]. rewrite <- seq_shift, map_map. reflexivity.
Qed.
Theorem C44_inverse_covariance cams obs point : let C := (ComputePointInverseCovariance cams obs point).1 in
  length C = 9%nat /\
  (forall a b, (a < 3)%nat -> (b < 3)%nat -> nth (a * 3 + b) C 0 = nth (b * 3 + a) C 0) /\
  ((forall o, In o obs -> length (ComputeJacobianReprojectionError o.1.1 o.1.2 o.2 point).1 = 6%nat) ->
   forall d, scalar_product (row 3 0 C) (list_of_vec d) * vx d + scalar_product (row 3 1 C) (list_of_vec d) * vy d + scalar_product (row 3 2 C) (list_of_vec d) * vz d =
     foldr (fun o acc => displacement2 (ComputeJacobianReprojectionError o.1.1 o.1.2 o.2 point).1 d + acc) 0 obs).
Proof.
  cbn zeta. set (S := fun a b => foldr (fun o acc => (sum_n 2 (fun i => (ComputeJacobianReprojectionError o.1.1 o.1.2 o.2 point).1.[i * 3 + a] * (ComputeJacobianReprojectionError o.1.1 o.1.2 o.2 point).1.[i * 3 + b])) + acc) 0 obs).
  assert (HC : (ComputePointInverseCovariance cams obs point).1 = [S 0 0; S 0 1; S 0 2; S 1 0; S 1 1; S 1 2; S 2 0; S 2 1; S 2 2]%nat).
  { unfold ComputePointInverseCovariance. cbn [fst]. unfold S. cbn [seq map concat app].
    repeat match goal with |- _ :: _ = _ :: _ => apply f_equal2 end; try reflexivity; (induction obs as [|o l IH]; [reflexivity|]; cbn [map foldr]; f_equal; exact IH). }
  rewrite HC. assert (HS : forall a b, S a b = S b a).
  { intros a b. unfold S. clear. induction obs as [|o l IH]; [reflexivity|]. cbn [foldr]. rewrite IH. f_equal. apply sum_n_ext. intros; ring. }
  split; [reflexivity|]. split.
  - intros a b Ha Hb. destruct a as [|[|[|a]]]; [| | |lia]; destruct b as [|[|[|b]]]; try lia; cbn; first [reflexivity|apply HS].
  - intros HL d. cbn [row take drop firstn skipn Nat.mul Nat.add scalar_product list_of_vec]. clear HC HS. unfold S. clear S.
    induction obs as [|o l IH]; [cbn; ring|].
    cbn [foldr]. rewrite <- IH by (intros; apply HL; now right). clear IH. specialize (HL o (or_introl eq_refl)).
    destruct (ComputeJacobianReprojectionError o.1.1 o.1.2 o.2 point) as [J res]. cbn [fst] in *. unfold displacement2. rewrite !row_nth by (try reflexivity; cbn; lia).
    cbv [sum_n foldr map seq nth app Nat.add Nat.mul list_of_vec]. fold (@nth R). ring.
Qed.

(** The hypotheses are met by cameras that rotate, with or without a rig camera, *)
Definition sample_blocks : blocks :=
  Blocks [1 / 10; 1 / 20; 1 / 30; 1 / 1000; 1 / 2000; 9 / 10; 1; 1 / 100; 1 / 200] [0; 0; 1; 5; 6; 7] [0; 0; 1 / 2; 1; 0; 0] [10; 20; 30].
Lemma turned_z x y z c o1 o2 o3 : epsilon < c * c -> nth 2 (Pose_Forward [x; y; z] [0; 0; c; o1; o2; o3]) 0 = z - o3.
Proof.
  intros He. pose proof epsilon_pos. unfold Pose_Forward. cbn [nth]. destruct (Rlt_dec _ _) as [L|N]; cbn [nth]; [|ring].
  field. split; [|apply Rgt_not_eq, sqrt_lt_R0]; nra.
Qed.
Example C44_applies rig : let e := new_error BROWN (1 / 10, 1 / 10) (1 / 100) rig in
  well_formed (camera_size (re_type e)) sample_blocks /\ rotating_poses e sample_blocks /\ smooth_point (re_type e) (transformed e sample_blocks).
Proof.
  cbn zeta. assert (H1 : / 2 ^ 52 < 1 / 4).
  { replace (1 / 4) with (/ 2 ^ 2) by lra. apply Rinv_lt_contravar; [apply Rmult_lt_0_compat; apply pow_lt; lra|]. apply Rlt_pow; [lra|lia]. }
  split; [repeat split|]. split.
  - split; [|intros _]; unfold rotating; cbn; lra.
  - unfold new_error, transformed, sample_blocks. cbn [re_type re_use_rig_camera b_point b_rig_instance b_rig_camera smooth_point Forward PoseFunctor].
    destruct rig.
    + set (q := Pose_Forward [10; 20; 30] [0; 0; 1; 5; 6; 7]). assert (Hq : q.[2] = 23) by (unfold q; rewrite turned_z; [lra|unfold epsilon; lra]).
      assert (E : Pose_Forward q [0; 0; 1 / 2; 1; 0; 0] = Pose_Forward [q.[0]; q.[1]; q.[2]] [0; 0; 1 / 2; 1; 0; 0]) by reflexivity.
      rewrite E, turned_z; [lra|unfold epsilon; lra].
    + rewrite turned_z; [lra|unfold epsilon; lra].
Qed.
(** and by the camera at the origin *)
Lemma usual_pose0 : usual_pose pose0.
Proof.
  left. unfold rotation_cam_to_world_min. destruct valid_pose0 as (_ & -> & _). cbn [pose0 from_world_to_cam w_rot].
  replace (mT mI) with (vector_to_rotation v0) by (rewrite exp_zero; reflexivity). apply log_exp. unfold norm, dot, v0. cbn. rewrite !Rmult_0_l, !Rplus_0_l, sqrt_0. apply PI_RGT_0.
Qed.
Example C44_covariance_applies : let c := Camera "v2 640 480" 640 480 PERSPECTIVE [K1; K2; Focal] [0; 0; 1] in
  valid pose0 /\ usual_pose pose0 /\ smooth_point (cam_type c) (list_of_vec (transform pose0 (Vec 1 2 3))) /\ length (cam_values c) = camera_size (cam_type c).
Proof.
  cbn zeta. split; [apply valid_pose0|]. split; [apply usual_pose0|]. split; [|reflexivity]. cbn. lra.
Qed.
Print Assumptions C44_covariance.
Print Assumptions C44_inverse_covariance.
Print Assumptions C44_identity_pose_refuted.
Print Assumptions C44_reprojection_error.
Print Assumptions C44_panorama_error.
Print Assumptions C44_project.
Print Assumptions C44_partial_derivatives.
Print Assumptions C44_small_rotation_refuted.
Print Assumptions C44_zero_rotation.
Print Assumptions C44_pose_transform.
