From Coq Require Import Reals Lra.
From stdpp Require Import prelude gmap strings.
From Verif Require Import Base Lin RotModel RotProofs MapModel PoseModel PoseSpec.
Local Open Scope R_scope.

Lemma from_w2c_valid Rm t : rotation Rm -> valid (from_world_to_cam Rm t).
Proof.
  intros H. unfold valid, from_world_to_cam, inv_rot, inv_tr; simpl. rewrite (rotation_inv _ H). done.
Qed.
Lemma from_c2w_valid Rm t : rotation Rm -> valid (from_cam_to_world Rm t).
Proof.
  intros H. unfold valid, from_cam_to_world, inv_rot, inv_tr; simpl. rewrite (rotation_inv _ H), mT_T. split; [by apply rotation_T|]. split; [done|].
  rewrite mvec_opp, <- mvec_mmul, (rotation_r _ H), mvec_I. unfold vopp; destruct t; simpl; f_equal; ring.
Qed.
Lemma valid_eq p : valid p -> p = from_world_to_cam (w_rot p) (w_tr p).
Proof.
  destruct p as [A t B u]. intros (H & H1 & H2). simpl in *. unfold from_world_to_cam, inv_rot, inv_tr. by rewrite (rotation_inv _ H), H1, H2.
Qed.
Lemma valid_ext p q : valid p -> valid q -> w_rot p = w_rot q -> w_tr p = w_tr q -> p = q.
Proof. intros Hp Hq H1 H2. by rewrite (valid_eq _ Hp), (valid_eq _ Hq), H1, H2. Qed.
Lemma valid_inverse p : valid p -> valid (inverse p).
Proof. intros (H & H1 & _). apply from_w2c_valid. rewrite H1. by apply rotation_T. Qed.
Lemma valid_compose p q : valid p -> valid q -> valid (compose p q).
Proof. intros (H & _) (H' & _). apply from_w2c_valid. by apply rotation_mmul. Qed.
Lemma valid_relative p q : valid p -> valid q -> valid (relative_to p q).
Proof. intros (H & _) (H' & H1 & _). apply from_w2c_valid. rewrite H1. by apply rotation_mmul, rotation_T. Qed.
Lemma valid_translation p t : rotation (w_rot p) -> c_rot p = mT (w_rot p) -> valid (set_translation p t).
Proof. intros H H1. unfold valid, set_translation, inv_tr; simpl. by rewrite (rotation_inv _ H). Qed.
Lemma valid_pose0 : valid pose0.
Proof. apply from_w2c_valid, rotation_I. Qed.
Lemma valid_similarity p s A b : valid p -> rotation A -> valid (apply_similarity_pose p s A b).
Proof.
  intros (H & _) HA. unfold apply_similarity_pose. apply valid_translation; simpl; [by apply rotation_mmul, rotation_T|done].
Qed.
Lemma built_valid p : built p -> valid p.
Proof.
  induction 1.
  - apply valid_pose0.
  - apply from_w2c_valid, exp_rotation.
  - by apply from_w2c_valid.
  - by apply from_c2w_valid.
  - destruct IHbuilt as (? & ? & _). by apply valid_translation.
  - destruct IHbuilt as (? & ? & _). by apply valid_translation.
  - apply valid_translation; simpl; [apply exp_rotation|done].
  - by apply valid_compose.
  - by apply valid_inverse.
  - by apply valid_relative.
  - by apply valid_similarity.
Qed.

(** The group laws *)
Lemma compose_assoc p q r : valid p -> valid q -> valid r -> compose p (compose q r) = compose (compose p q) r.
Proof.
  intros Hp Hq Hr. apply valid_ext; try (repeat apply valid_compose; assumption); simpl; [apply mmul_assoc|].
  rewrite mvec_add, mvec_mmul. symmetry. apply vadd_assoc.
Qed.
Lemma compose_0_l p : valid p -> compose pose0 p = p.
Proof.
  intros Hp. apply valid_ext; [apply valid_compose; [apply valid_pose0|done]|done| |]; simpl; [apply mmul_I_l|].
  by rewrite mvec_I, vadd_0_r.
Qed.
Lemma compose_0_r p : valid p -> compose p pose0 = p.
Proof.
  intros Hp. apply valid_ext; [apply valid_compose; [done|apply valid_pose0]|done| |]; simpl; [apply mmul_I_r|].
  by rewrite mvec_0, vadd_0_l.
Qed.
Lemma compose_inverse_r p : valid p -> compose p (inverse p) = pose0.
Proof.
  intros Hp. apply valid_ext; [by apply valid_compose, valid_inverse|apply valid_pose0| |]; destruct Hp as (H & H1 & H2); simpl.
  - rewrite H1. by apply rotation_r.
  - by rewrite H2, mvec_opp, <- mvec_mmul, (rotation_r _ H), mvec_I, vopp_add.
Qed.
Lemma compose_inverse_l p : valid p -> compose (inverse p) p = pose0.
Proof.
  intros Hp. apply valid_ext; [apply valid_compose; [by apply valid_inverse|done]|apply valid_pose0| |]; destruct Hp as (H & H1 & H2); simpl.
  - rewrite H1. by apply rotation_l.
  - by rewrite H2, H1, vadd_opp.
Qed.
Lemma inverse_inverse p : valid p -> inverse (inverse p) = p.
Proof.
  intros Hp. rewrite <- (compose_0_r (inverse (inverse p))) by (by apply valid_inverse, valid_inverse).
  rewrite <- (compose_inverse_l p Hp), compose_assoc; [|by apply valid_inverse, valid_inverse|by apply valid_inverse|done].
  rewrite compose_inverse_l by (by apply valid_inverse). by apply compose_0_l.
Qed.
Lemma cancel_l p q : valid p -> valid q -> compose (inverse p) (compose p q) = q.
Proof. intros Hp Hq. rewrite compose_assoc, compose_inverse_l, compose_0_l by (try done; by apply valid_inverse). done. Qed.
Lemma cancel_l' p q : valid p -> valid q -> compose p (compose (inverse p) q) = q.
Proof. intros Hp Hq. rewrite compose_assoc, compose_inverse_r, compose_0_l by (try done; by apply valid_inverse). done. Qed.
Lemma relative_compose p q : valid p -> valid q -> relative_to p q = compose p (inverse q).
Proof. done. Qed.
Lemma transform_compose p q x : transform (compose p q) x = transform p (transform q x).
Proof. unfold transform; simpl. rewrite mvec_mmul, mvec_add. apply vadd_assoc. Qed.
Lemma transform_cancel p x : valid p -> transform_inverse p (transform p x) = x.
Proof.
  intros (H & H1 & H2). unfold transform, transform_inverse. rewrite H1, H2, mvec_add, <- mvec_mmul, (rotation_l _ H), mvec_I.
  by rewrite <- vadd_assoc, vadd_opp, vadd_0_r.
Qed.
Lemma transform_cancel' p x : valid p -> transform p (transform_inverse p x) = x.
Proof.
  intros (H & H1 & H2). unfold transform, transform_inverse. rewrite H1, H2, mvec_add, mvec_opp, <- !mvec_mmul, (rotation_r _ H), !mvec_I.
  by rewrite <- vadd_assoc, vopp_add, vadd_0_r.
Qed.
Lemma transform_inverse_inverse p x : transform (inverse p) x = transform_inverse p x.
Proof. done. Qed.
Lemma vsub_add u v : vsub u v = vadd u (vopp v).
Proof. vring. Qed.
Lemma transform_isometry p x y : valid p -> norm (vsub (transform p x) (transform p y)) = norm (vsub x y).
Proof.
  intros (H & _). unfold norm. f_equal.
  replace (vsub (transform p x) (transform p y)) with (mvec (w_rot p) (vsub x y)).
  - by apply dot_mvec.
  - unfold transform. destruct p as [A t B u]; simpl. clear H. destruct A, t, x, y. unfold vsub, vadd, mvec; simpl. f_equal; ring.
Qed.

(** the origin *)
Lemma set_origin_spec p o : valid p ->
  get_origin (set_origin p o) = o /\ w_rot (set_origin p o) = w_rot p /\ transform (set_origin p o) o = v0.
Proof.
  intros (H & _ & _). unfold set_origin, set_translation, get_origin, transform, inv_tr; simpl.
  rewrite (rotation_inv _ H), mvec_opp, <- mvec_mmul, (rotation_l _ H), mvec_I. repeat split.
  - destruct o; unfold vopp; simpl; f_equal; ring.
  - apply vadd_opp.
Qed.
Lemma origin_zero p : valid p -> transform p (get_origin p) = v0.
Proof. intros Hp. rewrite <- (transform_cancel' p v0 Hp). unfold transform_inverse. by rewrite mvec_0, vadd_0_l. Qed.

(** the minimal representation *)
Lemma vopp_opp v : vopp (vopp v) = v. Proof. vring. Qed.
Lemma rotation_codec p : valid p -> vector_to_rotation (get_rotation p) = w_rot p.
Proof.
  intros (H & H1 & _). unfold get_rotation. rewrite exp_opp, H1. destruct (exp_log (mT (w_rot p))) as [-> _]; [by apply rotation_T|]. apply mT_T.
Qed.
Lemma pose_codec p : valid p -> pose_of_vector (get_rotation p) (get_translation p) = p.
Proof. intros Hp. unfold pose_of_vector. rewrite (rotation_codec p Hp). symmetry. by apply valid_eq. Qed.
Lemma rotation_bounded p : valid p -> norm (get_rotation p) <= PI.
Proof. intros (H & H1 & _). unfold get_rotation. rewrite norm_vopp, H1. by apply exp_log, rotation_T. Qed.
Lemma set_get_rotation p r : norm r < PI -> get_rotation (set_rotation p r) = r.
Proof.
  intros H. unfold get_rotation, set_rotation, set_rotation_matrix; simpl. rewrite <- exp_opp, log_exp by (by rewrite norm_vopp). apply vopp_opp.
Qed.
Lemma vector_get_rotation r t : norm r < PI -> get_rotation (pose_of_vector r t) = r.
Proof.
  intros H. unfold get_rotation, pose_of_vector, from_world_to_cam, inv_rot; simpl. rewrite (rotation_inv _ (exp_rotation r)), <- exp_opp, log_exp by (by rewrite norm_vopp).
  apply vopp_opp.
Qed.
Lemma pickle_id p : valid p -> unpickle (pickle p) = p.
Proof.
  intros (H & H1 & H2). unfold unpickle, pickle, from_cam_to_world, inv_rot, inv_tr; simpl. destruct p as [A t B u]; simpl in *. subst B u.
  rewrite (rotation_inv _ (rotation_T _ H)), mT_T, mvec_opp, <- mvec_mmul, (rotation_r _ H), mvec_I, vopp_opp. done.
Qed.

(** rigs *)
Lemma is_identity_0 : is_identity pose0 = true.
Proof.
  unfold is_identity. assert (E1 : get_origin pose0 = v0).
  { unfold get_origin, pose0, from_world_to_cam, inv_tr; simpl. rewrite mvec_0. unfold vopp, v0; simpl. f_equal; ring. }
  assert (E2 : get_rotation pose0 = v0).
  { unfold get_rotation, pose0, from_world_to_cam, inv_rot; simpl. rewrite (rotation_inv _ rotation_I), mT_I, <- exp_zero, log_exp.
    - unfold vopp, v0; simpl; f_equal; ring.
    - rewrite norm_v0. apply PI_RGT_0. }
  rewrite E1, E2, norm_v0. destruct (Rlt_dec 0 (/ 10 ^ 15)) as [_|n]; [done|]. exfalso. apply n. apply Rinv_0_lt_compat, pow_lt. lra.
Qed.

(** similarities *)
Lemma vscale_inv s v : s <> 0 -> vscale (1 / s) (vscale s v) = v.
Proof. intros H. rewrite vscale_vscale. replace (1 / s * s) with 1 by (field; done). apply vscale_1. Qed.
Lemma mvec_mscale s m v : mvec (mscale s m) v = vscale s (mvec m v).
Proof. vring. Qed.
Lemma sim_inverse_transform a x : valid (sim_pose a) -> sim_scale a <> 0 -> sim_transform (sim_inverse a) (sim_transform a x) = x.
Proof.
  intros (H & H1 & H2) Hs. unfold sim_inverse, sim_transform, similarity_of_vector, pose_of_vector, sim_rotation_matrix, sim_translation, from_world_to_cam; simpl.
  unfold rotation_cam_to_world_min. rewrite H1. destruct (exp_log (mT (w_rot (sim_pose a)))) as [-> _]; [by apply rotation_T|].
  unfold get_origin. rewrite H2. rewrite !mvec_mscale, mvec_add, mvec_scale, <- mvec_mmul, (rotation_l _ H), mvec_I, vscale_add, (vscale_inv _ _ Hs).
  by rewrite <- vadd_assoc, <- vscale_add, vadd_opp, <- (vadd_0_r (vscale _ v0)), vadd_0_r; unfold vscale, v0, vadd; destruct x; simpl; f_equal; ring.
Qed.
Lemma sim_transform_inverse a x : valid (sim_pose a) -> sim_scale a <> 0 -> sim_transform a (sim_transform (sim_inverse a) x) = x.
Proof.
  intros (H & H1 & H2) Hs. unfold sim_inverse, sim_transform, similarity_of_vector, pose_of_vector, sim_rotation_matrix, sim_translation, from_world_to_cam; simpl.
  unfold rotation_cam_to_world_min. rewrite H1. destruct (exp_log (mT (w_rot (sim_pose a)))) as [-> _]; [by apply rotation_T|].
  unfold get_origin. rewrite H2. rewrite !mvec_mscale, mvec_add, !mvec_scale, mvec_opp, <- !mvec_mmul, (rotation_r _ H), !mvec_I.
  rewrite vscale_add, !vscale_vscale. replace (sim_scale a * (1 / sim_scale a)) with 1 by (field; done). rewrite !vscale_1.
  by rewrite <- vadd_assoc, vopp_add, vadd_0_r.
Qed.

Lemma similarity_camera p s A b x : valid p -> rotation A ->
  transform (apply_similarity_pose p s A b) (apply_similarity_point x s A b) = vscale s (transform p x).
Proof.
  intros (H & _) HA. unfold transform, apply_similarity_pose, apply_similarity_point; simpl.
  rewrite mvec_add, mvec_scale, !mvec_mmul, <- (mvec_mmul (mT A) A), (rotation_l _ HA), mvec_I, vscale_add, <- !mvec_mmul.
  rewrite <- (vadd_assoc (vscale _ _)), (vadd_assoc (mvec _ b)), vadd_opp, vadd_0_l. done.
Qed.
Lemma similarity_compose rc p s A b : valid rc -> valid p -> rotation A ->
  compose (apply_similarity_pose rc s mI v0) (apply_similarity_pose p s A b) = apply_similarity_pose (compose rc p) s A b.
Proof.
  intros Hrc Hp HA. apply valid_ext.
  - apply valid_compose; apply valid_similarity; try done. apply rotation_I.
  - apply valid_similarity; [by apply valid_compose|done].
  - simpl. by rewrite mT_I, mmul_I_r, mmul_assoc.
  - simpl. rewrite mT_I, mmul_I_r, mvec_0. destruct rc as [A1 t1 ? ?], p as [A2 t2 ? ?]; simpl. clear.
    rewrite !mvec_add, !mvec_scale, mvec_opp, !mvec_mmul, vscale_add.
    generalize (vscale s (mvec A1 t2)), (vscale s t1), (mvec A1 (mvec A2 (mvec (mT A) b))). intros u v w.
    destruct u, v, w; unfold vopp, v0, vadd; simpl; f_equal; ring.
Qed.
Lemma similarity_origin p s A b : valid p -> rotation A ->
  get_origin (apply_similarity_pose p s A b) = apply_similarity_point (get_origin p) s A b.
Proof.
  intros Hp HA.
  assert (V : valid (apply_similarity_pose p s A b)) by (by apply valid_similarity).
  rewrite <- (transform_cancel _ (apply_similarity_point (get_origin p) s A b) V), (similarity_camera _ _ _ _ _ Hp HA), (origin_zero _ Hp).
  unfold transform_inverse, get_origin. replace (vscale s v0) with v0 by (unfold vscale, v0; simpl; f_equal; ring). by rewrite mvec_0, vadd_0_l.
Qed.
