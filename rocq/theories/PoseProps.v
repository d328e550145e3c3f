(** C11-C14, C41: poses, rotation vectors, similarities, rigs. All statements are about exact real arithmetic. *)
From Coq Require Import Reals Lra.
From stdpp Require Import prelude gmap strings.
From Verif Require Import Base Lin RotModel RotProofs TracksModel MapModel MapSpec MapProofs MapProps MapCopyProps PoseModel PoseSpec PoseProofs PoseMapProofs.
Local Open Scope R_scope.

(** C41. Rotation vectors. Every vector gives a rotation; the vector read from a rotation gives that rotation back and is
    never longer than pi; a vector shorter than pi is read back unchanged. *)
Theorem C41_rotation_vector :
  (forall r, rotation (vector_to_rotation r)) /\
  (forall Rm, rotation Rm -> vector_to_rotation (rotation_to_vector Rm) = Rm /\ norm (rotation_to_vector Rm) <= PI) /\
  (forall r, norm r < PI -> rotation_to_vector (vector_to_rotation r) = r) /\
  (forall r, vector_to_rotation (vopp r) = mT (vector_to_rotation r)) /\
  vector_to_rotation v0 = mI.
Proof. split_and!; [apply exp_rotation|apply exp_log|apply log_exp|apply exp_opp|apply exp_zero]. Qed.
(** The rotation has the vector as its axis: it fixes it. *)
Theorem C41_axis_fixed : forall r, mvec (vector_to_rotation r) r = r.
Proof.
  intros r. unfold vector_to_rotation. destruct (Req_EM_T (norm r) 0) as [E|E].
  - assert (r = v0) as ->.
    { destruct r as [x y z]. unfold norm, dot in E; simpl in E. apply sqrt_eq_0 in E; [|nra].
      assert (x = 0) by nra. assert (y = 0) by nra. assert (z = 0) by nra. subst. done. }
    by rewrite mvec_0.
  - pose proof (unit_axis r E) as Hu. set (n := norm r) in *. set (u := vscale (/ n) r) in *.
    assert (r = vscale n u) as Er. { unfold u. rewrite vscale_vscale. rewrite Rinv_r by done. by rewrite vscale_1. }
    transitivity (mvec (angle_axis_matrix n u) (vscale n u)); [by rewrite <- Er|]. rewrite mvec_scale, Er. f_equal. clearbody u n. clear E Er r. destruct u as [x y z].
    unfold angle_axis_matrix, mvec, dot in *; simpl in *. generalize (cos n), (sin n). intros c s. f_equal.
    + transitivity (x * ((1 - c) * (x * x + y * y + z * z) + c)); [ring|rewrite Hu; ring].
    + transitivity (y * ((1 - c) * (x * x + y * y + z * z) + c)); [ring|rewrite Hu; ring].
    + transitivity (z * ((1 - c) * (x * x + y * y + z * z) + c)); [ring|rewrite Hu; ring].
Qed.

(** C12. The poses a program can build form the group of rigid motions. *)
Theorem C12_group : forall p q r, built p -> built q -> built r ->
  compose p (compose q r) = compose (compose p q) r /\
  compose pose0 p = p /\ compose p pose0 = p /\
  compose p (inverse p) = pose0 /\ compose (inverse p) p = pose0 /\
  inverse (inverse p) = p /\
  relative_to p q = compose p (inverse q) /\
  inverse (compose p q) = compose (inverse q) (inverse p).
Proof.
  intros p q r Hp%built_valid Hq%built_valid Hr%built_valid. split_and!.
  - by apply compose_assoc.
  - by apply compose_0_l.
  - by apply compose_0_r.
  - by apply compose_inverse_r.
  - by apply compose_inverse_l.
  - by apply inverse_inverse.
  - by apply relative_compose.
  - assert (valid (inverse p)) by (by apply valid_inverse). assert (valid (inverse q)) by (by apply valid_inverse).
    assert (valid (compose p q)) by (by apply valid_compose). assert (valid (inverse (compose p q))) by (by apply valid_inverse).
    rewrite <- (compose_0_r (inverse (compose p q))) by done.
    assert (compose (compose p q) (compose (inverse q) (inverse p)) = pose0) as <-.
    { rewrite compose_assoc, <- (compose_assoc p), compose_inverse_r, compose_0_r, compose_inverse_r by (try done; by apply valid_compose). done. }
    rewrite compose_assoc, compose_inverse_l, compose_0_l by (try done; by apply valid_compose). done.
Qed.
(** They act on points: composition is composition of the motions, the two transforms cancel, distances are kept, the
    camera centre goes to zero. *)
Theorem C12_action : forall p q x y, built p -> built q ->
  transform (compose p q) x = transform p (transform q x) /\
  transform pose0 x = x /\
  transform_inverse p (transform p x) = x /\ transform p (transform_inverse p x) = x /\
  transform (inverse p) x = transform_inverse p x /\
  norm (vsub (transform p x) (transform p y)) = norm (vsub x y) /\
  transform p (get_origin p) = v0.
Proof.
  intros p q x y Hp%built_valid Hq%built_valid. split_and!.
  - apply transform_compose.
  - unfold transform, pose0; simpl. by rewrite mvec_I, vadd_0_r.
  - by apply transform_cancel.
  - by apply transform_cancel'.
  - done.
  - by apply transform_isometry.
  - by apply origin_zero.
Qed.
(** The setters and getters: the origin, the translation, the rotation vector; pickling. *)
Theorem C12_accessors : forall p o t, built p ->
  get_origin (set_origin p o) = o /\ w_rot (set_origin p o) = w_rot p /\
  get_translation (set_translation p t) = t /\ w_rot (set_translation p t) = w_rot p /\
  pose_of_vector (get_rotation p) (get_translation p) = p /\
  norm (get_rotation p) <= PI /\
  (forall r, norm r < PI -> get_rotation (pose_of_vector r t) = r /\ get_rotation (set_rotation p r) = r) /\
  unpickle (pickle p) = p.
Proof.
  intros p o t Hp%built_valid. destruct (set_origin_spec p o Hp) as (H1 & H2 & H3). split_and!; try done.
  - by apply pose_codec.
  - by apply rotation_bounded.
  - intros r Hr. split; [by apply vector_get_rotation|by apply set_get_rotation].
  - by apply pickle_id.
Qed.
(** Assigning only the rotation of a pose leaves a stale origin: the setter does not recompute the translation of
    cam_to_world (pose.h:97-101), so get_origin and transform_inverse no longer describe the same motion as transform. *)
Theorem C12_set_rotation_origin_refuted : exists p r, built p /\
  transform (set_rotation p r) (get_origin (set_rotation p r)) <> v0 /\
  transform_inverse (set_rotation p r) (transform (set_rotation p r) v0) <> v0.
Proof.
  set (Rm := Mat (-1) 0 0 0 (-1) 0 0 0 1).
  assert (rotation Rm) as HR. { split; [unfold mmul, mT, Rm, mI; simpl; f_equal; ring|unfold det, Rm; simpl; ring]. }
  exists (pose_of_matrix mI (Vec 1 0 0)), (rotation_to_vector Rm). split; [constructor; apply rotation_I|].
  unfold set_rotation. destruct (exp_log Rm HR) as [-> _].
  unfold set_rotation_matrix, pose_of_matrix, from_world_to_cam, get_origin, transform, transform_inverse, inv_tr, inv_rot; simpl.
  rewrite (rotation_inv _ rotation_I), mT_I, mvec_I. unfold Rm, mvec, vopp, vadd, mT, v0; simpl.
  split; intros [= E _ _]; lra.
Qed.
Example C12_example : built (set_origin (compose (pose_of_vector (Vec 1 2 3) (Vec 4 5 6)) (inverse (pose_of_vector (Vec 0 1 0) v0))) (Vec 7 8 9)).
Proof. apply built_origin, built_compose; [apply built_vector|apply built_inverse, built_vector]. Qed.

(** C13. The inverse of a similarity undoes it on both sides; the two implementations of the inverse agree. *)
Theorem C13_inverse : forall Rm t s x, rotation Rm -> s <> 0 ->
  let a := similarity_of_matrix Rm t s in
  sim_transform a x = vadd (vscale s (mvec Rm x)) t /\
  sim_transform (sim_inverse a) (sim_transform a x) = x /\
  sim_transform a (sim_transform (sim_inverse a) x) = x.
Proof.
  intros Rm t s x HR Hs a. split_and!.
  - unfold sim_transform; simpl. by rewrite mvec_mscale.
  - apply sim_inverse_transform; [by apply from_w2c_valid|done].
  - apply sim_transform_inverse; [by apply from_w2c_valid|done].
Qed.
Theorem C13_python_agrees : forall Rm t s, rotation Rm -> s <> 0 ->
  let b := sim_inverse (similarity_of_matrix Rm t s) in
  invert_similarity s Rm t = (sim_scale b, sim_rotation_matrix b, sim_translation b).
Proof.
  intros Rm t s HR Hs b. unfold invert_similarity, b, sim_inverse, similarity_of_vector, sim_rotation_matrix, sim_translation, rotation_cam_to_world_min, pose_of_vector; simpl.
  unfold inv_rot. rewrite (rotation_inv Rm HR). destruct (exp_log (mT Rm)) as [-> _]; [by apply rotation_T|]. f_equal.
  unfold get_origin; simpl. unfold inv_tr. rewrite (rotation_inv _ HR). generalize (mvec (mT Rm) t). intros v. destruct v. unfold vscale, vopp; simpl. f_equal; ring.
Qed.
Theorem C13_vector : forall r t s x, s <> 0 ->
  let a := similarity_of_vector r t s in
  sim_transform (sim_inverse a) (sim_transform a x) = x /\ sim_transform a (sim_transform (sim_inverse a) x) = x.
Proof.
  intros r t s x Hs a. split; [apply sim_inverse_transform|apply sim_transform_inverse]; try done; apply from_w2c_valid, exp_rotation.
Qed.
(** The condition is needed: with scale 0 nothing is undone. *)
Theorem C13_zero_scale_refuted : exists x, sim_transform (sim_inverse (similarity_of_matrix mI v0 0)) (sim_transform (similarity_of_matrix mI v0 0) x) <> x.
Proof.
  exists (Vec 1 0 0). assert (forall y, sim_transform (similarity_of_matrix mI v0 0) y = v0) as ->.
  { intros y. unfold sim_transform; simpl. unfold sim_rotation_matrix, sim_translation; simpl. rewrite mvec_mscale. destruct y; unfold vscale, vadd, mvec, v0; simpl. f_equal; ring. }
  unfold sim_transform. rewrite mvec_0, vadd_0_l. unfold sim_translation; simpl. unfold get_origin; simpl. unfold inv_tr. rewrite mvec_0.
  unfold vopp, vscale, v0; simpl. intros [= E _ _]. revert E. rewrite Ropp_0, Rmult_0_r. lra.
Qed.
Example C13_example : rotation (vector_to_rotation (Vec 1 2 3)) /\ 2 <> 0.
Proof. split; [apply exp_rotation|lra]. Qed.

Section Map.
Context {C B D X O Rf : Type}.
Variable feature_of : O -> Z.
Variable bias0 : B. Variable data0 : D. Variable mesh0 : X.
Variable enumL : gmap string (landmark vec) -> list (string * landmark vec).
Variable enumF : gmap string (bool * Z) -> list (string * (bool * Z)).
Variable enumO : gmap string O -> list (string * O).
Hypothesis HL : enumerates enumL. Hypothesis HF : enumerates enumF. Hypothesis HO : enumerates enumO.
Notation map := (@map C B pose vec D X O Rf).
Notation exec := (map_exec feature_of bias0 pose0 data0 mesh0 compose inverse enumL enumF enumO).
Notation step := (map_step feature_of bias0 pose0 data0 mesh0 compose inverse enumL enumF enumO).
Implicit Types m : map.

(** Maps built by calls that obey the protocol of MapSpec.v and are given valid poses. *)
Inductive posed : map -> Prop :=
  | posed_empty : posed map_empty
  | posed_step m op : posed m -> allowed feature_of m op -> op_valid op -> posed (step m op).
Lemma posed_inv m : posed m -> inv feature_of m /\ poses_valid m.
Proof.
  intros Hm. split.
  - eapply (reachable_inv feature_of bias0 pose0 data0 mesh0 compose inverse enumL enumF enumO HL HF HO). induction Hm; [constructor|by constructor].
  - induction Hm; [by split; intros ?? ?|]. unfold map_step. destruct (exec m op) eqn:E; [|done]. by eapply poses_valid_exec.
Qed.

(** C11. The pose of every shot is its rig camera composed with its instance. The exception of the code, a shot alone in its
    instance whose rig camera is within 1e-15 of the identity, makes no difference for an identity rig camera. *)
Theorem C11_pose_is_composition : forall m k s, posed m -> m_shots m !! k = Some s ->
  exists i rc, m_instances m !! sh_instance s = Some i /\ m_rig_cameras m !! sh_rig_camera s = Some rc /\
    shot_pose compose m k = Some (compose rc (in_pose i)) /\
    (rc = pose0 \/ is_identity rc = false \/ size (in_members i) <> 1%nat -> get_pose m k = Some (compose rc (in_pose i))).
Proof.
  intros m k s Hm Hs. destruct (posed_inv m Hm) as [Hinv [V1 V2]].
  destruct (rig_shot _ (inv_rig _ _ Hinv) _ _ Hs) as (i & Hi & Hmem). destruct (rig_ptr _ (inv_rig _ _ Hinv) _ _ Hs) as [_ [rc Hrc]].
  exists i, rc. split; [done|]. split; [done|]. split; [by eapply shot_pose_eq|]. intros Hex. unfold get_pose. rewrite Hs. simpl. rewrite Hi; simpl. rewrite Hrc; simpl.
  f_equal. unfold shot_get_pose. destruct Hex as [->|[->|Hn]].
  - destruct (_ && _); [|done]. rewrite compose_0_l; [done|by eapply V2].
  - done.
  - destruct (Nat.eqb_spec (size (in_members i)) 1); [done|]. by rewrite andb_false_r.
Qed.
(** Creating a shot with a pose makes it read back that pose and moves the other shots of the instance rigidly: their
    poses relative to each other do not change; shots of other instances do not move. *)
Theorem C11_create_shot : forall m k cam rc inst p m', posed m -> allowed feature_of m (MShot k cam rc inst (Some p)) -> valid p ->
  exec m (MShot k cam rc inst (Some p)) = Ok m' ->
  shot_pose compose m' k = Some p /\
  (forall k1 k2 s1 s2 p1 p2, m_shots m !! k1 = Some s1 -> m_shots m !! k2 = Some s2 -> sh_instance s1 = inst -> sh_instance s2 = inst ->
     shot_pose compose m k1 = Some p1 -> shot_pose compose m k2 = Some p2 ->
     exists p1' p2', shot_pose compose m' k1 = Some p1' /\ shot_pose compose m' k2 = Some p2' /\ relative_to p1' p2' = relative_to p1 p2) /\
  (forall k1 s1, m_shots m !! k1 = Some s1 -> sh_instance s1 <> inst -> shot_pose compose m' k1 = shot_pose compose m k1).
Proof.
  intros m k cam rc inst p m' Hm Hal Hp. destruct (posed_inv m Hm) as [Hinv [V1 V2]]. simpl. unfold create_shot.
  destruct (m_shots m !! k) eqn:Ek; [done|]. destruct (m_cameras m !! cam); [|done]. destruct (m_instances m !! inst) as [i|] eqn:Ei; [|done].
  destruct (m_rig_cameras m !! rc) as [rp|] eqn:Er; [|done]. unfold instance_add_shot. destruct (decide _); [|done]. simpl.
  unfold instance_update_pose; simpl. rewrite lookup_insert. simpl. rewrite Er. simpl. intros [= <-]. split_and!.
  - unfold shot_pose; simpl. rewrite lookup_insert. simpl. rewrite lookup_insert. simpl. rewrite Er. simpl. f_equal. apply cancel_l'; [by eapply V1|done].
  - intros k1 k2 s1 s2 p1 p2 H1 H2 E1 E2. unfold shot_pose; simpl. rewrite !lookup_insert_ne by congruence. rewrite H1, H2. simpl. rewrite E1, E2, lookup_insert, Ei. simpl.
    destruct (m_rig_cameras m !! sh_rig_camera s1) as [r1|] eqn:F1; [|done]. destruct (m_rig_cameras m !! sh_rig_camera s2) as [r2|] eqn:F2; [|done]. simpl.
    intros [= <-] [= <-]. eexists _, _. split; [done|]. split; [done|]. assert (valid rp) by (by eapply V1). assert (valid (in_pose i)) by (by eapply V2).
    apply relative_rigid; [by eapply V1|by eapply V1| |done]. by apply valid_compose; [apply valid_inverse|].
  - intros k1 s1 H1 Hne. unfold shot_pose; simpl. rewrite !lookup_insert_ne by congruence. rewrite H1. simpl. by rewrite !lookup_insert_ne by congruence.
Qed.
(** The same for update_instance_pose_with_shot on an existing shot; it is refused when the shot is not in the instance. *)
Theorem C11_update_instance : forall m inst sid p, posed m -> valid p ->
  (forall e, update_instance_pose_with_shot m inst sid p = Err e <->
     (m_instances m !! inst = None /\ e = KeyError) \/ (exists i, m_instances m !! inst = Some i /\ in_members i !! sid = None /\ e = RuntimeError)) /\
  (forall m', update_instance_pose_with_shot m inst sid p = Ok m' ->
     (exists b s, m_shots m !! (b, sid) = Some s /\ sh_instance s = inst /\ shot_pose compose m' (b, sid) = Some p) /\
     (forall k1 k2 s1 s2 p1 p2, m_shots m !! k1 = Some s1 -> m_shots m !! k2 = Some s2 -> sh_instance s1 = inst -> sh_instance s2 = inst ->
        shot_pose compose m k1 = Some p1 -> shot_pose compose m k2 = Some p2 ->
        exists p1' p2', shot_pose compose m' k1 = Some p1' /\ shot_pose compose m' k2 = Some p2' /\ relative_to p1' p2' = relative_to p1 p2) /\
     (forall k1 s1, m_shots m !! k1 = Some s1 -> sh_instance s1 <> inst -> shot_pose compose m' k1 = shot_pose compose m k1)).
Proof.
  intros m inst sid p Hm Hp. destruct (posed_inv m Hm) as [Hinv [V1 V2]]. unfold update_instance_pose_with_shot, instance_update_pose.
  destruct (m_instances m !! inst) as [i|] eqn:Ei; simpl.
  2:{ split; [|done]. intros e. split; [intros [= <-]; by left|]. intros [[_ ->]|(i & ? & _)]; done. }
  destruct (in_members i !! sid) as [[b rc]|] eqn:Em; simpl.
  2:{ split; [|done]. intros e. split; [intros [= <-]; right; by eexists|]. intros [[? _]|(i' & [= <-] & _ & ->)]; done. }
  destruct (rig_inst _ (inv_rig _ _ Hinv) _ _ _ _ _ Ei Em) as (s & Hs & E1 & E2).
  destruct (rig_ptr _ (inv_rig _ _ Hinv) _ _ Hs) as [_ [rp Hrp]]. rewrite E2 in Hrp. rewrite Hrp. simpl. split.
  { intros e. split; [done|]. intros [[? _]|(i' & [= <-] & ? & ->)]; congruence. }
  intros m' [= <-]. split_and!.
  - exists b, s. split; [done|]. split; [done|]. unfold shot_pose; simpl. rewrite Hs; simpl. rewrite E1, lookup_insert. simpl. rewrite E2, Hrp. simpl. f_equal.
    apply cancel_l'; [by eapply V1|done].
  - intros k1 k2 s1 s2 p1 p2 H1 H2 F1 F2. unfold shot_pose; simpl. rewrite H1, H2. simpl. rewrite F1, F2, lookup_insert, Ei. simpl.
    destruct (m_rig_cameras m !! sh_rig_camera s1) as [r1|] eqn:G1; [|done]. destruct (m_rig_cameras m !! sh_rig_camera s2) as [r2|] eqn:G2; [|done]. simpl.
    intros [= <-] [= <-]. eexists _, _. split; [done|]. split; [done|]. assert (valid rp) by (by eapply V1). assert (valid (in_pose i)) by (by eapply V2).
    apply relative_rigid; [by eapply V1|by eapply V1| |done]. by apply valid_compose; [apply valid_inverse|].
  - intros k1 s1 H1 Hne. unfold shot_pose; simpl. rewrite H1. simpl. by rewrite lookup_insert_ne by congruence.
Qed.
(** Assigning the pose of a shot: allowed only for a shot alone in its instance whose rig camera is (within 1e-15) the
    identity; then the pose reads back, and nothing else moves. Otherwise it is refused (and there is no new map). *)
Theorem C11_set_pose : forall m k s p i rc, posed m -> valid p -> m_shots m !! k = Some s ->
  m_instances m !! sh_instance s = Some i -> m_rig_cameras m !! sh_rig_camera s = Some rc ->
  (set_pose m k p = Err RuntimeError <-> ~ (is_identity rc = true /\ size (in_members i) = 1%nat)) /\
  (forall m', set_pose m k p = Ok m' -> get_pose m' k = Some p /\ (forall k', k' <> k -> get_pose m' k' = get_pose m k') /\
      m' = set_instances m (<[sh_instance s := Instance p (in_members i)]> (m_instances m))).
Proof.
  intros m k s p i rc Hm Hp Hs Hi Hrc. destruct (posed_inv m Hm) as [Hinv _]. unfold set_pose. rewrite Hs. simpl. rewrite Hi; simpl. rewrite Hrc; simpl.
  unfold shot_set_pose. destruct (is_identity rc) eqn:Eid; simpl.
  2:{ split; [|done]. split; [intros _ [? _]; done|done]. }
  destruct (Nat.eqb_spec (size (in_members i)) 1) as [E|E]; simpl.
  2:{ split; [|done]. split; [by intros _ [_ ?]|done]. }
  split; [split; [done|intros H; by destruct H]|]. intros m' [= <-]. split_and!; [| |done].
  - unfold get_pose; simpl. rewrite Hs; simpl. rewrite lookup_insert; simpl. rewrite Hrc; simpl. unfold shot_get_pose. rewrite Eid, E. done.
  - intros k' Hne. unfold get_pose; simpl. destruct (m_shots m !! k') as [s'|] eqn:Hs'; [|done]. simpl.
    rewrite lookup_insert_ne; [done|]. intros Heq.
    destruct (rig_shot _ (inv_rig _ _ Hinv) _ _ Hs) as (i1 & Hi1 & M1). destruct (rig_shot _ (inv_rig _ _ Hinv) _ _ Hs') as (i2 & Hi2 & M2).
    rewrite <- Heq in Hi2. assert (i1 = i) as -> by congruence. assert (i2 = i) as -> by congruence. clear Hi1 Hi2.
    assert (k'.2 = k.2) as E2.
    { rewrite <- size_dom in E. eapply (size_singleton_inv (dom (in_members i))); [done|by apply elem_of_dom; eexists..]. }
    apply Hne. rewrite E2, M1 in M2. injection M2 as E1 _. destruct k, k'; simpl in *. congruence.
Qed.
(** In the exceptional case the code does not return the composition: a rig camera with an offset below 1e-15 is ignored. *)
Theorem C11_near_identity_refuted : exists rc p, valid rc /\ valid p /\ shot_get_pose rc p 1 <> compose rc p.
Proof.
  exists (pose_of_matrix mI (Vec (/ 10 ^ 16) 0 0)), pose0.
  assert (valid (pose_of_matrix mI (Vec (/ 10 ^ 16) 0 0))) as Hv by (apply from_w2c_valid, rotation_I).
  split; [done|]. split; [apply valid_pose0|]. rewrite (compose_0_r _ Hv). unfold shot_get_pose.
  assert (is_identity (pose_of_matrix mI (Vec (/ 10 ^ 16) 0 0)) = true) as ->.
  { unfold is_identity. assert (0 < / 10 ^ 16 < / 10 ^ 15) as [L1 L2].
    { split; [apply Rinv_0_lt_compat, pow_lt; lra|]. apply Rinv_lt_contravar; [|simpl; lra]. apply Rmult_lt_0_compat; apply pow_lt; lra. }
    assert (get_rotation (pose_of_matrix mI (Vec (/ 10 ^ 16) 0 0)) = v0) as ->.
    { unfold get_rotation, pose_of_matrix, from_world_to_cam, inv_rot; simpl. rewrite (rotation_inv _ rotation_I), mT_I, <- exp_zero, log_exp.
      - unfold vopp, v0; simpl; f_equal; ring.
      - rewrite norm_v0. apply PI_RGT_0. }
    assert (norm (get_origin (pose_of_matrix mI (Vec (/ 10 ^ 16) 0 0))) = / 10 ^ 16) as ->.
    { unfold get_origin, pose_of_matrix, from_world_to_cam, inv_tr. cbn [c_tr]. rewrite (rotation_inv _ rotation_I), mT_I, mvec_I, norm_vopp.
      unfold norm, dot. cbn [vx vy vz]. replace (/ 10 ^ 16 * / 10 ^ 16 + 0 * 0 + 0 * 0) with (/ 10 ^ 16 * / 10 ^ 16) by ring. apply sqrt_square. lra. }
    rewrite norm_v0. destruct (Rlt_dec _ _) as [_|n]; [|done]. destruct (Rlt_dec _ _) as [_|n]; [done|]. exfalso. apply n. lra. }
  cbn. intros [= E]. revert E. apply Rlt_not_eq, Rinv_0_lt_compat. lra.
Qed.

(** C14. *)
Theorem C14_points_and_cameras : forall m s A b, rotation A -> poses_valid m ->
  let m' := apply_similarity m s A b in
  poses_valid m' /\
  (* every point goes to s A x + b, with its color and its observations *)
  (forall id, m_landmarks m' !! id =
     (fun l => Landmark (vadd (vscale s (mvec A (lm_pos l))) b) (lm_color l) (lm_obs l)) <$> m_landmarks m !! id) /\
  (* every camera sees every point s times as far in the same direction, and its centre moves like a point *)
  (forall k p, shot_pose compose m k = Some p -> exists p', shot_pose compose m' k = Some p' /\
     (forall x, transform p' (vadd (vscale s (mvec A x)) b) = vscale s (transform p x)) /\
     get_origin p' = vadd (vscale s (mvec A (get_origin p))) b) /\
  (* nothing else changes *)
  m_shots m' = m_shots m /\ m_cameras m' = m_cameras m /\ m_bias m' = m_bias m /\ m_reference m' = m_reference m /\
  (forall id, in_members <$> m_instances m' !! id = in_members <$> m_instances m !! id) /\ dom (m_rig_cameras m') = dom (m_rig_cameras m).
Proof.
  intros m s A b HA Hv m'. split_and!; try done.
  - by apply apply_similarity_valid.
  - intros id. unfold m'; simpl. by rewrite lookup_fmap.
  - intros k p Hp. exists (apply_similarity_pose p s A b). unfold m'. rewrite (apply_similarity_pose_of m s A b k HA Hv), Hp. split; [done|].
    assert (valid p) as Hvp.
    { unfold shot_pose in Hp. destruct (m_shots m !! k) as [x|]; [|done]. simpl in Hp. destruct (m_instances m !! sh_instance x) as [i|] eqn:Ei; [|done]. simpl in Hp.
      destruct (m_rig_cameras m !! sh_rig_camera x) as [rc|] eqn:Er; [|done]. injection Hp as <-. destruct Hv as [V1 V2]. apply valid_compose; [by eapply V1|by eapply V2]. }
    split; [intros x; by apply similarity_camera|]. by apply similarity_origin.
  - intros id. unfold m'; simpl. rewrite lookup_fmap. by destruct (m_instances m !! id).
  - unfold m'; simpl. by rewrite dom_fmap_L.
Qed.
(** Projections that only depend on the viewing direction, hence reprojection errors, are unchanged. *)
Theorem C14_projections_unchanged : forall (T : Type) (project : vec -> T) m s A b k p id l, directional project ->
  0 < s -> rotation A -> poses_valid m -> shot_pose compose m k = Some p -> m_landmarks m !! id = Some l ->
  exists p' l', shot_pose compose (apply_similarity m s A b) k = Some p' /\ m_landmarks (apply_similarity m s A b) !! id = Some l' /\
    lm_obs l' = lm_obs l /\ project (transform p' (lm_pos l')) = project (transform p (lm_pos l)).
Proof.
  intros T project m s A b k p id l Hd Hs HA Hv Hp Hl. destruct (C14_points_and_cameras m s A b HA Hv) as (_ & HX & HY & _).
  destruct (HY k p Hp) as (p' & Hp' & Htr & _). exists p'. eexists. split; [done|]. split; [by rewrite HX, Hl|]. split; [done|]. simpl. by rewrite Htr, Hd.
Qed.
(** Applying the inverse similarity of large/tools.py afterwards restores the reconstruction. *)
Theorem C14_undo : forall m s A b, rotation A -> s <> 0 -> poses_valid m ->
  let '(s', A', b') := invert_similarity s A b in apply_similarity (apply_similarity m s A b) s' A' b' = m.
Proof.
  intros m s A b HA Hs [V1 V2]. unfold invert_similarity. unfold apply_similarity. destruct m as [c bi rcs ins sh lms ref]. cbn in *. unfold set_rig_cameras, set_instances, set_landmarks; cbn. f_equal.
  - apply map_eq. intros id. rewrite !lookup_fmap. destruct (rcs !! id) eqn:E; [|done]. cbn. f_equal. apply similarity_pose_undo_rc; [by eapply V1|done].
  - apply map_eq. intros id. rewrite !lookup_fmap. destruct (ins !! id) as [i|] eqn:E; [|done]. cbn. destruct i as [q mem]. f_equal. f_equal.
    apply (similarity_pose_undo q s A b); [exact (V2 _ _ E)|done..].
  - apply map_eq. intros id. rewrite !lookup_fmap. destruct (lms !! id) as [[x co ob]|] eqn:E; [|done]. cbn. f_equal. f_equal. by apply (similarity_point_undo x s A b).
Qed.
End Map.
(** The perspective projection is directional; so is the bearing. *)
Example C14_perspective : directional (fun v => (vx v / vz v, vy v / vz v)).
Proof.
  intros s v Hs. destruct v as [x y z]; simpl. destruct (Req_dec z 0) as [->|Hz].
  - rewrite Rmult_0_r. unfold Rdiv. rewrite Rinv_0. f_equal; ring.
  - f_equal; field; lra.
Qed.
Example C14_bearing : directional (fun v => vscale (/ norm v) v).
Proof.
  intros s v Hs. rewrite norm_vscale, (Rabs_right s) by lra. rewrite vscale_vscale. f_equal.
  destruct (Req_dec (norm v) 0) as [->|Hz]; [rewrite Rmult_0_r, Rinv_0; ring|field; lra].
Qed.

(** The valid poses as a type satisfy unconditionally the law that C34 assumes of poses. *)
Theorem C12_rigid_laws : forall p q : rigid,
  rigid_pose rigid0 = pose0 /\ rigid_pose (rigid_compose p q) = compose (rigid_pose p) (rigid_pose q) /\ rigid_pose (rigid_inverse p) = inverse (rigid_pose p) /\
  rigid_compose (rigid_inverse p) (rigid_compose p q) = q /\ rigid_compose p (rigid_compose (rigid_inverse p) q) = q /\ rigid_compose rigid0 p = p.
Proof. intros p q. split_and!; try done; [apply rigid_cancel|apply rigid_cancel'|apply rigid_0_l]. Qed.

(** A map that meets the hypotheses: one camera, a rig camera off its instance's centre, two shots in one instance. *)
Definition ex_rc := pose_of_vector (Vec 0 0 1) (Vec 1 0 0).
Definition ex_p := pose_of_vector (Vec 1 2 3) (Vec 4 5 6).
Section Example.
Context {P V : Type} (pose0 rc p : P) (pc : P -> P -> P) (pi : P -> P).
Definition ex_ops : list (@map_op unit unit P V unit unit Z unit) :=
  [MCamera "cam" tt; MRigCamera "front" rc; MRigCamera "rear" pose0; MInstance "i";
   MShot (false, "a") "cam" "front" "i" None; MShot (false, "b") "cam" "rear" "i" (Some p)].
Definition ex_run (n : nat) := foldl (map_step (fun o : Z => o) tt pose0 tt tt pc pi map_to_list map_to_list map_to_list) map_empty (take n ex_ops).
Lemma ex_run_spec :
  m_instances (ex_run 4) !! "i" = Some (Instance pose0 ∅) /\ (in_members <$> m_instances (ex_run 5) !! "i") = Some {["a" := (false, "front")]} /\ shot_pose pc (ex_run 6) (false, "b") = Some (pc pose0 (pc (pi pose0) p)) /\ shot_pose pc (ex_run 6) (false, "a") = Some (pc rc (pc (pi pose0) p)).
Proof. split_and!; vm_compute; reflexivity. Qed.
End Example.
Example C11_example : exists m : @map unit unit pose vec unit unit Z unit,
  posed (fun o : Z => o) tt tt tt map_to_list map_to_list map_to_list m /\ shot_pose compose m (false, "b") = Some ex_p /\ shot_pose compose m (false, "a") = Some (compose ex_rc ex_p).
Proof.
  assert (valid ex_rc) as H1 by (apply from_w2c_valid, exp_rotation). assert (valid ex_p) as H2 by (apply from_w2c_valid, exp_rotation).
  pose proof valid_pose0 as H3. pose proof (@ex_run_spec pose vec pose0 ex_rc ex_p compose inverse) as (E1 & E2 & E3 & E4).
  rewrite cancel_l' in E3 by done. assert (compose (inverse pose0) ex_p = ex_p) as E.
  { rewrite <- (compose_0_l ex_p H2) at 1. by apply cancel_l. }
  rewrite E in E4. eexists (ex_run pose0 ex_rc ex_p compose inverse 6). split; [|split; [exact E3|exact E4]].
  assert (posed (fun o : Z => o) tt tt tt map_to_list map_to_list map_to_list (ex_run (V:=vec) pose0 ex_rc ex_p compose inverse 4)) as P4.
  { unfold ex_run. cbn [foldl take ex_ops]. do 4 (apply posed_step; [|exact I|try exact I; done]). apply posed_empty. }
  apply (posed_step _ _ _ _ _ _ _ (ex_run pose0 ex_rc ex_p compose inverse 5)); [|simpl|done].
  - apply (posed_step _ _ _ _ _ _ _ (ex_run pose0 ex_rc ex_p compose inverse 4)); [done|simpl|done].
    intros i Hi. rewrite E1 in Hi. by injection Hi as <-.
  - intros i Hi. rewrite Hi in E2. simpl in E2. injection E2 as ->. by rewrite lookup_singleton_ne.
Qed.
Print Assumptions C41_rotation_vector.
Print Assumptions C41_axis_fixed.
Print Assumptions C12_group.
Print Assumptions C12_action.
Print Assumptions C12_accessors.
Print Assumptions C12_set_rotation_origin_refuted.
Print Assumptions C12_rigid_laws.
Print Assumptions C13_inverse.
Print Assumptions C13_python_agrees.
Print Assumptions C13_vector.
Print Assumptions C11_pose_is_composition.
Print Assumptions C11_create_shot.
Print Assumptions C11_update_instance.
Print Assumptions C11_set_pose.
Print Assumptions C11_near_identity_refuted.
Print Assumptions C14_points_and_cameras.
Print Assumptions C14_projections_unchanged.
Print Assumptions C14_undo.
