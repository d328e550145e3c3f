From Coq Require Import Reals Lra.
From stdpp Require Import prelude gmap strings.
From Verif Require Import Base Lin RotModel RotProofs TracksModel MapModel MapSpec PoseModel PoseSpec PoseProofs.
Local Open Scope R_scope.

(** Valid poses as a type: the poses for which the laws assumed of abstract poses hold unconditionally. *)
Global Instance R_eq_dec : EqDecision R. Proof. intros x y. destruct (Req_EM_T x y); [by left|by right]. Defined.
Global Instance vec_eq_dec : EqDecision vec. Proof. solve_decision. Defined.
Global Instance mat_eq_dec : EqDecision mat. Proof. solve_decision. Defined.
Global Instance rotation_dec m : Decision (rotation m). Proof. unfold rotation. apply _. Defined.
Global Instance valid_dec p : Decision (valid p). Proof. unfold valid. apply _. Defined.
Definition rigid : Type := dsig valid.
Definition rigid_pose (p : rigid) : pose := `p.
Definition rigid0 : rigid := dexist pose0 valid_pose0.
Definition rigid_compose (p q : rigid) : rigid := dexist (compose (`p) (`q)) (valid_compose _ _ (proj2_dsig p) (proj2_dsig q)).
Definition rigid_inverse (p : rigid) : rigid := dexist (inverse (`p)) (valid_inverse _ (proj2_dsig p)).
Lemma rigid_cancel p q : rigid_compose (rigid_inverse p) (rigid_compose p q) = q.
Proof. apply dsig_eq. simpl. apply cancel_l; apply proj2_dsig. Qed.
Lemma rigid_cancel' p q : rigid_compose p (rigid_compose (rigid_inverse p) q) = q.
Proof. apply dsig_eq. simpl. apply cancel_l'; apply proj2_dsig. Qed.
Lemma rigid_0_l p : rigid_compose rigid0 p = p.
Proof. apply dsig_eq. simpl. apply compose_0_l, proj2_dsig. Qed.

(** Undoing a similarity on poses *)
Lemma similarity_pose_undo p s A b : valid p -> rotation A -> s <> 0 ->
  let '(s', A', b') := invert_similarity s A b in apply_similarity_pose (apply_similarity_pose p s A b) s' A' b' = p.
Proof.
  intros Hp HA Hs. simpl. assert (rotation (mT A)) by (by apply rotation_T).
  apply valid_ext; [by apply valid_similarity; [apply valid_similarity|]|done| |]; simpl; rewrite mT_T.
  - by rewrite <- mmul_assoc, (rotation_l _ HA), mmul_I_r.
  - rewrite <- mmul_assoc, (rotation_l _ HA), mmul_I_r, mvec_scale.
    rewrite vscale_add, (vscale_inv _ _ Hs), !mvec_mmul.
    generalize (mvec (w_rot p) (mvec (mT A) b)). intros u. destruct p as [? t ? ?]; simpl. destruct u, t. unfold vadd, vopp, vscale; simpl. f_equal; lra.
Qed.
Lemma similarity_point_undo x s A b : rotation A -> s <> 0 ->
  let '(s', A', b') := invert_similarity s A b in apply_similarity_point (apply_similarity_point x s A b) s' A' b' = x.
Proof.
  intros HA Hs. simpl. unfold apply_similarity_point.
  rewrite mvec_add, mvec_scale, <- mvec_mmul, (rotation_l _ HA), mvec_I, vscale_add, (vscale_inv _ _ Hs).
  generalize (mvec (mT A) b). intros u. destruct u, x. unfold vadd, vopp, vscale; simpl. f_equal; lra.
Qed.
Lemma similarity_pose_undo_rc p s : valid p -> s <> 0 ->
  apply_similarity_pose (apply_similarity_pose p s mI v0) (1 / s) mI v0 = p.
Proof.
  intros Hp Hs. pose proof (similarity_pose_undo p s mI v0 Hp rotation_I Hs) as H. simpl in H. rewrite mT_I, mvec_0 in H.
  by replace (vscale (- (1 / s)) v0) with v0 in H by (unfold vscale, v0; simpl; f_equal; ring).
Qed.

Section Map.
Context {C B D X O Rf : Type}.
Variable feature_of : O -> Z.
Variable bias0 : B. Variable data0 : D. Variable mesh0 : X.
Variable enumL : gmap string (landmark vec) -> list (string * landmark vec).
Variable enumF : gmap string (bool * Z) -> list (string * (bool * Z)).
Variable enumO : gmap string O -> list (string * O).
Notation map := (@map C B pose vec D X O Rf).
Notation exec := (map_exec feature_of bias0 pose0 data0 mesh0 compose inverse enumL enumF enumO).
Implicit Types m : map.

Lemma instance_update_valid (rcs : gmap string pose) (i i' : instance pose) sid p :
  (forall id q, rcs !! id = Some q -> valid q) -> valid p -> instance_update_pose compose inverse rcs i sid p = Ok i' -> valid (in_pose i').
Proof.
  intros Hrc Hp. unfold instance_update_pose. destruct (in_members i !! sid) as [[b rc]|]; [|done].
  destruct (rcs !! rc) as [q|] eqn:E; [|done]. simpl. intros [= <-]. simpl. apply valid_compose; [apply valid_inverse|done]. by eapply Hrc.
Qed.
Lemma clean_frame n (es : list (string * landmark vec)) : forall m m', clean_loop enumF n m es = Ok m' ->
  m_rig_cameras m' = m_rig_cameras m /\ m_instances m' = m_instances m.
Proof.
  induction es as [|[id l] es IH]; intros m m'; simpl; [by intros [= <-]|]. destruct (decide _); [|apply IH].
  destruct (drop_obs _ _) as [sh|]; [|done]. simpl. intros H. by apply IH in H.
Qed.
Lemma poses_valid_exec m op m' : poses_valid m -> op_valid op -> exec m op = Ok m' -> poses_valid m'.
Proof.
  intros [H1 H2] Hop. destruct op; simpl in *.
  - intros [= <-]. done.
  - unfold create_rig_camera. destruct (m_rig_cameras m !! id); [done|]. intros [= <-]. split; [|done]. simpl. intros id' q.
    rewrite lookup_insert_Some. intros [[_ <-]|[_ ?]]; [done|by eapply H1].
  - unfold create_instance. destruct (m_instances m !! id); [done|]. intros [= <-]. split; [done|]. simpl. intros id' i.
    rewrite lookup_insert_Some. intros [[_ <-]|[_ ?]]; [apply valid_pose0|by eapply H2].
  - unfold remove_instance. destruct (m_instances m !! id); [|done]. intros [= <-]. split; [done|]. simpl. intros id' j [_ ?]%lookup_delete_Some. by eapply H2.
  - unfold instance_set_pose. destruct (m_instances m !! id); [|done]. intros [= <-]. split; [done|]. simpl. intros id' j.
    rewrite lookup_insert_Some. intros [[_ <-]|[_ ?]]; [done|by eapply H2].
  - unfold create_shot. destruct (m_shots m !! k); [done|]. destruct (m_cameras m !! camera); [|done].
    destruct (m_instances m !! inst) as [i|] eqn:Ei; [|done]. destruct (m_rig_cameras m !! rig_camera); [|done].
    destruct (instance_add_shot i rig_camera k) as [i1|] eqn:E1; [|done]. simpl.
    assert (valid (in_pose i1)) as Hv.
    { unfold instance_add_shot in E1. destruct (decide _); [|done]. injection E1 as <-. simpl. by eapply H2. }
    destruct pose as [q|]; simpl.
    + destruct (instance_update_pose _ _ _ _ _ _) as [i2|] eqn:E2; [|done]. simpl. intros [= <-]. split; [done|]. simpl. intros id j.
      rewrite lookup_insert_Some. intros [[_ <-]|[_ ?]]; [|by eapply H2]. exact (instance_update_valid (m_rig_cameras m) i1 _ _ q H1 Hop E2).
    + intros [= <-]. split; [done|]. simpl. intros id j. rewrite lookup_insert_Some. intros [[_ <-]|[_ ?]]; [done|by eapply H2].
  - unfold remove_shot. destruct (m_shots m !! k) as [s|]; [|done]. destruct (m_instances m !! sh_instance s) as [i|] eqn:Ei; [|done]. simpl.
    unfold instance_remove_shot. destruct (in_members i !! k.2); [|done]. simpl. destruct (forget_shot _ _ _); [|done]. simpl. intros [= <-].
    split; [done|]. simpl. intros id j. rewrite lookup_insert_Some. intros [[_ <-]|[_ ?]]; [exact (H2 _ _ Ei)|by eapply H2].
  - unfold assign_shot. destruct (m_shots m !! k); [|done]. by intros [= <-].
  - unfold set_mesh. destruct (m_shots m !! k); [|done]. by intros [= <-].
  - unfold create_landmark. destruct (m_landmarks m !! lm); [done|]. by intros [= <-].
  - unfold set_landmark. destruct (m_landmarks m !! lm); [|done]. by intros [= <-].
  - unfold remove_landmark. destruct (m_landmarks m !! lm); [|done]. destruct (drop_obs _ _); [|done]. by intros [= <-].
  - unfold add_observation. destruct (m_shots m !! k), (m_landmarks m !! lm); try done. by intros [= <-].
  - unfold remove_observation. destruct (m_shots m !! _), (m_landmarks m !! lm) as [l|]; try done. destruct (lm_obs l !! shot_id) as [[? f]|]; [|done].
    destruct (shot_remove_obs _ f); [|done]. by intros [= <-].
  - unfold clean_landmarks. intros [E1 E2]%clean_frame. split; [by rewrite E1|by rewrite E2].
  - unfold clear_landmarks. destruct (clear_loop _ _ _); [|done]. by intros [= <-].
  - unfold set_bias. destruct (m_bias m !! id); [|done]. by intros [= <-].
  - by intros [= <-].
Qed.

(** C11 *)
Lemma update_pose_reads m inst k sid s i rc p : k = (k.1, sid) ->
  m_shots m !! k = Some s -> sh_instance s = inst -> m_instances m !! inst = Some i -> in_members i !! sid = Some (k.1, sh_rig_camera s) ->
  m_rig_cameras m !! sh_rig_camera s = Some rc ->
  instance_update_pose compose inverse (m_rig_cameras m) i sid p = Ok (Instance (compose (inverse rc) p) (in_members i)).
Proof. intros Hk Hs <- Hi Hmem Hrc. unfold instance_update_pose. rewrite Hmem, Hrc. done. Qed.
Lemma shot_pose_eq m k s i rc : m_shots m !! k = Some s -> m_instances m !! sh_instance s = Some i -> m_rig_cameras m !! sh_rig_camera s = Some rc ->
  shot_pose compose m k = Some (compose rc (in_pose i)).
Proof. intros Hs Hi Hrc. unfold shot_pose. by rewrite Hs; simpl; rewrite Hi; simpl; rewrite Hrc. Qed.
Lemma relative_rigid r1 r2 p q : valid r1 -> valid r2 -> valid p -> valid q ->
  relative_to (compose r1 p) (compose r2 p) = relative_to (compose r1 q) (compose r2 q).
Proof.
  assert (forall p, valid p -> valid r1 -> valid r2 -> relative_to (compose r1 p) (compose r2 p) = relative_to r1 r2) as H.
  { clear p q. intros p Hp H1 H2. apply valid_ext; try (apply valid_relative; try apply valid_compose; done).
    - change (mmul (mmul (w_rot r1) (w_rot p)) (c_rot (compose r2 p)) = mmul (w_rot r1) (c_rot r2)).
      destruct (valid_compose _ _ H2 Hp) as (_ & -> & _). simpl. destruct H2 as (_ & -> & _), Hp as (H & _).
      rewrite mT_mmul, mmul_assoc, <- (mmul_assoc (w_rot r1)), (rotation_r _ H), mmul_I_r. done.
    - pose proof (origin_zero _ (valid_compose _ _ H2 Hp)) as E. rewrite transform_compose in E.
      assert (transform p (c_tr (compose r2 p)) = c_tr r2) as E2.
      { rewrite <- (transform_cancel r2 (transform p _) H2). unfold get_origin in E. rewrite E. unfold transform_inverse. by rewrite mvec_0, vadd_0_l. }
      change (vadd (mvec (mmul (w_rot r1) (w_rot p)) (c_tr (compose r2 p))) (vadd (mvec (w_rot r1) (w_tr p)) (w_tr r1)) = vadd (mvec (w_rot r1) (c_tr r2)) (w_tr r1)).
      rewrite mvec_mmul. rewrite vadd_assoc, <- mvec_add. change (vadd (mvec (w_rot r1) (transform p (c_tr (compose r2 p)))) (w_tr r1) = vadd (mvec (w_rot r1) (c_tr r2)) (w_tr r1)).
      by rewrite E2. }
  intros. by rewrite !H.
Qed.

(** C14 *)
Lemma apply_similarity_valid m s A b : rotation A -> poses_valid m -> poses_valid (apply_similarity m s A b).
Proof.
  intros HA [H1 H2]. split; simpl.
  - intros id p. rewrite lookup_fmap. destruct (m_rig_cameras m !! id) eqn:E; simpl; [|done]. intros [= <-]. apply valid_similarity; [by eapply H1|apply rotation_I].
  - intros id i. rewrite lookup_fmap. destruct (m_instances m !! id) eqn:E; simpl; [|done]. intros [= <-]. apply valid_similarity; [by eapply H2|done].
Qed.
Lemma apply_similarity_pose_of m s A b k : rotation A -> poses_valid m ->
  shot_pose compose (apply_similarity m s A b) k = (fun p => apply_similarity_pose p s A b) <$> shot_pose compose m k.
Proof.
  intros HA [H1 H2]. unfold shot_pose; simpl. destruct (m_shots m !! k) as [x|]; [|done]. simpl. rewrite !lookup_fmap.
  destruct (m_instances m !! sh_instance x) as [i|] eqn:Ei; [|done]. simpl.
  destruct (m_rig_cameras m !! sh_rig_camera x) as [rc|] eqn:Er; [|done]. simpl. f_equal. apply similarity_compose; [by eapply H1|by eapply H2|done].
Qed.
End Map.
