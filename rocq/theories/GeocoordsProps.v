(** C76: the export to geographic coordinates moves cameras and points together. *)
From stdpp Require Import prelude gmap strings.
From Coq Require Import Reals Lra Psatz.
From Verif Require Import Base JsonModel CamModel Lin RotModel RotProofs TracksModel MapModel PoseModel PoseSpec PoseProofs RecModel GeoModel MetaModel GcpProofs ColmapProofs GeocoordsModel GeocoordsSpec GeocoordsProofs.
Local Open Scope R_scope.

(** The transformation agrees with the conversion of the reference and the projection at the origin and one metre along each axis, and
    everywhere if that conversion is affine. *)
Theorem C76_transformation to_lla projection : let T := _get_transformation to_lla projection in let exact := _transform to_lla projection in
  (forall x, x ∈ [Vec 0 0 0; Vec 1 0 0; Vec 0 1 0; Vec 0 0 1] -> affine_apply T x = exact x) /\
  ((exists A b, forall x, exact x = moved A b x) -> forall x, affine_apply T x = exact x).
Proof.
  cbn zeta. unfold _get_transformation. generalize (_transform to_lla projection). intros f. split.
  - intros x Hx. apply elem_of_cons in Hx as [->|Hx]; [|apply elem_of_cons in Hx as [->|Hx]; [|apply elem_of_cons in Hx as [->|Hx]; [|apply elem_of_list_singleton in Hx as ->]]].
    all: unfold affine_apply, vadd, mvec; cbn.
    + destruct (f (Vec 0 0 0)); cbn; f_equal; ring.
    + destruct (f (Vec 1 0 0)); cbn; f_equal; ring.
    + destruct (f (Vec 0 1 0)); cbn; f_equal; ring.
    + destruct (f (Vec 0 0 1)); cbn; f_equal; ring.
  - intros (A & b & H) x. rewrite !H. destruct A, b, x. unfold affine_apply, moved, vadd, mvec. cbn. f_equal; ring.
Qed.

Lemma in_concat' {A} (x : A) (ls : list (list A)) : x ∈ concat ls <-> exists l, x ∈ l /\ l ∈ ls.
Proof. induction ls as [|l ls IH]; cbn; [split; [intros H; by apply elem_of_nil in H|intros (l & _ & H); by apply elem_of_nil in H]|]. rewrite elem_of_app, IH. setoid_rewrite elem_of_cons. naive_solver. Qed.
Section Reconstruction.
Context {O : Type}.
Notation shot := (shot shot_data mesh O).
Notation rec := (@map camera similarity pose vec shot_data mesh O (R * R * R)).
Variable enumS : gmap shot_key shot -> list (shot_key * shot).
Hypothesis HE : enumerates enumS.
Lemma shots_of_spec (m : rec) : NoDup (shots_of enumS m) /\ forall id, id ∈ shots_of enumS m <-> is_Some (m_shots m !! (false, id)).
Proof.
  unfold shots_of. split.
  - assert (HN : NoDup ((enumS (m_shots m)).*1)) by (rewrite (HE (m_shots m)); apply NoDup_fst_map_to_list).
    induction (enumS (m_shots m)) as [|[[[] k] s] l IH]; [constructor| |]; cbn in HN; apply NoDup_cons in HN as [Hk HN]; cbn; [by apply IH|]. constructor; [|by apply IH].
    intros Hin. apply elem_of_list_omap in Hin as ([[[] k'] s'] & Hin & Hm); [done|]. cbn in Hm. injection Hm as ->. apply Hk. apply elem_of_list_fmap. by exists (false, k, s').
  - intros id. rewrite elem_of_list_omap. split.
    + intros ([[[] k'] s'] & Hin & Hm); [done|]. cbn in Hm. injection Hm as ->. rewrite (HE (m_shots m)), elem_of_map_to_list in Hin. by eexists.
    + intros [s Hs]. exists (false, id, s). split; [|done]. by rewrite (HE (m_shots m)), elem_of_map_to_list.
Qed.
(** A shot that is alone in its rig instance, with a rig camera that is the identity: what images outside of rigs have *)
Definition alone (m : rec) (id : string) : Prop :=
  exists s i rc, m_shots m !! (false, id) = Some s /\ m_instances m !! sh_instance s = Some i /\ m_rig_cameras m !! sh_rig_camera s = Some rc /\
    is_identity rc = true /\ size (in_members i) = 1%nat.

Lemma result m T m' : owned m -> _transform_reconstruction enumS m T = Ok m' -> det (af_mat T) <> 0 /\
  exists m1, same_but_instances m m1 /\ m' = set_landmarks m1 ((fun l => Landmark (vadd (mvec (af_mat T) (lm_pos l)) (af_vec T)) (lm_color l) (lm_obs l)) <$> m_landmarks m1) /\
    forall id s i rc, m_shots m !! (false, id) = Some s -> m_instances m !! sh_instance s = Some i -> m_rig_cameras m !! sh_rig_camera s = Some rc ->
      m_instances m1 !! sh_instance s = Some (if free rc i then Instance (geo_pose (af_mat T) (af_vec T) (in_pose i)) (in_members i) else i).
Proof.
  intros HO. unfold _transform_reconstruction. destruct (Req_EM_T (det (af_mat T)) 0) as [|HA]; [done|]. destruct (shots_of_spec m) as [HN HS].
  destruct (loop_spec (af_mat T) (af_vec T) (shots_of enumS m) m HN HO) as (m1 & -> & H1 & H2); [intros id Hid; by apply HS|]. cbn [res_bind]. intros [= <-].
  split; [done|]. exists m1. split; [done|]. split; [done|]. intros id s i rc Hs Hi Hrc. rewrite (H2 id s i rc Hs Hi Hrc).
  rewrite (bool_decide_eq_true_2 (id ∈ shots_of enumS m)) by (apply HS; by eexists). by rewrite andb_true_r.
Qed.
(** For an invertible transformation the export of the reconstruction succeeds; every point moves by it, nothing else but the poses
    changes, and each camera outside of a rig moves with the points: its centre moves, and it sees the moved points as it saw the points. *)
Theorem C76_reconstruction m T : owned m -> det (af_mat T) <> 0 -> exists m', _transform_reconstruction enumS m T = Ok m' /\
  m_shots m' = m_shots m /\ m_cameras m' = m_cameras m /\ m_rig_cameras m' = m_rig_cameras m /\
  (forall id, m_landmarks m' !! id = (fun l => Landmark (moved (af_mat T) (af_vec T) (lm_pos l)) (lm_color l) (lm_obs l)) <$> m_landmarks m !! id) /\
  (forall id p, alone m id -> GetPose m (false, id) = Ok p -> valid p -> exists p', GetPose m' (false, id) = Ok p' /\
     get_origin p' = moved (af_mat T) (af_vec T) (get_origin p) /\ sees_alike (af_mat T) (af_vec T) p p').
Proof.
  intros HO HA. destruct (shots_of_spec m) as [HN HS].
  assert (exists m', _transform_reconstruction enumS m T = Ok m') as [m' Hm'].
  { unfold _transform_reconstruction. destruct (Req_EM_T (det (af_mat T)) 0) as [|_]; [done|].
    destruct (loop_spec (af_mat T) (af_vec T) (shots_of enumS m) m HN HO) as (m1 & -> & _); [intros id Hid; by apply HS|]. by eexists. }
  exists m'. split; [done|]. destruct (result _ _ _ HO Hm') as (_ & m1 & (E1 & E2 & E3 & E4 & E5 & E6) & -> & HI).
  split; [done|]. split; [done|]. split; [done|]. split; [intros id; cbn [m_landmarks set_landmarks]; by rewrite lookup_fmap, E5|].
  intros id p (s & i & rc & Hs & Hi & Hrc & Hid & Hsz) Hp HV. assert (Ef : free rc i = true) by (unfold free; by rewrite Hid, Hsz).
  rewrite (GetPose_at _ _ _ _ _ Hs Hi Hrc), Ef in Hp. injection Hp as <-. specialize (HI id s i rc Hs Hi Hrc). rewrite Ef in HI.
  eexists. split.
  { erewrite GetPose_at; [| |exact HI|]; [|cbn; by rewrite E4|cbn; by rewrite E3]. cbn [in_pose]. change (free rc (Instance _ (in_members i))) with (free rc i). by rewrite Ef. }
  destruct (geo_pose_spec (af_mat T) (af_vec T) (in_pose i) HA HV) as (H1 & H2 & _). done.
Qed.
(** The cameras of rigs do not move at all: what is written to the pose of a shot of a rig is lost. They see the points elsewhere, unless
    nothing moves. *)
Theorem C76_rigs_refuted m T m' id p : owned m -> _transform_reconstruction enumS m T = Ok m' -> is_Some (m_shots m !! (false, id)) -> ~ alone m id ->
  GetPose m (false, id) = Ok p -> GetPose m' (false, id) = Ok p /\ (valid p -> sees_alike (af_mat T) (af_vec T) p p -> forall X, moved (af_mat T) (af_vec T) X = X).
Proof.
  intros HO Hm' [s Hs] Ha Hp. destruct (HO _ _ Hs) as (i & rc & Hi & Hrc & _). destruct (result _ _ _ HO Hm') as (HA & m1 & (E1 & E2 & E3 & E4 & E5 & E6) & -> & HI).
  assert (Ef : free rc i = false).
  { destruct (free rc i) eqn:Ef; [|done]. exfalso. apply Ha. unfold free in Ef. apply andb_true_iff in Ef as [F1 F2]. apply Nat.eqb_eq in F2. exists s, i, rc. done. }
  rewrite (GetPose_at _ _ _ _ _ Hs Hi Hrc), Ef in Hp. specialize (HI id s i rc Hs Hi Hrc). rewrite Ef in HI. split.
  - erewrite GetPose_at; [| |exact HI|]; [rewrite Ef; done|cbn; by rewrite E4|cbn; by rewrite E3].
  - intros (HR & _) Hall X. specialize (Hall X). unfold transform in Hall. assert (E : mvec (w_rot p) (moved (af_mat T) (af_vec T) X) = mvec (w_rot p) X).
    { revert Hall. generalize (mvec (w_rot p) (moved (af_mat T) (af_vec T) X)) (mvec (w_rot p) X) (w_tr p). intros [] [] []. unfold vadd. cbn. intros H. injection H. intros. f_equal; lra. }
    apply (f_equal (mvec (mT (w_rot p)))) in E. by rewrite <- !mvec_mmul, (rotation_l _ HR), !mvec_I in E.
Qed.
(** Loading the saved file gives the moved camera when the transformation is a rotation and a translation ... *)
Theorem C76_saved m T m' id p p' : owned m -> _transform_reconstruction enumS m T = Ok m' -> alone m id -> GetPose m (false, id) = Ok p -> valid p ->
  GetPose m' (false, id) = Ok p' ->
  (rotation (af_mat T) -> sees_alike (af_mat T) (af_vec T) p (saved_and_loaded p')) /\
  (** ... and never sees the moved points as the camera saw the points otherwise *)
  (~ rotation (af_mat T) -> ~ sees_alike (af_mat T) (af_vec T) p (saved_and_loaded p')).
Proof.
  intros HO Hm' Ha Hp HV Hp'. destruct (result _ _ _ HO Hm') as (HA & _). destruct (C76_reconstruction m T HO HA) as (m2 & Hm2 & _). rewrite Hm' in Hm2. injection Hm2 as <-.
  assert (EP : p' = geo_pose (af_mat T) (af_vec T) p).
  { destruct Ha as (s & i & rc & Hs & Hi & Hrc & Hid & Hsz). assert (Ef : free rc i = true) by (unfold free; by rewrite Hid, Hsz).
    rewrite (GetPose_at _ _ _ _ _ Hs Hi Hrc), Ef in Hp. injection Hp as <-. destruct (result _ _ _ HO Hm') as (_ & m1 & (E1 & E2 & E3 & E4 & E5 & E6) & -> & HI).
    specialize (HI id s i rc Hs Hi Hrc). rewrite Ef in HI. erewrite GetPose_at in Hp'; [| |exact HI|]; [|cbn; by rewrite E4|cbn; by rewrite E3].
    change (free rc (Instance _ (in_members i))) with (free rc i) in Hp'. rewrite Ef in Hp'. by injection Hp'. }
  destruct (geo_pose_spec (af_mat T) (af_vec T) p HA HV) as (H1 & H2 & H3 & H4). rewrite <- EP in H1, H2, H3, H4. set (A := af_mat T) in *. set (b := af_vec T) in *. clearbody A b.
  split.
  - intros HRA X. rewrite <- H2. assert (HR' : rotation (w_rot p')). { rewrite H3, (rotation_inv _ HRA). apply rotation_mmul; [apply HV|by apply rotation_T]. }
    assert (HV' : valid (from_world_to_cam (w_rot p') (w_tr p'))) by by apply from_w2c_valid.
    destruct (rotation_vector _ HV') as [E _]. unfold transform, saved_and_loaded, pose_of_vector, from_world_to_cam. cbn [w_rot w_tr]. f_equal. f_equal. etransitivity; [|exact E]. f_equal.
    unfold get_rotation. cbn [c_rot from_world_to_cam]. rewrite H4. unfold inv_rot. by rewrite rotation_inv.
  - intros HnR Hall. apply HnR. set (Q := vector_to_rotation (get_rotation p')). assert (HQ : rotation Q) by apply exp_rotation.
    assert (E : forall X, mvec (mmul Q A) X = mvec (w_rot p) X).
    { intros X. pose proof (Hall X) as G1. pose proof (Hall v0) as G0. unfold transform, saved_and_loaded, pose_of_vector, from_world_to_cam, moved in G1, G0. cbn [w_rot w_tr] in G1, G0. fold Q in G1, G0.
      revert G1 G0. generalize (get_translation p') (w_tr p) (w_rot p) Q. intros t t' W Q0. destruct A, b, X, t, t', W, Q0. unfold mvec, mmul, vadd, v0. cbn. intros G1 G0. injection G1. injection G0. intros. f_equal; lra. }
    assert (EM : mmul Q A = w_rot p).
    { revert E. generalize (mmul Q A) (w_rot p). intros M N E. pose proof (E (Vec 1 0 0)) as X1. pose proof (E (Vec 0 1 0)) as X2. pose proof (E (Vec 0 0 1)) as X3.
      destruct M, N. unfold mvec in X1, X2, X3. cbn in X1, X2, X3. injection X1. injection X2. injection X3. intros. f_equal; lra. }
    assert (A = mmul (mT Q) (w_rot p)) as ->.
    { rewrite <- EM. transitivity (mmul (mmul (mT Q) Q) A); [rewrite (rotation_l _ HQ); generalize A; vring|]. generalize (mT Q) Q A. vring. }
    apply rotation_mmul; [by apply rotation_T|apply HV].
Qed.
(** The table of image positions holds the moved centre of every shot of every reconstruction. *)
Theorem C76_image_positions recs T rows : _transform_image_positions enumS recs T = Ok rows ->
  forall id X, (id, X) ∈ rows <-> exists m p, m ∈ recs /\ GetPose m (false, id) = Ok p /\ X = moved (af_mat T) (af_vec T) (get_origin p).
Proof.
  unfold _transform_image_positions. destruct (mapR _ recs) as [ls|] eqn:E; [|done]. cbn [res_bind]. intros [= <-] id X. apply mapR_ok in E. split.
  - intros Hin. rewrite in_concat' in Hin. destruct Hin as (l & Hin & Hl). apply elem_of_list_lookup in Hl as [n Hn]. destruct (Forall2_lookup_r _ _ _ _ _ E Hn) as (m & Hm & Hl). apply mapR_ok in Hl.
    apply elem_of_list_lookup in Hin as [j Hj]. destruct (Forall2_lookup_r _ _ _ _ _ Hl Hj) as (id' & Hid & Hp). destruct (GetPose m (false, id')) as [p|] eqn:Ep; [|done].
    cbn [res_bind] in Hp. injection Hp as <- <-. exists m, p. split; [by eapply elem_of_list_lookup_2|]. done.
  - intros (m & p & Hm & Hp & ->). apply elem_of_list_lookup in Hm as [n Hn]. destruct (Forall2_lookup_l _ _ _ _ _ E Hn) as (l & Hl & Hml). apply mapR_ok in Hml.
    assert (Hid : id ∈ shots_of enumS m). { apply shots_of_spec. unfold GetPose in Hp. destruct (m_shots m !! (false, id)); [by eexists|done]. }
    apply elem_of_list_lookup in Hid as [j Hj]. destruct (Forall2_lookup_l _ _ _ _ _ Hml Hj) as (y & Hy & Hyp). rewrite Hp in Hyp. cbn [res_bind] in Hyp. injection Hyp as <-.
    apply in_concat'. exists l. split; by eapply elem_of_list_lookup_2.
Qed.
End Reconstruction.
(** The export of the dense cloud fails on every cloud that has a point. *)
Theorem C76_dense_refuted lines : (13 < length lines)%nat -> exists e, _transform_dense_point_cloud 0 lines = Err e.
Proof.
  assert (G : forall lines i, (i <= 13)%nat -> (13 < i + length lines)%nat -> exists e, _transform_dense_point_cloud i lines = Err e).
  { clear. induction lines as [|[l f] lines IH]; intros i Hi Hl; cbn [length] in Hl; [lia|]. cbn [_transform_dense_point_cloud]. destruct (decide (i < 13)%nat).
    - destruct (IH (S i)) as [e ->]; [lia|lia|]. by exists e.
    - destruct (decide _); by eexists. }
  intros H. apply (G lines 0%nat); lia.
Qed.

(** Concrete case: a reconstruction with one image turned by 90 degrees, moved by an affine map that is not rigid *)
Example C76_concrete : exists (m : @map camera similarity pose vec shot_data mesh Z (R * R * R)) p,
  owned m /\ alone m "a" /\ GetPose m (false, "a") = Ok p /\ valid p /\ det (Mat 2 0 0 0 2 0 0 0 1) <> 0.
Proof.
  set (p := from_world_to_cam (Mat 0 (-1) 0 1 0 0 0 0 1) (Vec 1 2 3)).
  set (s := Shot (O := Z) "c" "rc" "i" data0 mesh0 ∅ ∅).
  exists (Map ∅ ∅ {["rc" := pose0]} {["i" := Instance p {["a" := (false, "rc")]}]} {[(false, "a") := s]} ∅ None), p.
  assert (HI : is_identity pose0 = true) by apply is_identity_0.
  split; [|split; [|split; [|split]]].
  - intros k s' Hs'. cbn [m_shots] in Hs'. apply lookup_singleton_Some in Hs' as [<- <-]. eexists _, pose0. split; [apply lookup_singleton|]. split; [apply lookup_singleton|]. cbn. by eexists.
  - eexists s, _, pose0. split; [apply lookup_singleton|]. split; [apply lookup_singleton|]. split; [apply lookup_singleton|]. split; [done|]. apply map_size_singleton.
  - erewrite GetPose_at; [|apply lookup_singleton|apply lookup_singleton|apply lookup_singleton]. unfold free. rewrite HI. cbn [in_members]. by rewrite map_size_singleton.
  - apply from_w2c_valid. split; [unfold mmul, mT, mI; cbn; f_equal; ring|unfold det; cbn; ring].
  - unfold det. cbn. lra.
Qed.
Print Assumptions C76_transformation. Print Assumptions C76_reconstruction. Print Assumptions C76_rigs_refuted. Print Assumptions C76_saved. Print Assumptions C76_image_positions. Print Assumptions C76_dense_refuted.
