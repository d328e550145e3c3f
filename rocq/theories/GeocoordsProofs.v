(** Proofs about GeocoordsModel.v *)
From stdpp Require Import prelude gmap strings.
From Coq Require Import Reals Lra Psatz.
From Verif Require Import Base JsonModel CamModel Lin RotModel RotProofs TracksModel MapModel PoseModel PoseSpec PoseProofs RecModel GeoModel MetaModel GeocoordsModel GeocoordsSpec.
Local Open Scope R_scope.

Lemma minv_r A : det A <> 0 -> mmul A (minv A) = mI.
Proof. destruct A. intros H. unfold mmul, minv, adj, mscale, mI, det in *. cbn in *. f_equal; field; exact H. Qed.
Lemma minv_l A : det A <> 0 -> mmul (minv A) A = mI.
Proof. destruct A. intros H. unfold mmul, minv, adj, mscale, mI, det in *. cbn in *. f_equal; field; exact H. Qed.
Lemma det_minv A : det A <> 0 -> det (minv A) <> 0.
Proof. intros H E. pose proof (minv_r A H) as H1. apply (f_equal det) in H1. rewrite det_mmul, E in H1. unfold det at 2 in H1. cbn in H1. lra. Qed.
Lemma minv_mmul A B : det A <> 0 -> det B <> 0 -> minv (mmul A B) = mmul (minv B) (minv A).
Proof.
  intros HA HB. assert (HAB : det (mmul A B) <> 0) by (rewrite det_mmul; by apply Rmult_integral_contrapositive_currified).
  assert (E : mmul (mmul A B) (mmul (minv B) (minv A)) = mI).
  { transitivity (mmul A (mmul (mmul B (minv B)) (minv A))); [generalize (minv A) (minv B) A B; vring|]. rewrite minv_r by done.
    replace (mmul mI (minv A)) with (minv A) by (generalize (minv A); vring). by apply minv_r. }
  transitivity (mmul (minv (mmul A B)) (mmul (mmul A B) (mmul (minv B) (minv A)))).
  - rewrite E. generalize (minv (mmul A B)). vring.
  - transitivity (mmul (mmul (minv (mmul A B)) (mmul A B)) (mmul (minv B) (minv A))); [generalize (minv (mmul A B)) (mmul A B) (mmul (minv B) (minv A)); vring|].
    rewrite minv_l by done. generalize (mmul (minv B) (minv A)). vring.
Qed.

(** What the two writes do to a pose *)
Definition geo_pose (A : mat) (b : vec) (p : pose) : pose := set_origin (set_rotation_matrix p (mmul (w_rot p) (minv A))) (vadd (mvec A (get_origin p)) b).
Lemma geo_pose_spec A b p : det A <> 0 -> valid p -> get_origin (geo_pose A b p) = moved A b (get_origin p) /\ sees_alike A b p (geo_pose A b p) /\
  w_rot (geo_pose A b p) = mmul (w_rot p) (minv A) /\ c_rot (geo_pose A b p) = mT (w_rot (geo_pose A b p)).
Proof.
  intros HA HV. pose proof HV as (HR & HV1 & HV2). set (M := mmul (w_rot p) (minv A)).
  assert (HM : det M <> 0). { unfold M. rewrite det_mmul. destruct HR as [_ ->]. rewrite Rmult_1_l. by apply det_minv. }
  assert (EO : get_origin (geo_pose A b p) = moved A b (get_origin p)).
  { unfold geo_pose, set_origin, set_translation, set_rotation_matrix, get_origin, inv_tr. cbn [c_tr w_rot]. fold M. fold (moved A b (c_tr p)).
    rewrite mvec_opp, vopp_opp, <- mvec_mmul, minv_l by done. apply mvec_I. }
  split; [done|]. split; [|done]. intros X.
  assert (EX : transform p X = mvec (w_rot p) (vsub X (get_origin p))).
  { unfold transform, get_origin. rewrite HV2. transitivity (vadd (mvec (w_rot p) X) (mvec (mmul (w_rot p) (mT (w_rot p))) (w_tr p))); [by rewrite rotation_r, mvec_I|].
    rewrite mvec_mmul. generalize (mT (w_rot p)) (w_rot p) (w_tr p). vring. }
  rewrite EX. unfold geo_pose, set_origin, set_translation, set_rotation_matrix, transform. cbn [w_rot w_tr]. fold M. unfold moved.
  transitivity (mvec M (mvec A (vsub X (get_origin p)))); [generalize M (get_origin p); vring|]. rewrite <- mvec_mmul. unfold M.
  replace (mmul (mmul (w_rot p) (minv A)) A) with (mmul (w_rot p) (mmul (minv A) A)) by (generalize (minv A) (w_rot p); vring). rewrite minv_l by done.
  f_equal. generalize (w_rot p). vring.
Qed.

Section Loop.
Context {O : Type}.
Notation shot := (shot shot_data mesh O). Notation instance := (instance pose).
Notation rec := (@map camera similarity pose vec shot_data mesh O (R * R * R)).
Variable enumS : gmap shot_key shot -> list (shot_key * shot).
(** Every shot is in its rig instance and its rig camera exists (C08) *)
Definition owned (m : rec) : Prop := forall k s, m_shots m !! k = Some s ->
  exists i rc, m_instances m !! sh_instance s = Some i /\ m_rig_cameras m !! sh_rig_camera s = Some rc /\ is_Some (in_members i !! k.2).
Definition free (rc : pose) (i : instance) : bool := is_identity rc && (size (in_members i) =? 1)%nat.
Lemma GetPose_at (m : rec) k s i rc : m_shots m !! k = Some s -> m_instances m !! sh_instance s = Some i -> m_rig_cameras m !! sh_rig_camera s = Some rc ->
  GetPose m k = Ok (if free rc i then in_pose i else compose rc (in_pose i)).
Proof. intros H1 H2 H3. unfold GetPose. rewrite H1. cbn [of_option res_bind]. rewrite H2. cbn [of_option res_bind]. rewrite H3. cbn [of_option res_bind]. fold (free rc i). by destruct (free rc i). Qed.
Lemma modify_at (m : rec) k s i rc f : m_shots m !! k = Some s -> m_instances m !! sh_instance s = Some i -> m_rig_cameras m !! sh_rig_camera s = Some rc ->
  modify_pose m k f = Ok (if free rc i then set_instances m (<[sh_instance s := Instance (f (in_pose i)) (in_members i)]> (m_instances m)) else m).
Proof. intros H1 H2 H3. unfold modify_pose. rewrite H1. cbn [of_option res_bind]. rewrite H2. cbn [of_option res_bind]. rewrite H3. cbn [of_option res_bind]. fold (free rc i). by destruct (free rc i). Qed.
Lemma step_at A b (m : rec) id s i rc : m_shots m !! (false, id) = Some s -> m_instances m !! sh_instance s = Some i -> m_rig_cameras m !! sh_rig_camera s = Some rc ->
  transform_shot A (minv A) b m id = Ok (if free rc i then set_instances m (<[sh_instance s := Instance (geo_pose A b (in_pose i)) (in_members i)]> (m_instances m)) else m).
Proof.
  intros H1 H2 H3. unfold transform_shot. rewrite (GetPose_at _ _ _ _ _ H1 H2 H3). cbn [res_bind]. rewrite (modify_at _ _ _ _ _ _ H1 H2 H3). cbn [res_bind].
  destruct (free rc i) eqn:Ef.
  - set (m1 := set_instances m _). set (i1 := Instance (set_rotation_matrix (in_pose i) (mmul (w_rot (in_pose i)) (minv A))) (in_members i)) in *.
    assert (G2 : m_instances m1 !! sh_instance s = Some i1) by (cbn; apply lookup_insert).
    assert (F1 : free rc i1 = true) by exact Ef.
    rewrite (GetPose_at m1 (false, id) s i1 rc H1 G2 H3). cbn [res_bind]. rewrite (modify_at m1 (false, id) s i1 rc _ H1 G2 H3), F1. f_equal.
    unfold m1, set_instances. cbn [m_cameras m_bias m_rig_cameras m_instances m_shots m_landmarks m_reference]. rewrite insert_insert. done.
  - rewrite (GetPose_at _ _ _ _ _ H1 H2 H3). cbn [res_bind]. rewrite (modify_at _ _ _ _ _ _ H1 H2 H3), Ef. done.
Qed.
Definition same_but_instances (m m' : rec) : Prop :=
  m_cameras m' = m_cameras m /\ m_bias m' = m_bias m /\ m_rig_cameras m' = m_rig_cameras m /\ m_shots m' = m_shots m /\ m_landmarks m' = m_landmarks m /\ m_reference m' = m_reference m.
Lemma loop_spec A b ids : forall m, NoDup ids -> owned m -> (forall id, id ∈ ids -> is_Some (m_shots m !! (false, id))) ->
  exists m', transform_shots A (minv A) b ids m = Ok m' /\ same_but_instances m m' /\
    forall id s i rc, m_shots m !! (false, id) = Some s -> m_instances m !! sh_instance s = Some i -> m_rig_cameras m !! sh_rig_camera s = Some rc ->
      m_instances m' !! sh_instance s = Some (if free rc i && bool_decide (id ∈ ids) then Instance (geo_pose A b (in_pose i)) (in_members i) else i).
Proof.
  induction ids as [|a ids IH]; intros m HN HO HS.
  { exists m. split; [done|]. split; [done|]. intros id s i rc H1 H2 H3. rewrite bool_decide_eq_false_2 by (intros H; by apply elem_of_nil in H). by rewrite andb_false_r. }
  apply NoDup_cons in HN as [Ha HN]. destruct (HS a ltac:(by left)) as [sa Hsa]. destruct (HO _ _ Hsa) as (ia & rca & Hia & Hrca & Hma). cbn [snd] in Hma.
  cbn [transform_shots]. rewrite (step_at A b m a sa ia rca Hsa Hia Hrca). cbn [res_bind].
  destruct (free rca ia) eqn:Ef.
  - set (ia' := Instance (geo_pose A b (in_pose ia)) (in_members ia)). set (m1 := set_instances m (<[sh_instance sa := ia']> (m_instances m))).
    assert (Hsz : size (in_members ia) = 1%nat) by (unfold free in Ef; apply andb_true_iff in Ef as [_ Ef]; by apply Nat.eqb_eq).
    assert (Hown : forall id s, m_shots m !! (false, id) = Some s -> sh_instance s = sh_instance sa -> id = a).
    { intros id s Hs Hi. destruct (HO _ _ Hs) as (i & rc & Hi' & _ & Hm). cbn in Hm. rewrite Hi, Hia in Hi'. injection Hi' as <-.
      apply (size_singleton_inv (dom (in_members ia))); [by rewrite size_dom|by apply elem_of_dom|by apply elem_of_dom]. }
    assert (HO1 : owned m1).
    { intros k s Hs. destruct (HO k s Hs) as (i & rc & Hi & Hrc & Hm). destruct (decide (sh_instance s = sh_instance sa)) as [E|E].
      - exists ia', rc. rewrite E in Hi |- *. rewrite Hia in Hi. injection Hi as <-. split; [cbn; apply lookup_insert|]. done.
      - exists i, rc. split; [cbn; by rewrite lookup_insert_ne|]. done. }
    destruct (IH m1 HN HO1) as (m' & H1 & H2 & H3); [intros id Hid; apply HS; by right|]. exists m'. split; [done|]. split; [exact H2|].
    intros id s i rc Hs Hi Hrc. destruct (decide (id = a)) as [->|Hne].
    + assert (s = sa) as -> by (rewrite Hsa in Hs; by injection Hs). rewrite Hia in Hi. injection Hi as <-. rewrite Hrca in Hrc. injection Hrc as <-.
      rewrite Ef, bool_decide_eq_true_2 by by left. cbn [andb]. rewrite (H3 a sa ia' rca Hsa ltac:(cbn; apply lookup_insert) Hrca).
      rewrite bool_decide_eq_false_2 by done. by rewrite andb_false_r.
    + assert (Hni : sh_instance s <> sh_instance sa) by (intros E; apply Hne; by eapply Hown).
      assert (Hi1 : m_instances m1 !! sh_instance s = Some i) by (cbn; by rewrite lookup_insert_ne).
      rewrite (H3 id s i rc Hs Hi1 Hrc).
      replace (bool_decide (id ∈ a :: ids)) with (bool_decide (id ∈ ids)); [done|]. apply bool_decide_ext. rewrite elem_of_cons. naive_solver.
  - destruct (IH m HN HO) as (m' & H1 & H2 & H3); [intros id Hid; apply HS; by right|]. exists m'. split; [done|]. split; [done|].
    intros id s i rc Hs Hi Hrc. rewrite (H3 id s i rc Hs Hi Hrc). destruct (decide (id = a)) as [->|Hne].
    + assert (s = sa) as -> by (rewrite Hsa in Hs; by injection Hs). rewrite Hia in Hi. injection Hi as <-. rewrite Hrca in Hrc. injection Hrc as <-. by rewrite Ef.
    + replace (bool_decide (id ∈ a :: ids)) with (bool_decide (id ∈ ids)); [done|]. apply bool_decide_ext. rewrite elem_of_cons. naive_solver.
Qed.
End Loop.
