(** Proofs about the reconstruction from metadata. *)
From Coq Require Import Reals Lra Psatz.
From stdpp Require Import prelude gmap strings.
From Verif Require Import Base JsonModel CamModel Lin RotModel RotProofs TracksModel MapModel PoseModel PoseSpec PoseProofs RecModel GeoModel GeoSpec GeoProofs GeoProps AnglesModel AnglesSpec AnglesProofs AnglesProps MetaModel MetaSpec.
Local Open Scope R_scope.

Lemma used_altitude_spec ua e g : ex_gps e = Some g -> is_altitude ua e (used_altitude ua g).
Proof.
  intros E. unfold is_altitude, used_altitude, maximum_altitude. rewrite E. cbn. destruct ua; [|done]. destruct (gp_altitude g) as [a|]; cbn.
  - split; intros H; [rewrite Rmin_right by lra|rewrite Rmin_left by lra]; done.
  - rewrite Rmin_right by lra. done.
Qed.
Lemma norm_opp v : norm (vopp v) = norm v.
Proof. unfold norm, dot, vopp. cbn. f_equal. ring. Qed.
Lemma vopp_0 v : vopp v = v0 -> v = v0.
Proof. destruct v. unfold vopp, v0. cbn. intros [= H1 H2 H3]. apply vec_eq; cbn; lra. Qed.
Lemma up_horizontal u a : u = Vec 0 (-1) 0 \/ u = Vec 0 1 0 \/ u = Vec (-1) 0 0 \/ u = Vec 1 0 0 -> not_tiny (radians a) ->
  let m := rotation_matrix_from_up_vector_and_compass u a in
  rotation m /\ mvec m (Vec 0 0 1) = vscale (/ norm u) u /\ exists h, 0 < h /\ forward_axis m = Vec (h * sin (radians a)) (h * cos (radians a)) (vz u / norm u).
Proof.
  intros Hu Ha. destruct (C63_compass u a) as (H1 & _ & H2 & H3 & _); [| |done|done].
  - intros ->. unfold v0 in Hu. destruct Hu as [E|[E|[E|E]]]; (apply (f_equal vy) in E as E1); (apply (f_equal vx) in E as E2); cbn in E1, E2; lra.
  - replace (vsub _ _) with (Vec 0 0 1).
    + replace (norm (Vec 0 0 1)) with 1; [lra|]. unfold norm, dot. cbn. replace (0 * 0 + 0 * 0 + 1 * 1) with 1 by ring. by rewrite sqrt_1.
    + destruct Hu as [->|[->|[->| ->]]]; unfold vsub, vscale; cbn; unfold Rdiv; f_equal; ring.
Qed.
Lemma guess_up o : exists u, guess_gravity_up_from_orientation_tag (if decide (1 <= o <= 8)%Z then o else 1%Z) = Ok u /\
  u = match exif_sides o with Some (r, c) => up_of r c | None => Vec 0 (-1) 0 end /\ (u = Vec 0 (-1) 0 \/ u = Vec 0 1 0 \/ u = Vec (-1) 0 0 \/ u = Vec 1 0 0).
Proof.
  case_decide as H.
  - rewrite C63_orientation. assert (o = 1 \/ o = 2 \/ o = 3 \/ o = 4 \/ o = 5 \/ o = 6 \/ o = 7 \/ o = 8)%Z as Ho by lia.
    destruct Ho as [->|[->|[->|[->|[->|[->|[->| ->]]]]]]]; cbn; eexists; (split; [done|]); (split; [done|]); tauto.
  - rewrite C63_orientation. cbn. eexists. split; [done|]. split; [|tauto].
    destruct o as [|o|o]; [done| |done]. destruct o as [[[[o|o|]|[o|o|]|]|[[o|o|]|[o|o|]|]|]|[[[o|o|]|[o|o|]|]|[[o|o|]|[o|o|]|]|]|]; cbn; try done; exfalso; apply H; lia.
Qed.

(** What exif_to_metadata gives *)
Lemma metadata_spec e ua ref : (match ex_compass e with Some c => co_angle c <> None | None => True end) ->
  exists meta, exif_to_metadata e ua ref = Ok meta /\
    ms_compass_angle meta = (c ← ex_compass e; co_angle c) /\ ms_gravity_down meta = ex_gravity_down e /\ ms_orientation meta = Some (default 1%Z (ex_orientation e)) /\
    ms_opk_angles meta = (fun t : R * R * R => Vec t.1.1 t.1.2 t.2) <$> angles e /\
    match place e with
    | Some (lat, lon) => exists p alt, ms_gps_position meta = Some p /\ is_altitude ua e alt /\
        affine_apply (ecef_from_topocentric_transform ref.1.1 ref.1.2 ref.2) p = ecef_from_lla lat lon alt
    | None => ms_gps_position meta = None
    end.
Proof.
  intros Hc. destruct ref as [[rl ro] ra]. unfold exif_to_metadata, place, angles.
  assert (exists cc, match ex_compass e with Some c => try a := of_option KeyError (co_angle c) in Ok (Some a) | None => Ok None end = Ok cc /\ cc = (c ← ex_compass e; co_angle c)) as (cc & Ec & Ecc).
  { destruct (ex_compass e) as [c|]; [|by eexists]. cbn. destruct (co_angle c) as [a|]; [|done]. by eexists. }
  destruct (ex_gps e) as [g|] eqn:Eg; [destruct (gp_latlon g) as [[lat lon]|] eqn:El|].
  all: destruct (ex_opk e) as [o|] eqn:Eo; [destruct (op_angles o) as [[[w p] k]|] eqn:Ea|].
  all: rewrite Ec; cbn [res_bind]; eexists; (split; [reflexivity|]); cbn [ms_compass_angle ms_gravity_down ms_orientation ms_opk_angles ms_gps_position].
  all: repeat (split; [done|]); try done.
  all: exists (topocentric_from_lla lat lon (used_altitude ua g) rl ro ra), (used_altitude ua g); split; [done|].
  all: split; [by apply used_altitude_spec|apply (proj1 (C32_topocentric_lossless rl ro ra))].
Qed.
Lemma rotation_spec e ua ref meta : usable e -> exif_to_metadata e ua ref = Ok meta ->
  exists r, rotation_from_shot_metadata meta = Ok (Some r) /\ oriented e r.
Proof.
  intros [Hc Hu] Em. destruct (metadata_spec e ua ref Hc) as (meta' & Em' & E1 & E2 & E3 & E4 & _). rewrite Em in Em'. injection Em' as <-.
  unfold rotation_from_shot_metadata, rotation_from_angles, rotation_from_orientation_compass, shot_gravity_up_in_image_axis, oriented. rewrite E1, E2, E3, E4.
  destruct (angles e) as [[[w p] k]|]; cbn [fmap option_fmap option_map].
  - cbn [vx vy vz fst snd]. destruct Hu as (Hw & Hp & Hk). eexists. split; [reflexivity|]. by apply C63_opk.
  - destruct Hu as [Ha Hg]. assert (default 0 (c ← ex_compass e; co_angle c) = azimuth e) as -> by (unfold azimuth; by destruct (ex_compass e)).
    unfold up_in_image. destruct (ex_gravity_down e) as [g|].
    + cbn [res_bind]. eexists. split; [reflexivity|]. destruct Hg as [Hg0 [[Hx Hy]|Hn]].
      * assert (vopp g = Vec 0 0 (- vz g)) as -> by (destruct g; unfold vopp; cbn in *; subst; f_equal; ring).
        assert (- vz g <> 0) as Hz. { intros E. apply Hg0. destruct g; cbn in *. apply vec_eq; cbn; lra. }
        destruct (C63_compass_vertical (- vz g) (azimuth e) Hz) as [H1 H2]. split; [done|]. split; [|cbn; intros [H|H]; lra].
        assert (norm (Vec 0 0 (- vz g)) = Rabs (- vz g)) as ->. { unfold norm, dot. cbn. rewrite <- sqrt_Rsqr_abs. f_equal. unfold Rsqr. ring. }
        unfold vscale. cbn [vx vy vz]. rewrite !Rmult_0_r, (Rmult_comm (/ _)). fold (Rdiv (- vz g) (Rabs (- vz g))). rewrite <- H2. unfold mvec, camera_up_vector. cbn. f_equal; ring.
      * destruct (C63_compass (vopp g) (azimuth e)) as (H1 & _ & H2 & H3 & _).
        { intros E. by apply Hg0, vopp_0. }
        { rewrite norm_opp. eapply Rlt_le_trans; [exact Hn|]. right. f_equal. destruct g as [gx gy gz]. unfold vsub, vscale, vopp. cbn [vx vy vz]. unfold Rdiv. f_equal; ring. }
        { done. }
        split; [done|]. split; [done|]. intros _. destruct H3 as (h & Hh & ->). exists h. done.
    + destruct (guess_up (default 1%Z (ex_orientation e))) as (u & -> & Eu & Hu'). cbn [res_bind]. eexists. split; [reflexivity|].
      destruct (up_horizontal u (azimuth e) Hu' Ha) as (H1 & H2 & h & Hh & Hf). rewrite Eu in *. split; [done|]. split; [done|]. intros _. exists h. by rewrite Hf.
Qed.

Section Init.
Context {O : Type} (enumO : gmap string O -> list (string * O)) (HO : enumerates enumO).
Notation rec := (@map camera similarity pose vec shot_data mesh O (R * R * R)).
Definition identity_rig (m : rec) : Prop := forall rc p, m_rig_cameras m !! rc = Some p -> p = pose0.

(** The pose that is written *)
Definition placed_pose (r : option mat) (p : vec) : pose :=
  set_origin (match r with Some r => set_rotation_matrix pose0 r | None => pose0 end) p.
Lemma placed_pose_ok r p : rotation r -> valid (placed_pose (Some r) p) /\ w_rot (placed_pose (Some r) p) = r /\ get_origin (placed_pose (Some r) p) = p.
Proof.
  intros Hr. unfold placed_pose, set_origin. assert (valid (set_translation (set_rotation_matrix pose0 r) (vopp (mvec r p)))) as Hv by (apply valid_translation; done).
  split; [done|]. split; [done|]. unfold get_origin, set_translation, inv_tr. cbn [c_tr w_rot set_rotation_matrix].
  rewrite (rotation_inv _ Hr), mvec_opp, vopp_opp, <- mvec_mmul, (rotation_l _ Hr). apply mvec_I.
Qed.
Lemma enum_empty : enumO ∅ = [].
Proof. apply Permutation_nil_r. rewrite (HO ∅). by rewrite map_to_list_empty. Qed.

(** What one round does *)
Definition after (m : rec) (image cam inst rc : string) (meta : measurements) (q : option pose) : rec :=
  Map (m_cameras m) (m_bias m) (emplace rc pose0 (m_rig_cameras m))
    (<[inst := match q with Some q => Instance q {[image := (false, rc)]} | None => Instance pose0 ∅ end]> (m_instances m))
    (match q with Some _ => <[(false, image) := Shot cam rc inst (ShotData meta 1 [] 0) mesh0 ∅ ∅]> (m_shots m) | None => m_shots m end)
    (m_landmarks m) (m_reference m).
Lemma emplace_rig m rc : identity_rig m -> emplace rc pose0 (m_rig_cameras m) !! rc = Some pose0.
Proof. intros H. unfold emplace. destruct (m_rig_cameras m !! rc) as [p|] eqn:E; [rewrite E; f_equal; by eapply H|apply lookup_insert]. Qed.
Lemma modify_after m image cam inst rc meta q f : identity_rig m ->
  modify_pose (after m image cam inst rc meta (Some q)) (false, image) f = Ok (after m image cam inst rc meta (Some (f q))).
Proof.
  intros H. unfold modify_pose, after. cbn [m_shots m_instances m_rig_cameras]. rewrite lookup_insert. cbn [of_option res_bind sh_instance sh_rig_camera].
  rewrite lookup_insert, (emplace_rig _ _ H). cbn [of_option res_bind in_members in_pose]. rewrite is_identity_0, map_size_singleton.
  cbn [andb Nat.eqb]. unfold set_instances. cbn [m_cameras m_bias m_rig_cameras m_instances m_shots m_landmarks m_reference]. by rewrite insert_insert.
Qed.
Lemma remove_after m image cam inst rc meta q : m_shots m !! (false, image) = None ->
  remove_shot enumO (after m image cam inst rc meta (Some q)) (false, image) = Ok (Map (m_cameras m) (m_bias m) (emplace rc pose0 (m_rig_cameras m))
    (<[inst := Instance q ∅]> (m_instances m)) (m_shots m) (m_landmarks m) (m_reference m)).
Proof.
  intros H. unfold remove_shot, after. cbn [m_shots m_instances]. rewrite lookup_insert. cbn [sh_instance sh_obs]. rewrite lookup_insert. cbn [of_option res_bind]. unfold instance_remove_shot. cbn [in_members in_pose snd].
  rewrite lookup_singleton. cbn [res_bind]. rewrite enum_empty. cbn [forget_shot res_bind set_instances set_shots set_landmarks m_cameras m_bias m_rig_cameras m_instances m_shots m_landmarks m_reference].
  rewrite insert_insert, delete_insert by done. by rewrite delete_singleton.
Qed.
Lemma add_image_spec ua ref rigs m image e inst rc : rig_of rigs image e = (inst, rc) -> inst <> "" -> rc <> "" ->
  identity_rig m -> is_Some (m_cameras m !! ex_camera e) -> m_shots m !! (false, image) = None -> usable e ->
  exists meta r, exif_to_metadata e ua ref = Ok meta /\ rotation_from_shot_metadata meta = Ok (Some r) /\ oriented e r /\
    add_image enumO ua ref rigs m image e = Ok (after m image (ex_camera e) inst rc meta (placed_pose (Some r) <$> ms_gps_position meta)).
Proof.
  intros Er Hi Hc Hrig [c Hcam] Hs Hu. destruct (metadata_spec e ua ref (proj1 Hu)) as (meta & Em & _).
  destruct (rotation_spec e ua ref meta Hu Em) as (r & Erot & Ho). exists meta, r. split; [done|]. split; [done|]. split; [done|].
  unfold add_image. change (image_rig rigs image (ex_camera e)) with (rig_of rigs image e). rewrite Er.
  assert (rec_add_rig_camera m rc pose0 = Ok (set_rig_cameras m (emplace rc pose0 (m_rig_cameras m)))) as E1.
  { unfold rec_add_rig_camera, create_rig_camera, emplace. destruct (m_rig_cameras m !! rc) eqn:E; [|done]. by destruct m. }
  rewrite E1. cbn [res_bind].
  assert (emplace rc pose0 (m_rig_cameras m) !! rc = Some pose0) as Erc.
  { unfold emplace. destruct (m_rig_cameras m !! rc) as [p|] eqn:E; [rewrite E; f_equal; by eapply Hrig|apply lookup_insert]. }
  set (m1 := set_rig_cameras m _).
  assert (rec_add_rig_instance m1 inst = Ok (set_instances m1 (<[inst := Instance pose0 ∅]> (m_instances m1)))) as E2.
  { unfold rec_add_rig_instance, create_instance. destruct (m_instances m1 !! inst); [done|]. cbn [res_bind set_instances m_instances]. by rewrite insert_insert. }
  rewrite E2. cbn [res_bind]. set (m2 := set_instances m1 _).
  assert (rec_create_shot m2 image (ex_camera e) pose0 (Some rc) (Some inst) =
    Ok (set_shots (set_instances m2 (<[inst := Instance pose0 {[image := (false, rc)]}]> (m_instances m2)))
          (<[(false, image) := Shot (ex_camera e) rc inst data0 mesh0 ∅ ∅]> (m_shots m2)))) as E3.
  { unfold rec_create_shot, truthy. rewrite !decide_False by done. cbn [default from_option Datatypes.id res_bind].
    replace (m_rig_cameras m2 !! rc) with (Some pose0) by done. replace (m_instances m2 !! inst) with (Some (Instance pose0 (∅ : gmap string (bool * string)))) by (symmetry; apply lookup_insert).
    cbn [of_option res_bind]. unfold create_shot. replace (m_shots m2 !! (false, image)) with (@None (shot shot_data mesh O)) by done.
    replace (m_cameras m2 !! ex_camera e) with (Some c) by done. replace (m_instances m2 !! inst) with (Some (Instance pose0 (∅ : gmap string (bool * string)))) by (symmetry; apply lookup_insert).
    replace (m_rig_cameras m2 !! rc) with (Some pose0) by done. unfold instance_add_shot. rewrite decide_True by apply map_Forall_empty. cbn [res_bind fst snd in_pose in_members].
    unfold instance_update_pose. cbn [in_members in_pose]. rewrite lookup_insert. replace (m_rig_cameras m2 !! rc) with (Some pose0) by done. cbn [of_option res_bind].
    rewrite (compose_inverse_l _ valid_pose0). done. }
  rewrite E3. cbn [res_bind]. rewrite Em. cbn [res_bind]. unfold assign_shot. cbn [m_shots set_shots]. rewrite lookup_insert. cbn [res_bind sh_camera sh_rig_camera sh_instance sh_mesh sh_obs sh_feat].
  match goal with |- context [Ok ?x] => replace x with (after m image (ex_camera e) inst rc meta (Some pose0)) end.
  2:{ unfold after, set_instances, set_shots, m2, m1, set_rig_cameras. cbn [m_cameras m_bias m_rig_cameras m_instances m_shots m_landmarks m_reference set_instances set_shots]. by rewrite !insert_insert. }
  cbn [res_bind]. destruct (ms_gps_position meta) as [p|].
  - rewrite Erot. cbn [res_bind fmap option_fmap option_map]. rewrite (modify_after _ _ _ _ _ _ _ _ Hrig). cbn [res_bind]. by rewrite (modify_after _ _ _ _ _ _ _ _ Hrig).
  - by rewrite remove_after.
Qed.

Definition is_placed (ua : bool) (ref : R * R * R) (rigs : gmap string (string * string * list string)) (m : rec) (image : string) (e : exif) : Prop :=
  match place e with
  | None => m_shots m !! (false, image) = None
  | Some (lat, lon) => exists meta p alt, exif_to_metadata e ua ref = Ok meta /\
      m_shots m !! (false, image) = Some (Shot (ex_camera e) (rig_of rigs image e).2 (rig_of rigs image e).1 (ShotData meta 1 [] 0) mesh0 ∅ ∅) /\
      m_instances m !! (rig_of rigs image e).1 = Some (Instance p {[image := (false, (rig_of rigs image e).2)]}) /\
      m_rig_cameras m !! (rig_of rigs image e).2 = Some pose0 /\
      valid p /\ oriented e (w_rot p) /\ is_altitude ua e alt /\
      affine_apply (ecef_from_topocentric_transform ref.1.1 ref.1.2 ref.2) (get_origin p) = ecef_from_lla lat lon alt
  end.
Lemma add_image_placed ua ref rigs m image e : named rigs image e ->
  identity_rig m -> is_Some (m_cameras m !! ex_camera e) -> m_shots m !! (false, image) = None -> usable e ->
  exists m', add_image enumO ua ref rigs m image e = Ok m' /\
    m_cameras m' = m_cameras m /\ m_bias m' = m_bias m /\ m_landmarks m' = m_landmarks m /\ m_reference m' = m_reference m /\ identity_rig m' /\
    (forall rc p, m_rig_cameras m !! rc = Some p -> m_rig_cameras m' !! rc = Some p) /\
    (forall k, k <> (false, image) -> m_shots m' !! k = m_shots m !! k) /\
    (forall i, i <> (rig_of rigs image e).1 -> m_instances m' !! i = m_instances m !! i) /\
    is_placed ua ref rigs m' image e.
Proof.
  intros [Hi Hc] Hrig Hcam Hs Hu. destruct (rig_of rigs image e) as [inst rc] eqn:Er.
  destruct (add_image_spec ua ref rigs m image e inst rc Er Hi Hc Hrig Hcam Hs Hu) as (meta & r & Em & _ & Ho & ->).
  eexists. split; [reflexivity|]. unfold after. cbn [m_cameras m_bias m_rig_cameras m_instances m_shots m_landmarks m_reference]. do 4 (split; [done|]).
  assert (emplace rc pose0 (m_rig_cameras m) !! rc = Some pose0) as Erc.
  { unfold emplace. destruct (m_rig_cameras m !! rc) as [p|] eqn:E; [rewrite E; f_equal; by eapply Hrig|apply lookup_insert]. }
  split; [|split; [|split; [|split]]].
  - intros rc' p. cbn [m_rig_cameras]. destruct (decide (rc' = rc)) as [->|Hne]; [rewrite Erc; by intros [= <-]|]. unfold emplace. destruct (m_rig_cameras m !! rc); [apply Hrig|]. rewrite lookup_insert_ne by done. apply Hrig.
  - intros rc' p H. unfold emplace. destruct (m_rig_cameras m !! rc) eqn:E; [done|]. rewrite lookup_insert_ne; [done|]. intros ->. by rewrite E in H.
  - intros k Hk. destruct (_ <$> _); [|done]. by rewrite lookup_insert_ne.
  - intros i Hne. cbn in Hne. by rewrite lookup_insert_ne.
  - unfold is_placed. rewrite Er. cbn [fst snd m_shots m_instances m_rig_cameras]. destruct (metadata_spec e ua ref (proj1 Hu)) as (meta' & Em' & _ & _ & _ & _ & Hp). rewrite Em in Em'. injection Em' as <-.
    destruct (place e) as [[lat lon]|].
    + destruct Hp as (p & alt & Ep & Halt & HT). rewrite Ep. cbn [fmap option_fmap option_map]. destruct (placed_pose_ok r p (proj1 Ho)) as (V1 & V2 & V3).
      exists meta, (placed_pose (Some r) p), alt. rewrite !lookup_insert, V2, V3. done.
    + rewrite Hp. done.
Qed.
Lemma is_placed_frame ua ref rigs m m' image e : is_placed ua ref rigs m image e -> m_shots m' !! (false, image) = m_shots m !! (false, image) ->
  m_instances m' !! (rig_of rigs image e).1 = m_instances m !! (rig_of rigs image e).1 -> (forall rc p, m_rig_cameras m !! rc = Some p -> m_rig_cameras m' !! rc = Some p) ->
  is_placed ua ref rigs m' image e.
Proof.
  unfold is_placed. intros H E1 E2 E3. destruct (place e) as [[lat lon]|]; [|by rewrite E1]. destruct H as (meta & p & alt & H1 & H2 & H3 & H4 & H5).
  exists meta, p, alt. rewrite E1, E2. do 3 (split; [done|]). split; [by apply E3|done].
Qed.
Lemma add_images_placed ua ref rigs l : forall m, NoDup l.*1 -> NoDup ((fun ie => (rig_of rigs ie.1 ie.2).1) <$> l) ->
  (forall image e, (image, e) ∈ l -> named rigs image e /\ is_Some (m_cameras m !! ex_camera e) /\ m_shots m !! (false, image) = None /\ usable e) -> identity_rig m ->
  exists m', add_images enumO ua ref rigs m l = Ok m' /\
    m_cameras m' = m_cameras m /\ m_bias m' = m_bias m /\ m_landmarks m' = m_landmarks m /\ m_reference m' = m_reference m /\ identity_rig m' /\
    (forall rc p, m_rig_cameras m !! rc = Some p -> m_rig_cameras m' !! rc = Some p) /\
    (forall k, (forall image e, (image, e) ∈ l -> k <> (false, image)) -> m_shots m' !! k = m_shots m !! k) /\
    (forall i, (forall image e, (image, e) ∈ l -> i <> (rig_of rigs image e).1) -> m_instances m' !! i = m_instances m !! i) /\
    (forall image e, (image, e) ∈ l -> is_placed ua ref rigs m' image e).
Proof.
  induction l as [|[image e] l IH]; intros m Hn1 Hn2 Hl Hrig.
  - exists m. split; [done|]. do 5 (split; [done|]). do 3 (split; [done|]). intros image e H. by apply elem_of_nil in H.
  - cbn [add_images]. cbn in Hn1, Hn2. apply NoDup_cons in Hn1 as [Hn1 Hn1'], Hn2 as [Hn2 Hn2'].
    destruct (Hl image e) as (Hnm & Hcam & Hs & Hu); [left|].
    destruct (add_image_placed ua ref rigs m image e Hnm Hrig Hcam Hs Hu) as (m1 & -> & C1 & C2 & C3 & C4 & C5 & C6 & C7 & C8 & C9). cbn [res_bind].
    destruct (IH m1 Hn1' Hn2') as (m' & -> & D1 & D2 & D3 & D4 & D5 & D6 & D7 & D8 & D9); [|done|].
    { intros image' e' Hin. destruct (Hl image' e') as (H1 & H2 & H3 & H4); [by right|]. rewrite C1, C7; [done|]. intros [= ->]. apply Hn1. apply elem_of_list_fmap. by exists (image, e'). }
    exists m'. split; [done|]. rewrite D1, D2, D3, D4. do 4 (split; [done|]). split; [done|]. split; [auto|]. split; [|split].
    + intros k Hk. rewrite D7, C7; [done| |]; [apply (Hk image e); left|intros; eapply Hk; by right].
    + intros i Hi. rewrite D8, C8; [done| |]; [apply (Hi image e); left|intros; eapply Hi; by right].
    + intros image' e' Hin. apply elem_of_cons in Hin as [[= -> ->]|Hin]; [|by apply D9].
      eapply is_placed_frame; [exact C9|apply D7|apply D8|done].
      * intros image' e' Hin [= ->]. apply Hn1. apply elem_of_list_fmap. by exists (image', e').
      * intros image' e' Hin E. apply Hn2. apply elem_of_list_fmap. exists (image', e'). by rewrite E.
Qed.
End Init.
