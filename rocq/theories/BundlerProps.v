(** C72: the Bundler file written by the export describes the same cameras, points and views as the reconstruction. *)
From stdpp Require Import prelude gmap strings.
From Coq Require Import Reals Lra Psatz.
From Verif Require Import Base JsonModel CamModel ProjModel Lin RotModel TracksModel PoseModel CamSpec CameraSpec CameraProps GcpProofs BundlerModel BundlerSpec BundlerProofs.
Local Open Scope R_scope.

(** The export succeeds when every exported camera has a focal length, k1 and k2 and is not a brown camera, every point has a track, and
    every reconstructed image that observes a point is in the list. *)
Definition exportable (c : camera) : Prop := cam_type c <> BROWN /\ forall a, a ∈ [Focal; K1; K2] -> exists x, get_param c a = Ok x.
Theorem C72_succeeds enumO images s tracks : enumerates enumO -> NoDup images ->
  (forall i c p, i ∈ images -> sc_shots s !! i = Some (c, p) -> exportable c) ->
  (forall pt, pt ∈ sc_points s -> exists views, tm_track_obs tracks pt.1 = Ok views /\
     forall shot, is_Some (views !! shot) -> is_Some (sc_shots s !! shot) -> shot ∈ images) ->
  exists f, export_bundler enumO images s tracks = Ok f.
Proof.
  intros HE HN HC HP. unfold export_bundler.
  assert (exists cams, mapR (bundler_camera_line s) images = Ok cams) as [cams ->].
  { clear HN HP. induction images as [|i images IH]; [by exists []|]. cbn. fold (mapR (bundler_camera_line s)).
    destruct IH as [cams ->]; [intros j c p Hj; apply HC; by right|].
    unfold bundler_camera_line. destruct (sc_shots s !! i) as [[c p]|] eqn:Es; [|by eexists].
    destruct (HC i c p ltac:(by left) Es) as [Hb Hx].
    destruct (Hx Focal) as [f Hf]; [set_solver|]. destruct (Hx K1) as [k1 H1]; [set_solver|]. destruct (Hx K2) as [k2 H2]; [set_solver|].
    unfold bundler_camera_of, bundler_focal. rewrite H1, H2. destruct (cam_type c); try done; rewrite Hf; cbn; by eexists. }
  cbn [res_bind]. set (order := enumerate_from 0 images ∅).
  assert (exists pts, mapR (bundler_point_of enumO s tracks order) (sc_points s) = Ok pts) as [pts ->]; [|by eexists].
  revert HP. generalize (sc_points s). induction l as [|pt l IH]; intros HP; [by exists []|]. cbn. fold (mapR (bundler_point_of enumO s tracks order)).
  destruct IH as [pts ->]; [intros pt' H'; apply HP; by right|].
  destruct (HP pt) as (views & Hv & Hs); [by left|]. unfold bundler_point_of. rewrite Hv. cbn [res_bind].
  destruct (views_ok s order (enumO views)) as [vs ->]; [|cbn; by eexists].
  intros [k o] Ho Hsome. cbn in *. rewrite (HE views) in Ho. apply elem_of_map_to_list in Ho.
  specialize (Hs k ltac:(by rewrite Ho) Hsome). apply elem_of_list_lookup in Hs as [n Hn]. exists n. by apply enumerate_spec.
Qed.

(** What the file holds. *)
Theorem C72_file enumO images s tracks f : enumerates enumO -> NoDup images -> export_bundler enumO images s tracks = Ok f ->
  (** the counts of the header are the numbers of cameras and of points that follow *)
  bf_num_shot f = length (bf_cameras f) /\ bf_num_point f = length (bf_points f) /\
  (** camera i is the one of the i-th image of the list if it is in the reconstruction, else it is marked as not reconstructed *)
  (forall i image, images !! i = Some image -> exists b, bf_cameras f !! i = Some b /\
     (b = None <-> sc_shots s !! image = None)) /\
  (** point j is the j-th point; its views are the observations of its track by the images of the reconstruction, each once *)
  (forall j id X col, sc_points s !! j = Some (id, (X, col)) -> exists pt, bf_points f !! j = Some pt /\
     bp_position pt = X /\ bp_color pt = col /\ NoDup (bv_camera <$> bp_views pt) /\
     forall v, v ∈ bp_views pt <-> exists image c p o, images !! bv_camera v = Some image /\ sc_shots s !! image = Some (c, p) /\
       (exists l, tm_track_obs tracks id = Ok l /\ l !! image = Some o) /\
       bv_key v = o_feature o /\ (bv_x v, bv_y v) = in_pixels_y_up (cam_width c) (cam_height c) (o_x o, o_y o)).
Proof.
  intros HE HN. unfold export_bundler. set (order := enumerate_from 0 images ∅).
  destruct (mapR (bundler_camera_line s) images) as [cams|] eqn:Ec; [|done]. cbn [res_bind].
  destruct (mapR (bundler_point_of enumO s tracks order) (sc_points s)) as [pts|] eqn:Ep; [|done]. cbn [res_bind]. intros [= <-].
  apply mapR_ok in Ec, Ep. cbn [bf_num_shot bf_num_point bf_cameras bf_points]. split; [by eapply Forall2_length|]. split; [by eapply Forall2_length|]. split.
  - intros i image Hi. destruct (Forall2_lookup_l _ _ _ _ _ Ec Hi) as (b & Hb & Hl). exists b. split; [done|].
    unfold bundler_camera_line in Hl. destruct (sc_shots s !! image) as [[c p]|]; [|by injection Hl as <-].
    destruct (bundler_camera_of c p); [|done]. cbn in Hl. by injection Hl as <-.
  - intros j id X col Hj. destruct (Forall2_lookup_l _ _ _ _ _ Ep Hj) as (pt & Hpt & Hl). exists pt. split; [done|].
    unfold bundler_point_of in Hl. cbn [fst snd] in Hl. destruct (tm_track_obs tracks id) as [l|] eqn:El; [|done]. cbn [res_bind] in Hl.
    destruct (bundler_views s order (enumO l)) as [vs|] eqn:Ev; [|done]. cbn [res_bind] in Hl. injection Hl as <-. cbn [bp_position bp_color bp_views].
    split; [done|]. split; [done|]. apply views_spec in Ev as [-> Ho]. split.
    + assert (HND : NoDup ((enumO l).*1)) by (rewrite (HE l); apply NoDup_fst_map_to_list).
      revert HND Ho. generalize (enumO l). clear -HN. induction l as [|so l IH]; intros HND Ho; [constructor|].
      cbn in HND. apply NoDup_cons in HND as [Hnin HND]. cbn. specialize (IH HND ltac:(intros so' H'; apply Ho; by right)).
      destruct (sc_shots s !! so.1) as [[c p]|] eqn:Es; [|done]. cbn. constructor; [|done].
      intros Hin. apply elem_of_list_fmap in Hin as (v & Hv & Hin). apply elem_of_list_omap in Hin as (so' & Hso' & Hm).
      destruct (sc_shots s !! so'.1) as [[c' p']|] eqn:Es'; [|done]. injection Hm as <-. cbn in Hv.
      destruct (Ho so ltac:(by left) ltac:(by rewrite Es)) as [n Hn]. destruct (Ho so' ltac:(by right) ltac:(by rewrite Es')) as [n' Hn'].
      rewrite Hn, Hn' in Hv. cbn in Hv. subst n'. apply (enumerate_spec images) in Hn, Hn'; [|done..]. rewrite Hn in Hn'. injection Hn' as Hn'.
      apply Hnin. rewrite Hn'. by apply elem_of_list_fmap_1.
    + intros v. rewrite elem_of_list_omap. split.
      * intros ([k o] & Hko & Hv). cbn [fst snd] in Hv. destruct (sc_shots s !! k) as [[c p]|] eqn:Es; [|done]. injection Hv as <-. cbn.
        destruct (Ho (k, o) Hko ltac:(cbn; by rewrite Es)) as [n Hn]. cbn in Hn. rewrite Hn. cbn. apply (enumerate_spec images) in Hn; [|done].
        exists k, c, p, o. split; [done|]. split; [done|]. split; [exists l; split; [done|]; rewrite (HE l) in Hko; by apply elem_of_map_to_list|].
        split; [done|]. unfold in_pixels_y_up, camera_scale. cbn. f_equal; ring.
      * intros (image & c & p & o & Hi & Hs & (l' & [= <-] & Hl) & Hk & Hxy). exists (image, o). split.
        { rewrite (HE l). by apply elem_of_map_to_list. }
        cbn. rewrite Hs. apply (enumerate_spec images) in Hi; [|done]. fold order in Hi. rewrite Hi. cbn. f_equal. destruct v as [n k x y]. cbn in *. subst k.
        unfold in_pixels_y_up in Hxy. cbn in Hxy. injection Hxy as -> ->. unfold camera_scale. f_equal; ring.
Qed.

(** Read by the format's own formula, the camera of every image with a perspective camera sees every point where the reconstruction does. *)
Theorem C72_projection enumO images s tracks f i image c p : enumerates enumO -> NoDup images -> export_bundler enumO images s tracks = Ok f ->
  images !! i = Some image -> sc_shots s !! image = Some (c, p) -> made c -> cam_type c = PERSPECTIVE ->
  exists b, bf_cameras f !! i = Some (Some b) /\
  forall X, vz (transform p X) <> 0 -> exists q, Project c (transform p X) = Some q /\
    bundler_sees (bc_focal b) (bc_k1 b) (bc_k2 b) (bc_rotation b) (bc_translation b) X = in_pixels_y_up (cam_width c) (cam_height c) q.
Proof.
  intros HE HN Hf Hi Hs Hm Ht. unfold export_bundler in Hf.
  destruct (mapR (bundler_camera_line s) images) as [cams|] eqn:Ec; [|done]. cbn [res_bind] in Hf.
  destruct (mapR _ (sc_points s)) as [pts|] eqn:Ep; [|done]. cbn [res_bind] in Hf. injection Hf as <-. cbn [bf_cameras].
  apply mapR_ok in Ec. destruct (Forall2_lookup_l _ _ _ _ _ Ec Hi) as (b & Hb & Hl). unfold bundler_camera_line in Hl. rewrite Hs in Hl.
  destruct (bundler_camera_of c p) as [b'|] eqn:Eb; [|done]. cbn in Hl. injection Hl as <-. exists b'. split; [done|].
  intros X HX. by apply perspective_projection.
Qed.
(** In front of the camera (positive depth) is in front of the Bundler camera (negative z), and the rotation is one. *)
Theorem C72_frame c p b : bundler_camera_of c p = Ok b ->
  (forall X, vz (vadd (mvec (bc_rotation b) X) (bc_translation b)) = - vz (transform p X)) /\ (rotation (w_rot p) -> rotation (bc_rotation b)).
Proof.
  intros Hb. assert (bc_rotation b = flip_rows (w_rot p) /\ bc_translation b = flip (get_translation p)) as [-> ->].
  { unfold bundler_camera_of in Hb. destruct (bundler_focal c); [|done]. cbn in Hb. destruct (get_param c K1); [|done]. cbn in Hb.
    destruct (get_param c K2); [|done]. cbn in Hb. by injection Hb as <-. }
  split.
  - intros X. unfold transform, flip_rows, flip, get_translation, vadd, mvec. cbn. ring.
  - intros HR. assert (E : flip_rows (w_rot p) = mmul (Mat 1 0 0 0 (-1) 0 0 0 (-1)) (w_rot p)).
    { unfold flip_rows, mmul. cbn. f_equal; ring. }
    rewrite E. apply rotation_mmul; [|done]. split; [unfold mmul, mT, mI; cbn; f_equal; ring|unfold det; cbn; ring].
Qed.

(** Brown cameras cannot be exported: the code reads an attribute that cameras do not have. *)
Theorem C72_brown_refuted enumO images s tracks image c p : image ∈ images -> sc_shots s !! image = Some (c, p) -> cam_type c = BROWN ->
  exists e, export_bundler enumO images s tracks = Err e.
Proof.
  intros Hi Hs Ht. unfold export_bundler.
  assert (exists e, mapR (bundler_camera_line s) images = Err e) as [e ->]; [|by exists e].
  induction images as [|a images IH]; [by apply elem_of_nil in Hi|]. cbn. fold (mapR (bundler_camera_line s)).
  destruct (decide (a = image)) as [->|Hne].
  - unfold bundler_camera_line, bundler_camera_of, bundler_focal. rewrite Hs, Ht. cbn. by eexists.
  - apply elem_of_cons in Hi as [Hi|Hi]; [done|]. destruct (IH Hi) as [e He]. destruct (bundler_camera_line s a); cbn; [|by eexists]. rewrite He. cbn. by eexists.
Qed.
(** A reconstructed image that is left out of the list and observes a point makes the export fail. *)
Theorem C72_missing_image_refuted enumO images s tracks pt views image : enumerates enumO -> NoDup images -> pt ∈ sc_points s ->
  tm_track_obs tracks pt.1 = Ok views -> is_Some (views !! image) -> is_Some (sc_shots s !! image) -> image ∉ images ->
  exists e, export_bundler enumO images s tracks = Err e.
Proof.
  intros HE HN Hpt Hv [o Ho] Hs Hni. destruct (export_bundler enumO images s tracks) as [f|e] eqn:Ef; [|by eexists]. exfalso.
  unfold export_bundler in Ef. destruct (mapR (bundler_camera_line s) images) as [cams|]; [|done]. cbn [res_bind] in Ef.
  destruct (mapR _ (sc_points s)) as [pts|] eqn:Ep; [|done]. apply mapR_ok in Ep. apply elem_of_list_lookup in Hpt as [j Hj].
  destruct (Forall2_lookup_l _ _ _ _ _ Ep Hj) as (b & Hb & Hl). unfold bundler_point_of in Hl. rewrite Hv in Hl. cbn [res_bind] in Hl.
  destruct (bundler_views _ _ _) as [vs|] eqn:Ev; [|done]. apply views_spec in Ev as [_ Hall].
  destruct (Hall (image, o)) as [n Hn]; [rewrite (HE views); by apply elem_of_map_to_list|done|]. cbn in Hn.
  apply (enumerate_spec images) in Hn; [|done]. apply Hni. by eapply elem_of_list_lookup_2.
Qed.

(** A fisheye camera is exported without complaint as a perspective camera with the same numbers, which sees points elsewhere. *)
Definition fisheye1 : camera := create_fisheye 1 0 0.
Theorem C72_fisheye_refuted : exists b q, bundler_camera_of fisheye1 pose0 = Ok b /\ Project fisheye1 (transform pose0 (Vec 1 0 1)) = Some q /\
  bundler_sees (bc_focal b) (bc_k1 b) (bc_k2 b) (bc_rotation b) (bc_translation b) (Vec 1 0 1) <> in_pixels_y_up (cam_width fisheye1) (cam_height fisheye1) q.
Proof.
  assert (HT : transform pose0 (Vec 1 0 1) = Vec 1 0 1) by (unfold transform, pose0, from_world_to_cam, mvec, vadd, mI, v0; cbn; f_equal; ring).
  assert (HA : axis_dist (Vec 1 0 1) = 1). { unfold axis_dist. cbn [vx vy]. replace (1 ^ 2 + 0 ^ 2) with 1 by ring. apply sqrt_1. }
  eexists. exists (documented FISHEYE (value_of fisheye1) (Vec 1 0 1)). split; [|split].
  { unfold bundler_camera_of, bundler_focal, fisheye1. unfold create_fisheye, new_camera, get_param, find_param. cbn. reflexivity. }
  { rewrite HT. apply (C45_project_documented fisheye1); [constructor|discriminate|]. intros _. rewrite HA. rewrite <- Rinv_1. apply Rinv_le_contravar; [lra|]. apply pow_R1_Rle. lra. }
  assert (V : value_of fisheye1 Focal = 1 /\ value_of fisheye1 K1 = 0 /\ value_of fisheye1 K2 = 0) by (unfold value_of, get_param, fisheye1; cbn; auto).
  destruct V as (V1 & V2 & V3).
  unfold documented. rewrite V1, V2, V3. unfold radially, radial_factor, equidistant, to_image, in_pixels_y_up, bundler_sees. rewrite HA.
  assert (HN : norm (Vec 1 0 1) = sqrt 2) by (unfold norm, dot; cbn; f_equal; ring).
  assert (HAn : axis_angle (Vec 1 0 1) = PI / 4).
  { unfold axis_angle. cbn [vz]. rewrite HN. replace (1 / sqrt 2) with (cos (PI / 4)) by apply cos_PI4. pose proof PI_RGT_0. rewrite acos_cos by lra. done. }
  rewrite HAn. cbn [vx vy vz bc_focal bc_k1 bc_k2 bc_rotation bc_translation foldr fst snd].
  unfold mvec, vadd, flip_rows, flip, get_translation, pose0, from_world_to_cam, mI, v0, camera_scale, fisheye1, create_fisheye, new_camera. cbn [vx vy vz w_rot w_tr m11 m12 m13 m21 m22 m23 m31 m32 m33 cam_width cam_height].
  change (Z.max 1 1) with 1%Z. intros E. injection E as E _.
  assert (PI / 4 < 1). { pose proof PI_4. assert (PI < 4); [|lra]. pose proof (proj2 (PI_ineq 1)) as HP. unfold tg_alt, PI_tg in HP. simpl in HP. lra. }
  assert (E2 : 1 = PI / 4); [|lra].
  etransitivity; [|etransitivity; [exact E|]]; field; lra.
Qed.

(** A concrete case: two perspective images, one point seen by both, a third image of the list not reconstructed. *)
Definition cam1 : camera := create_perspective 1 0 0.
Definition ob (x y : R) (f : Z) : obs := Obs x y 1 0 0 0 f (-1) (-1) None.
Definition scene1 : scene := Scene {["a" := (cam1, pose0); "b" := (cam1, pose0)]} [("p", (Vec 0 0 2, (1, 2, 3)%Z))].
Definition tracks1 : @tm obs := tm_add (tm_add tm_empty "a" "p" (ob 0 0 5)) "b" "p" (ob 0.1 0.2 6).
Example C72_concrete : exists f, export_bundler map_to_list ["a"; "b"; "c"] scene1 tracks1 = Ok f /\ bf_num_shot f = 3%nat /\ bf_num_point f = 1%nat /\
  exists pt, bf_points f !! 0%nat = Some pt /\ length (bp_views pt) = 2%nat.
Proof.
  eexists. split; [vm_compute; reflexivity|]. split; [reflexivity|]. split; [reflexivity|]. eexists. split; [reflexivity|reflexivity].
Qed.
Print Assumptions C72_succeeds. Print Assumptions C72_file. Print Assumptions C72_projection. Print Assumptions C72_frame.
Print Assumptions C72_brown_refuted. Print Assumptions C72_missing_image_refuted. Print Assumptions C72_fisheye_refuted.
