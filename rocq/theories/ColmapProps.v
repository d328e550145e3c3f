(** C74: the COLMAP export describes the same cameras, poses, points and matches. *)
From stdpp Require Import prelude gmap strings.
From Coq Require Import Reals Lra Psatz.
From Verif Require Import Base JsonModel CamModel ProjModel Lin RotModel RotProofs TracksModel PoseModel PixelModel PoseSpec PoseProofs CamSpec CamProofs CameraSpec CameraProofs CameraProps
  GcpProofs BundlerModel NvmModel NvmSpec NvmProofs ColmapModel ColmapSpec ColmapProofs.
Local Open Scope R_scope.

(** Perspective, fisheye and brown cameras: COLMAP's model with the exported parameters sees every point in front of the camera at the pixel
    where OpenSfM's camera sees it. *)
Theorem C74_camera c p : made c -> cam_type c = PERSPECTIVE \/ cam_type c = FISHEYE \/ cam_type c = BROWN ->
  0 < vz p -> (cam_type c = FISHEYE -> / 10 ^ 8 <= axis_dist p) ->
  exists params m q, camera_to_colmap_params c = Ok params /\ COLMAP_TYPES_MAP (cam_type c) = Ok m /\ Project c p = Some q /\
    colmap_sees m params p = Some (colmap_pixel (cam_width c) (cam_height c) q).
Proof.
  intros Hm Ht Hz Hd. assert (Hr : representable (cam_type c)) by (by destruct Ht as [->|[->| ->]]).
  destruct (params_ok c Hm (or_introl Hr)) as (params & m & Hp & HT). destruct (camera_exact c p params m Hm Hr Hz Hd Hp HT) as (q & H1 & H2).
  by exists params, m, q.
Qed.
(** The opencv fisheye model is exact when the principal point is the centre, and off otherwise: the offset is not converted to pixels. *)
Theorem C74_fisheye_opencv_centred c p : made c -> cam_type c = FISHEYE_OPENCV -> value_of c Cx = 0 -> value_of c Cy = 0 -> 0 < vz p -> / 10 ^ 8 <= axis_dist p ->
  exists params q, camera_to_colmap_params c = Ok params /\ COLMAP_TYPES_MAP (cam_type c) = Ok M_OPENCV_FISHEYE /\ Project c p = Some q /\
    colmap_sees M_OPENCV_FISHEYE params p = Some (colmap_pixel (cam_width c) (cam_height c) q).
Proof.
  intros Hm Ht Hx Hy Hz Hd. destruct (params_ok c Hm (or_intror Ht)) as (params & m & Hp & HT).
  destruct (opencv_fisheye c p params Hm Ht Hz Hd Hp) as (q & H1 & H2). exists params, q. split; [done|]. split; [by rewrite Ht|]. split; [done|]. rewrite H2, Hx, Hy. f_equal.
  destruct (colmap_pixel _ _ q). cbn. f_equal; ring.
Qed.
Theorem C74_fisheye_opencv_refuted c p : made c -> cam_type c = FISHEYE_OPENCV -> value_of c Cx <> 0 -> (1 < Z.max (cam_width c) (cam_height c))%Z ->
  0 < vz p -> / 10 ^ 8 <= axis_dist p ->
  exists params q, camera_to_colmap_params c = Ok params /\ Project c p = Some q /\
    colmap_sees M_OPENCV_FISHEYE params p <> Some (colmap_pixel (cam_width c) (cam_height c) q).
Proof.
  intros Hm Ht Hx Hw Hz Hd. destruct (params_ok c Hm (or_intror Ht)) as (params & m & Hp & HT).
  destruct (opencv_fisheye c p params Hm Ht Hz Hd Hp) as (q & H1 & H2). exists params, q. split; [done|]. split; [done|]. rewrite H2. intros E.
  destruct (colmap_pixel _ _ q) as [a b]. cbn in E. injection E as E _. apply IZR_lt in Hw.
  assert (E2 : (1 - IZR (Z.max (cam_width c) (cam_height c))) * value_of c Cx = 0) by lra. apply Rmult_integral in E2 as [E2|E2]; [lra|done].
Qed.
(** The other models are refused. *)
Theorem C74_other_models c : made c -> cam_type c ∉ [PERSPECTIVE; FISHEYE; BROWN; FISHEYE_OPENCV] -> exists e, camera_to_colmap_params c = Err e.
Proof.
  intros _ H. unfold camera_to_colmap_params. destruct (get_param c Focal); cbn [res_bind]; [|by eexists]. destruct (cam_type c);
    first [exfalso; apply H; solve [repeat first [apply elem_of_list_here|apply elem_of_list_further]]|by eexists].
Qed.

(** The number in the database is that of the model named in the text file; both tables have the same models. *)
Theorem C74_model_number t : COLMAP_ID_MAP t = match COLMAP_TYPES_MAP t with Ok m => Ok (colmap_number m) | Err e => Err e end.
Proof. by destruct t. Qed.

(** The pose: q and t give the coordinates of every point in the camera, unless the camera is not turned at all. *)
Theorem C74_pose p : valid p -> w_rot p <> mI ->
  exists q, angle_axis_to_quaternion (get_rotation p) = Some q /\ unit4 q /\ forall X, vadd (turn q X) (get_translation p) = transform p X.
Proof.
  intros HV HI. destruct (rotation_vector p HV) as [E L].
  destruct (angle_axis_turn (get_rotation p)) as (q & Hq & Hu & Ht); [|done|].
  - intros Hn. apply norm_0 in Hn. apply HI. rewrite <- E, Hn. apply exp_zero.
  - exists q. split; [done|]. split; [done|]. intros X. rewrite Ht, E. done.
Qed.
Theorem C74_identity_refuted p : valid p -> w_rot p = mI -> angle_axis_to_quaternion (get_rotation p) = None.
Proof.
  intros (HR & Hc & _) HI. unfold get_rotation. rewrite Hc, HI, mT_I. rewrite <- exp_zero, log_exp by (rewrite norm_v0; apply PI_RGT_0).
  unfold angle_axis_to_quaternion. rewrite norm_vopp, norm_v0. by destruct (Req_EM_T 0 0).
Qed.

(** The pair id of two images determines the two images. *)
Theorem C74_pair_id a b : (0 <= a < MAX_IMAGE_ID)%Z -> (0 <= b < MAX_IMAGE_ID)%Z ->
  pair_id_to_image_ids (image_ids_to_pair_id a b) = (Z.min a b, Z.max a b).
Proof.
  intros Ha Hb. unfold image_ids_to_pair_id, pair_id_to_image_ids.
  assert (G : forall x y, (0 <= x < MAX_IMAGE_ID)%Z -> (0 <= y < MAX_IMAGE_ID)%Z -> ((x * MAX_IMAGE_ID + y) mod MAX_IMAGE_ID = y /\ (x * MAX_IMAGE_ID + y - (x * MAX_IMAGE_ID + y) mod MAX_IMAGE_ID) / MAX_IMAGE_ID = x)%Z).
  { intros x y Hx Hy. assert (E : ((x * MAX_IMAGE_ID + y) mod MAX_IMAGE_ID = y)%Z) by (rewrite Z.add_comm, Z.mod_add by (vm_compute; lia); by apply Z.mod_small).
    split; [done|]. rewrite E. replace (x * MAX_IMAGE_ID + y - y)%Z with (x * MAX_IMAGE_ID)%Z by lia. apply Z.div_mul. vm_compute. lia. }
  destruct (decide (a > b)%Z) as [H|H].
  - destruct (G b a Hb Ha) as [G1 G2]. cbn zeta. rewrite G2, G1. f_equal; lia.
  - destruct (G a b Ha Hb) as [G1 G2]. cbn zeta. rewrite G2, G1. f_equal; lia.
Qed.
Theorem C74_pair_id_injective a b a' b' : (0 <= a < MAX_IMAGE_ID)%Z -> (0 <= b < MAX_IMAGE_ID)%Z -> (0 <= a' < MAX_IMAGE_ID)%Z -> (0 <= b' < MAX_IMAGE_ID)%Z ->
  image_ids_to_pair_id a b = image_ids_to_pair_id a' b' -> a = a' /\ b = b' \/ a = b' /\ b = a'.
Proof. intros Ha Hb Ha' Hb' E. pose proof (C74_pair_id a b Ha Hb) as E1. rewrite E, C74_pair_id in E1 by done. injection E1. lia. Qed.
(** Read back from the pair id, each row (i, j) of the matches of (id1, id2) pairs feature i of image id1 with feature j of image id2. *)
Theorem C74_match_rows id1 id2 matches i j : (0 <= id1 < MAX_IMAGE_ID)%Z -> (0 <= id2 < MAX_IMAGE_ID)%Z -> id1 <> id2 ->
  let '(pair_id, rows) := add_matches id1 id2 matches in
  let '(first, second) := pair_id_to_image_ids pair_id in
  ((i, j) ∈ matches <-> exists x y, (x, y) ∈ rows /\ (first = id1 /\ second = id2 /\ x = i /\ y = j \/ first = id2 /\ second = id1 /\ y = i /\ x = j)).
Proof.
  intros H1 H2 Hne. unfold add_matches. rewrite C74_pair_id by done. destruct (decide (id1 > id2)%Z) as [H|H].
  - rewrite Z.min_r, Z.max_l by lia. split.
    + intros Hm. exists j, i. split; [|right; done]. apply elem_of_list_fmap. by exists (i, j).
    + intros (x & y & Hx & [(E & _)|(_ & _ & -> & ->)]); [lia|]. apply elem_of_list_fmap in Hx as ([p q] & [= -> ->] & Hx). done.
  - rewrite Z.min_l, Z.max_r by lia. split.
    + intros Hm. exists i, j. split; [done|left; done].
    + intros (x & y & Hx & [(_ & _ & -> & ->)|(E & _)]); [done|lia].
Qed.
(** The matches of a pair are those of the files of both images, turned the same way. *)
Theorem C74_matches ltb files a b i j : (forall a b, ltb a b = true -> ltb b a = false) -> (forall a b, a <> b -> ltb a b = true \/ ltb b a = true) ->
  ltb a b = true -> (forall f l ms, (f, l) ∈ files -> (f, ms) ∉ l) ->
  (exists s, matches_per_pair ltb files !! (a, b) = Some s /\ (i, j) ∈ s) <->
  (exists l ms, (a, l) ∈ files /\ (b, ms) ∈ l /\ (i, j) ∈ ms) \/ (exists l ms, (b, l) ∈ files /\ (a, ms) ∈ l /\ (j, i) ∈ ms).
Proof. intros H1 H2 Hab Hs. apply (per_pair_spec ltb H1 H2 files a b i j Hab Hs). Qed.

(** The database ids of cameras and images are 1, 2, ... in order, and every image has the camera of its metadata. *)
Theorem C74_ids cameras image_cameras rows images images_map camera_map : NoDup (cameras.*1) -> NoDup (image_cameras.*1) ->
  export_cameras cameras image_cameras = Ok (rows, images, images_map, camera_map) ->
  (forall name n, camera_map !! name = Some n <-> (1 <= n)%Z /\ cameras.*1 !! Z.to_nat (n - 1) = Some name) /\
  (forall name n, images_map !! name = Some n <-> (1 <= n)%Z /\ image_cameras.*1 !! Z.to_nat (n - 1) = Some name) /\
  (forall i name cam, image_cameras !! i = Some (name, cam) -> exists n, images !! i = Some n /\ camera_map !! cam = Some n) /\
  (forall i name c, cameras !! i = Some (name, c) -> exists ty params, rows !! i = Some (ty, params) /\ camera_to_colmap_params c = Ok params /\ COLMAP_ID_MAP (cam_type c) = Ok ty).
Proof.
  intros HN1 HN2. unfold export_cameras. destruct (mapR _ cameras) as [rows'|] eqn:Er; [|done]. cbn [res_bind].
  destruct (mapR _ image_cameras) as [images'|] eqn:Ei; [|done]. cbn [res_bind]. intros [= -> -> <- <-].
  split; [intros name n; by apply number_spec|]. split; [intros name n; by apply number_spec|]. split.
  - intros i name cam Hi. apply mapR_ok in Ei. destruct (Forall2_lookup_l _ _ _ _ _ Ei Hi) as (n & Hn & Hl). exists n. split; [done|]. cbn in Hl.
    destruct (number_from 1 cameras.*1 ∅ !! cam); [|done]. by injection Hl as ->.
  - intros i name c Hi. apply mapR_ok in Er. destruct (Forall2_lookup_l _ _ _ _ _ Er Hi) as ([ty ps] & Hn & Hl). cbn in Hl.
    destruct (camera_to_colmap_params c) as [ps'|]; [|done]. cbn in Hl. destruct (COLMAP_ID_MAP (cam_type c)) as [ty'|]; [|done]. injection Hl as -> ->. by exists ty, ps.
Qed.

(** The keypoints are half a pixel away from where COLMAP has them, in both directions: its pixels have their centre at (0.5, 0.5). *)
Theorem C74_keypoints points width height i p : points !! i = Some p -> exists k, export_features points width height !! i = Some k /\
  k.1 = (colmap_pixel width height p).1 - 1 / 2 /\ k.2 = (colmap_pixel width height p).2 - 1 / 2.
Proof.
  intros Hi. exists (denormalized_image_coordinates p width height). split; [unfold export_features; by rewrite list_lookup_fmap, Hi|].
  unfold denormalized_image_coordinates, colmap_pixel. cbn. split; lra.
Qed.

(** The points of the file: the points of all reconstructions in order, numbered from 0; the track of a point is its observations by the
    shots of its reconstruction. *)
Section Points.
Variable enumO : gmap string obs -> list (string * obs).
Variables (images_map : gmap string Z) (tracks : @tm obs).
Notation export_points := (export_points enumO images_map tracks).
Lemma track_spec s l tr : colmap_track images_map s l = Ok tr ->
  (forall im f, (im, f) ∈ tr <-> exists name o, (name, o) ∈ l /\ is_Some (sc_shots s !! name) /\ images_map !! name = Some im /\ f = o_feature o).
Proof.
  revert tr. induction l as [|[name o] l IH]; intros tr; cbn.
  { intros [= <-] im f. split; [intros H; by apply elem_of_nil in H|]. intros (? & ? & H & _). by apply elem_of_nil in H. }
  fold (colmap_track images_map s l). destruct (colmap_track images_map s l) as [rest|]; [|done]. cbn [res_bind]. specialize (IH rest eq_refl).
  destruct (decide (is_Some (sc_shots s !! name))) as [Hs|Hs].
  - destruct (images_map !! name) as [im0|] eqn:E; [|done]. cbn. intros [= <-] im f. rewrite elem_of_cons, IH. split.
    + intros [[= -> ->]|(n & o' & H & H')]; [exists name, o; split; [by left|done]|exists n, o'; split; [by right|done]].
    + intros (n & o' & [[= -> ->]|H]%elem_of_cons & H1 & H2 & ->); [left; rewrite E in H2; by injection H2 as ->|right; by exists n, o'].
  - intros [= <-] im f. rewrite IH. split.
    + intros (n & o' & H & H'). exists n, o'. split; [by right|done].
    + intros (n & o' & [[= -> ->]|H]%elem_of_cons & H1 & H2 & ->); [done|by exists n, o'].
Qed.
Lemma points_spec recs : forall out pm i out' pm' i',
  foldRes (fun st s => foldRes (colmap_point_step enumO images_map tracks s) (sc_points s) st) recs (out, pm, i) = Ok (out', pm', i') -> length out = i ->
  exists new, out' = out ++ new /\ i' = length out' /\
    Forall2 (fun sp cp => cp_position cp = sp.2.2.1 /\ cp_color cp = sp.2.2.2 /\ exists os, tm_track_obs tracks sp.2.1 = Ok os /\ colmap_track images_map sp.1 (enumO os) = Ok (cp_track cp))
      (s ← recs; pt ← sc_points s; [(s, pt)]) new /\
    (forall n cp, new !! n = Some cp -> cp_id cp = (i + n)%nat) /\
    (forall k, k ∉ (s ← recs; (sc_points s).*1) -> pm' !! k = pm !! k) /\
    (forall n sp, (s ← recs; pt ← sc_points s; [(s, pt)]) !! n = Some sp -> NoDup (s ← recs; (sc_points s).*1) -> pm' !! sp.2.1 = Some (i + n)%nat).
Proof.
  assert (Inner : forall s l out pm i out' pm' i', foldRes (colmap_point_step enumO images_map tracks s) l (out, pm, i) = Ok (out', pm', i') -> length out = i ->
    exists new, out' = out ++ new /\ i' = length out' /\
    Forall2 (fun pt cp => cp_position cp = pt.2.1 /\ cp_color cp = pt.2.2 /\ exists os, tm_track_obs tracks pt.1 = Ok os /\ colmap_track images_map s (enumO os) = Ok (cp_track cp)) l new /\
    (forall n cp, new !! n = Some cp -> cp_id cp = (i + n)%nat) /\
    (forall k, k ∉ l.*1 -> pm' !! k = pm !! k) /\
    (forall n pt, l !! n = Some pt -> NoDup (l.*1) -> pm' !! pt.1 = Some (i + n)%nat)).
  { intros s. induction l as [|pt l IH]; intros out pm i out' pm' i' H Hl; cbn [foldRes] in H.
    - injection H as <- <- <-. exists []. rewrite app_nil_r. split; [done|]. split; [done|]. split; [constructor|]. split; [done|]. split; [done|]. done.
    - unfold colmap_point_step at 1 in H. destruct (tm_track_obs tracks pt.1) as [os|] eqn:Eo; [|done]. cbn [res_bind] in H.
      destruct (colmap_track images_map s (enumO os)) as [tr|] eqn:Et; [|done]. cbn [res_bind] in H. apply IH in H as (new & -> & -> & HF & Hid & Hk & Hn); [|rewrite app_length; cbn; lia].
      eexists (_ :: new). split; [by rewrite <- app_assoc|]. split; [done|]. split; [constructor; [|done]; split; [done|]; split; [done|]; by exists os|]. split.
      { intros [|n] cp Hcp; cbn in Hcp; [injection Hcp as <-; cbn; lia|]. rewrite (Hid _ _ Hcp). lia. }
      split.
      { intros k Hk'. cbn in Hk'. apply not_elem_of_cons in Hk' as [H1 H2]. rewrite Hk by done. by rewrite lookup_insert_ne. }
      intros [|n] pt' Hpt HND; cbn in Hpt, HND; apply NoDup_cons in HND as [Hni HND].
      { injection Hpt as <-. rewrite Hk by done. rewrite lookup_insert. f_equal. lia. }
      rewrite (Hn _ _ Hpt HND). f_equal. lia. }
  induction recs as [|s recs IH]; intros out pm i out' pm' i' H Hl; cbn [foldRes] in H.
  - injection H as <- <- <-. exists []. rewrite app_nil_r. split; [done|]. split; [done|]. split; [constructor|]. split; [done|]. split; done.
  - fold (foldRes (S := list colmap_point * gmap string nat * nat) (fun st s => foldRes (colmap_point_step enumO images_map tracks s) (sc_points s) st)) in H.
    destruct (foldRes (colmap_point_step enumO images_map tracks s) (sc_points s) (out, pm, i)) as [[[out1 pm1] i1]|] eqn:E1; [|done]. cbn [res_bind] in H.
    apply Inner in E1 as (new1 & -> & -> & HF1 & Hid1 & Hk1 & Hn1); [|done]. apply IH in H as (new & -> & -> & HF & Hid & Hk & Hn); [|done].
    assert (Hlen : length new1 = length (sc_points s)) by (symmetry; by eapply Forall2_length).
    assert (Hb : (pt ← sc_points s; [(s, pt)]) = (fun pt => (s, pt)) <$> sc_points s).
    { generalize (sc_points s). clear. induction l as [|a l IH]; [done|]. cbn. by f_equal. }
    exists (new1 ++ new). rewrite <- app_assoc. split; [done|]. split; [done|]. split.
    { cbn. rewrite Hb. apply Forall2_app; [|done]. apply Forall2_fmap_l. eapply Forall2_impl; [exact HF1|]. done. }
    split.
    { intros n cp Hcp. apply lookup_app_Some in Hcp as [Hcp|[Hge Hcp]]; [by apply Hid1|]. rewrite (Hid _ _ Hcp). rewrite app_length. lia. }
    split.
    { intros k Hk'. cbn in Hk'. apply not_elem_of_app in Hk' as [H1 H2]. rewrite Hk by done. by rewrite Hk1. }
    intros n sp Hsp HND. cbn in Hsp, HND. apply NoDup_app in HND as (N1 & N2 & N3). rewrite Hb in Hsp. apply lookup_app_Some in Hsp as [Hsp|[Hge Hsp]].
    + rewrite list_lookup_fmap in Hsp. destruct (sc_points s !! n) as [pt|] eqn:Ep; [|done]. injection Hsp as <-. cbn. rewrite Hk; [by apply Hn1|]. apply N2. apply elem_of_list_fmap. exists pt. split; [done|]. by eapply elem_of_list_lookup_2.
    + rewrite fmap_length in Hge, Hsp. rewrite (Hn _ _ Hsp N3). f_equal. rewrite app_length. lia.
Qed.
Theorem C74_points recs out pm n : export_points recs = Ok (out, pm, n) -> NoDup (s ← recs; (sc_points s).*1) -> enumerates enumO ->
  n = length out /\
  (** one point per point of a reconstruction, in order *)
  Forall2 (fun sp cp => (cp_position cp, cp_color cp) = sp.2.2 /\ pm !! sp.2.1 = Some (cp_id cp) /\
     forall im f, (im, f) ∈ cp_track cp <-> exists os name o, tm_track_obs tracks sp.2.1 = Ok os /\ os !! name = Some o /\ is_Some (sc_shots sp.1 !! name) /\
       images_map !! name = Some im /\ f = o_feature o) (s ← recs; pt ← sc_points s; [(s, pt)]) out /\
  (** numbered from 0 *)
  (forall i cp, out !! i = Some cp -> cp_id cp = i).
Proof.
  intros H HND HE. unfold ColmapModel.export_points in H. apply points_spec in H as (new & -> & -> & HF & Hid & _ & Hn); [|done]. cbn [app length] in *. split; [done|]. split; [|intros i cp Hi; by rewrite (Hid _ _ Hi)].
  apply Forall2_same_length_lookup. split; [by eapply Forall2_length|]. intros i [s [id [X col]]] cp Hsp Hcp.
  destruct (Forall2_lookup_lr _ _ _ _ _ _ HF Hsp Hcp) as (H1 & H2 & os & Hos & Htr). cbn [fst snd] in *. split; [by rewrite H1, H2|]. split.
  - pose proof (Hn _ _ Hsp HND) as E. cbn in E. rewrite E. by rewrite (Hid _ _ Hcp).
  - intros im f. rewrite (track_spec _ _ _ Htr). split.
    + intros (name & o & Hin & Hs & Him & ->). exists os, name, o. split; [done|]. rewrite (HE os) in Hin. apply elem_of_map_to_list in Hin. done.
    + intros (os' & name & o & Hos' & Hin & Hs & Him & ->). rewrite Hos in Hos'. injection Hos' as <-. exists name, o. rewrite (HE os). by rewrite elem_of_map_to_list.
Qed.
End Points.

(** The points of an image line are the features that have a point, in order, each with the id of its point. *)
Theorem C74_image_points ppf pm features : forall i xy id,
  (xy, id) ∈ image_points ppf pm i features <-> exists j k, features !! j = Some xy /\ ppf !! (i + Z.of_nat j)%Z = Some k /\ pm !! k = Some id.
Proof.
  induction features as [|a features IH]; intros i xy id; cbn [image_points].
  { split; [intros H; by apply elem_of_nil in H|]. intros (j & k & H & _). by rewrite lookup_nil in H. }
  assert (Hrec : (xy, id) ∈ image_points ppf pm (i + 1) features <-> exists j k, (a :: features) !! S j = Some xy /\ ppf !! (i + Z.of_nat (S j))%Z = Some k /\ pm !! k = Some id).
  { rewrite IH. split; intros (j & k & H1 & H2 & H3); exists j, k; (split; [done|split; [|done]]); [replace (i + Z.of_nat (S j))%Z with (i + 1 + Z.of_nat j)%Z by lia|replace (i + 1 + Z.of_nat j)%Z with (i + Z.of_nat (S j))%Z by lia]; done. }
  destruct (k ← ppf !! i; pm !! k) as [id0|] eqn:E.
  - apply bind_Some in E as (k0 & E1 & E2). rewrite elem_of_cons, Hrec. split.
    + intros [[= -> ->]|(j & k & H)]; [exists 0%nat, k0; split; [done|]; rewrite Z.add_0_r; done|by exists (S j), k].
    + intros ([|j] & k & H1 & H2 & H3); [|right; by exists j, k]. cbn in H1. injection H1 as ->. replace (i + Z.of_nat 0)%Z with i in H2 by lia. rewrite E1 in H2. injection H2 as <-. rewrite E2 in H3. injection H3 as <-. by left.
  - rewrite Hrec. split; [intros (j & k & H); by exists (S j), k|]. intros ([|j] & k & H1 & H2 & H3); [|by exists j, k].
    exfalso. replace (i + Z.of_nat 0)%Z with i in H2 by lia. rewrite H2 in E. cbn in E. congruence.
Qed.
(** The line of an image has its number, the number of its camera, its name, its pose and those points; features map to the track that was
    listed last for them. *)
Theorem C74_image_line enumO images_map camera_map tracks pm fm shot_id c p im : export_image enumO images_map camera_map tracks pm fm shot_id c p = Ok im ->
  images_map !! shot_id = Some (ci_id im) /\ camera_map !! cam_id c = Some (ci_camera im) /\ ci_name im = shot_id /\ ci_t im = get_translation p /\
  ci_q im = angle_axis_to_quaternion (get_rotation p) /\
  exists (os : gmap string obs) (feats : list (R * R)), tm_shot_obs tracks shot_id = Ok os /\ fm !! shot_id = Some feats /\
    (enumerates enumO -> (forall k k' o o', os !! k = Some o -> os !! k' = Some o' -> (o_feature o = o_feature o')%Z -> k = k') ->
     forall xy id, (xy, id) ∈ ci_points im <-> exists j k o, feats !! j = Some xy /\ os !! k = Some o /\ o_feature o = Z.of_nat j /\ pm !! k = Some id).
Proof.
  unfold export_image. destruct (camera_map !! cam_id c) as [cam|]; [|done]. cbn [of_option res_bind]. destruct (images_map !! shot_id) as [id|]; [|done]. cbn [of_option res_bind].
  destruct (tm_shot_obs tracks shot_id) as [os|]; [|done]. cbn [res_bind]. destruct (fm !! shot_id) as [feats|]; [|done]. cbn [of_option res_bind]. intros [= <-]. cbn [ci_id ci_camera ci_name ci_t ci_q ci_points].
  do 5 (split; [done|]). exists os, feats. split; [done|]. split; [done|]. intros HE Hinj xy i. rewrite C74_image_points.
  assert (HP : forall (l : list (string * obs)) (d : gmap Z string) f k, (forall k k' o o', (k, o) ∈ l -> (k', o') ∈ l -> (o_feature o = o_feature o')%Z -> k = k') ->
    foldl (fun d (ko : string * obs) => <[o_feature ko.2 := ko.1]> d) d l !! f = Some k <-> (exists o, (k, o) ∈ l /\ o_feature o = f) \/ (d !! f = Some k /\ forall k' o, (k', o) ∈ l -> o_feature o <> f)).
  { clear. induction l as [|[a oa] l IH]; intros d f k Hi; cbn [foldl].
    - split; [intros H; right; split; [done|]; intros k' o H'; by apply elem_of_nil in H'|intros [(o & H & _)|[H _]]; [by apply elem_of_nil in H|done]].
    - rewrite IH by (intros k1 k2 o1 o2 H1 H2; apply Hi; by right). cbn [fst snd]. split.
      + intros [(o & Ho & Hf)|[Hd Hl]]; [left; exists o; split; [by right|done]|]. destruct (decide (o_feature oa = f)) as [E|E].
        * rewrite E, lookup_insert in Hd. injection Hd as ->. left. exists oa. split; [by left|done].
        * rewrite lookup_insert_ne in Hd by done. right. split; [done|]. intros k' o [[= -> ->]|H]%elem_of_cons; [done|by eapply Hl].
      + intros [(o & [[= -> ->]|Ho]%elem_of_cons & Hf)|[Hd Hl]].
        * destruct (decide (Exists (fun ko : string * obs => ko.1 = a /\ o_feature ko.2 = f) l)) as [H|H].
          { apply Exists_exists in H as ([a' o] & Hin & Ea & Hf'). cbn in Ea, Hf'. subst a'. left. by exists o. } right. split; [by rewrite Hf, lookup_insert|].
          intros k' o Ho Hf'. apply H. assert (k' = a) as -> by (eapply Hi; [by right|by left|congruence]). apply Exists_exists. by exists (a, o).
        * left. by exists o.
        * right. split; [|intros k' o Ho; eapply Hl; by right]. rewrite lookup_insert_ne; [done|]. eapply (Hl a). by left. }
  assert (HP' : forall f k, point_per_feat (enumO os) !! f = Some k <-> exists o, os !! k = Some o /\ o_feature o = f).
  { intros f k. unfold point_per_feat. rewrite HP.
    - split; [intros [(o & Ho & Hf)|[H _]]; [|done]; exists o; by rewrite (HE os), elem_of_map_to_list in Ho|]. intros (o & Ho & Hf). left. exists o. by rewrite (HE os), elem_of_map_to_list.
    - intros k1 k2 o1 o2 H1 H2. rewrite (HE os), elem_of_map_to_list in H1, H2. by apply Hinj. }
  split.
  - intros (j & k & H1 & H2 & H3). apply HP' in H2 as (o & Ho & Hf). exists j, k, o. done.
  - intros (j & k & o & H1 & H2 & H3 & H4). exists j, k. split; [done|]. split; [|done]. apply HP'. by exists o.
Qed.
(** A pair is written when it has at least 10 matches of which more than 10 are kept, with the kept ones. *)
Theorem C74_pair_written images_map robust enum a b matches ia ib : images_map !! a = Some ia -> images_map !! b = Some ib ->
  export_pair images_map robust enum (a, b) matches =
    Ok (if decide (10 <= length (enum matches) /\ 10 < length (robust a b (enum matches)))%nat then Some (add_matches ia ib (robust a b (enum matches))) else None).
Proof.
  intros Ha Hb. unfold export_pair. cbn [fst snd]. rewrite Ha, Hb. cbn [of_option res_bind].
  destruct (Nat.ltb_spec (length (enum matches)) 10); [by rewrite decide_False by lia|]. destruct (Nat.ltb_spec 10 (length (robust a b (enum matches)))); [by rewrite decide_True by lia|by rewrite decide_False by lia].
Qed.
(** COLMAP's tracks refer to positions in that list. The export writes the feature number instead, which is that position as long as every
    feature up to it has a point ... *)
Theorem C74_track_index_partial ppf pm features f xy : features !! f = Some xy ->
  (forall j, (j <= f)%nat -> exists k id, ppf !! Z.of_nat j = Some k /\ pm !! k = Some id) ->
  exists k id, ppf !! Z.of_nat f = Some k /\ pm !! k = Some id /\ image_points ppf pm 0 features !! f = Some (xy, id).
Proof.
  assert (G : forall features i f xy, features !! f = Some xy -> (forall j, (j <= f)%nat -> exists k id, ppf !! (i + Z.of_nat j)%Z = Some k /\ pm !! k = Some id) ->
    exists k id, ppf !! (i + Z.of_nat f)%Z = Some k /\ pm !! k = Some id /\ image_points ppf pm i features !! f = Some (xy, id)).
  { clear. induction features as [|a features IH]; intros i f xy Hf Hall; [by rewrite lookup_nil in Hf|].
    destruct (Hall 0%nat ltac:(lia)) as (k0 & id0 & H1 & H2). replace (i + Z.of_nat 0)%Z with i in H1 by lia. cbn [image_points]. rewrite H1. cbn [mbind option_bind]. rewrite H2.
    destruct f as [|f]; cbn in Hf.
    - injection Hf as ->. exists k0, id0. replace (i + Z.of_nat 0)%Z with i by lia. done.
    - destruct (IH (i + 1)%Z f xy Hf) as (k & id & H3 & H4 & H5).
      { intros j Hj. destruct (Hall (S j) ltac:(lia)) as (k & id & H). exists k, id. by replace (i + 1 + Z.of_nat j)%Z with (i + Z.of_nat (S j))%Z by lia. }
      exists k, id. split; [by replace (i + Z.of_nat (S f))%Z with (i + 1 + Z.of_nat f)%Z by lia|]. done. }
  intros Hf Hall. apply (G features 0%Z f xy Hf). done.
Qed.
(** ... and designates another point of the image, or none, otherwise. *)
Theorem C74_track_index_refuted : exists ppf pm features xy, features !! 1%nat = Some xy /\ ppf !! 1%Z = Some "p" /\ pm !! "p" = Some 0%nat /\
  image_points ppf pm 0 features !! 1%nat = None.
Proof.
  exists {[1%Z := "p"]}, {["p" := 0%nat]}, [(0, 0); (1, 1)], (1, 1). split; [done|]. split; [done|]. split; [done|].
  cbn [image_points]. vm_compute. done.
Qed.

(** Concrete cases *)
Example C74_concrete_camera : made (create_fisheye 1 0.1 0) /\ 0 < vz (Vec 1 0 1) /\ / 10 ^ 8 <= axis_dist (Vec 1 0 1).
Proof.
  split; [constructor|]. split; [cbn; lra|]. assert (HA : axis_dist (Vec 1 0 1) = 1). { unfold axis_dist. cbn [vx vy]. replace (1 ^ 2 + 0 ^ 2) with 1 by ring. apply sqrt_1. }
  rewrite HA. rewrite <- Rinv_1. apply Rinv_le_contravar; [lra|]. apply pow_R1_Rle. lra.
Qed.
Example C74_concrete_pose : let p := from_world_to_cam (Mat 0 (-1) 0 1 0 0 0 0 1) v0 in valid p /\ w_rot p <> mI.
Proof.
  cbn zeta. assert (HR : rotation (Mat 0 (-1) 0 1 0 0 0 0 1)) by (split; [unfold mmul, mT, mI; cbn; f_equal; ring|unfold det; cbn; ring]).
  split; [apply from_w2c_valid, HR|]. cbn. intros E. injection E. intros. lra.
Qed.
Example C74_concrete_pair : pair_id_to_image_ids (image_ids_to_pair_id 7 3) = (3, 7)%Z /\ add_matches 7 3 [(1, 2); (4, 5)]%Z = (image_ids_to_pair_id 7 3, [(2, 1); (5, 4)]%Z).
Proof. by vm_compute. Qed.
Print Assumptions C74_camera. Print Assumptions C74_fisheye_opencv_centred. Print Assumptions C74_fisheye_opencv_refuted. Print Assumptions C74_other_models.
Print Assumptions C74_pose. Print Assumptions C74_identity_refuted. Print Assumptions C74_pair_id. Print Assumptions C74_pair_id_injective. Print Assumptions C74_match_rows.
Print Assumptions C74_matches. Print Assumptions C74_ids. Print Assumptions C74_keypoints. Print Assumptions C74_points. Print Assumptions C74_image_points.
Print Assumptions C74_track_index_partial. Print Assumptions C74_track_index_refuted. Print Assumptions C74_model_number. Print Assumptions C74_image_line. Print Assumptions C74_pair_written.
