(** Properties of the reconstruction from metadata. *)
From Coq Require Import Reals Lra Psatz.
From stdpp Require Import prelude gmap strings.
From Verif Require Import Base JsonModel CamModel Lin RotModel RotProofs TracksModel MapModel PoseModel PoseSpec PoseProofs RecModel GeoModel GeoSpec GeoProofs GeoProps AnglesModel AnglesSpec AnglesProofs AnglesProps MetaModel MetaSpec MetaProofs.
Local Open Scope R_scope.

(** ** C70: reconstruction from metadata *)
(** The metadata of a shot: the position is that of the GPS in the frame of the reference; its accuracy is never zero. *)
Theorem C70_metadata e ua rlat rlon ralt :
  match exif_to_metadata e ua (rlat, rlon, ralt) with
  | Ok meta =>
      (forall c, ex_compass e = Some c -> ms_compass_angle meta = co_angle c /\ co_angle c <> None /\ ms_compass_accuracy meta = co_accuracy c) /\
      (ex_compass e = None -> ms_compass_angle meta = None /\ ms_compass_accuracy meta = None) /\
      ms_capture_time meta = ex_capture_time e /\ ms_sequence_key meta = ex_skey e /\ ms_gravity_down meta = ex_gravity_down e /\
      (forall o, ex_orientation e = Some o -> ms_orientation meta = Some o) /\ (ex_orientation e = None -> ms_orientation meta = Some 1%Z) /\
      (forall w p k, angles e = Some (w, p, k) -> ms_opk_angles meta = Some (Vec w p k) /\ ms_opk_accuracy meta = Some (default 1 (o ← ex_opk e; op_accuracy o))) /\
      (angles e = None -> ms_opk_angles meta = None /\ ms_opk_accuracy meta = None) /\
      (place e = None -> ms_gps_position meta = None /\ ms_gps_accuracy meta = None) /\
      (forall lat lon, place e = Some (lat, lon) -> exists p alt a,
         ms_gps_position meta = Some p /\ affine_apply (ecef_from_topocentric_transform rlat rlon ralt) p = ecef_from_lla lat lon alt /\ is_altitude ua e alt /\
         ms_gps_accuracy meta = Some a /\ a <> 0 /\ match (g ← ex_gps e; gp_dop g) with Some d => d <> 0 -> a = d | None => a = 15 end)
  | Err x => x = KeyError /\ exists c, ex_compass e = Some c /\ co_angle c = None
  end.
Proof.
  assert ((match ex_compass e with Some c => co_angle c <> None | None => True end) \/ ~ (match ex_compass e with Some c => co_angle c <> None | None => True end)) as [Hc|Hc].
  { destruct (ex_compass e) as [c|]; [destruct (co_angle c)|]; [by left|right; by intros []|by left]. }
  1:{ unfold exif_to_metadata, place, angles.
    destruct (ex_compass e) as [c|]; [destruct (co_angle c) as [ca|] eqn:Eca; [|done]|].
    all: destruct (ex_gps e) as [g|] eqn:Eg; [destruct (gp_latlon g) as [[lat lon]|] eqn:El|].
    all: destruct (ex_opk e) as [o|] eqn:Eo; [destruct (op_angles o) as [[[w p] k]|] eqn:Ea|].
    all: cbn [res_bind of_option]; rewrite ?Eca; cbn [of_option res_bind].
    all: split; [intros c' Ec'; try discriminate Ec'; injection Ec' as <-; by rewrite Eca|]; (split; [done|]).
    all: cbn [ms_compass_angle ms_compass_accuracy ms_capture_time ms_sequence_key ms_gravity_down ms_orientation ms_opk_angles ms_opk_accuracy ms_gps_position ms_gps_accuracy].
    all: do 3 (split; [done|]); (split; [by intros ? ->|]); (split; [by intros ->|]).
    all: split; [intros w' p' k' Ew; try discriminate Ew; injection Ew as <- <- <-; done|].
    all: split; [done|]; (split; [done|]).
    all: intros la lo El'; try discriminate El'; injection El' as <- <-.
    all: exists (topocentric_from_lla lat lon (used_altitude ua g) rlat rlon ralt), (used_altitude ua g), (if Req_EM_T (default 15 (gp_dop g)) 0 then 15 else default 15 (gp_dop g)).
    all: split; [done|]; (split; [apply (proj1 (C32_topocentric_lossless rlat rlon ralt))|]); (split; [by apply used_altitude_spec|]); (split; [done|]).
    all: cbn [mbind option_bind]; destruct (gp_dop g) as [d|]; cbn [default from_option Datatypes.id]; destruct (Req_EM_T _ 0); (split; [lra|]); (done || lra). }
  { unfold exif_to_metadata. destruct (ex_compass e) as [c|]; [|done]. destruct (co_angle c) as [ca|] eqn:Eca; [destruct Hc; done|].
    destruct (ex_gps e) as [g|]; [destruct (gp_latlon g) as [[lat lon]|]|]; (destruct (ex_opk e) as [o|]; [destruct (op_angles o) as [[[w p] k]|]|]); cbn [res_bind of_option]; rewrite ?Eca; cbn [res_bind of_option]; eauto. }
Qed.

Section Props.
Context {O : Type} (enumO : gmap string O -> list (string * O)) (HO : enumerates enumO).
Notation rec := (@map camera similarity pose vec shot_data mesh O (R * R * R)).

(** The shots are the images that have a position; each is at its position with its orientation, whatever the order and number of the images,
    provided no two images are of the same rig instance. *)
Theorem C70_reconstruction_from_metadata cameras ua rlat rlon ralt rigs (images : list (string * exif)) :
  NoDup images.*1 -> NoDup ((fun ie => (rig_of rigs ie.1 ie.2).1) <$> images) ->
  (forall image e, (image, e) ∈ images -> named rigs image e /\ is_Some (cameras !! ex_camera e) /\ usable e) ->
  exists m : rec, reconstruction_from_metadata enumO cameras ua (rlat, rlon, ralt) rigs images = Ok m /\
    m_cameras m = cameras /\ m_reference m = Some (rlat, rlon, ralt) /\ m_landmarks m = ∅ /\
    (forall k s, m_shots m !! k = Some s -> exists image e, k = (false, image) /\ (image, e) ∈ images /\ place e <> None) /\
    (forall image e lat lon, (image, e) ∈ images -> place e = Some (lat, lon) ->
       exists s p alt, m_shots m !! (false, image) = Some s /\ sh_camera s = ex_camera e /\ (sh_instance s, sh_rig_camera s) = rig_of rigs image e /\
         exif_to_metadata e ua (rlat, rlon, ralt) = Ok (sd_metadata (sh_data s)) /\ sd_scale (sh_data s) = 1 /\
         shot_pose compose m (false, image) = Some p /\ valid p /\ oriented e (w_rot p) /\ is_altitude ua e alt /\
         affine_apply (ecef_from_topocentric_transform rlat rlon ralt) (get_origin p) = ecef_from_lla lat lon alt).
Proof.
  intros Hn1 Hn2 H. unfold reconstruction_from_metadata.
  destruct (add_images_placed enumO HO ua (rlat, rlon, ralt) rigs images (Map cameras ((fun _ => bias0) <$> cameras) ∅ ∅ ∅ ∅ (Some (rlat, rlon, ralt)))) as (m & Em & D1 & D2 & D3 & D4 & D5 & D6 & D7 & D8 & D9); try done.
  { intros image e Hin. destruct (H image e Hin) as (H1 & H2 & H3). done. }
  cbn [m_cameras m_bias m_landmarks m_reference m_shots m_instances] in *. exists m. do 4 (split; [done|]). split.
  - intros k s Hk. destruct (decide (Exists (fun ie => k = (false, ie.1)) images)) as [He|He].
    + apply Exists_exists in He as ([image e] & Hin & ->). exists image, e. split; [done|]. split; [done|]. intros Hp. specialize (D9 image e Hin). unfold is_placed in D9. rewrite Hp in D9. cbn in Hk. by rewrite D9 in Hk.
    + rewrite D7 in Hk; [done|]. intros image e Hin ->. apply He, Exists_exists. by exists (image, e).
  - intros image e lat lon Hin Hp. specialize (D9 image e Hin). unfold is_placed in D9. rewrite Hp in D9. destruct D9 as (meta & p & alt & E1 & E2 & E3 & E4 & V & Ho & Ha & HT). eexists _, p, alt.
    split; [exact E2|]. cbn [sh_camera sh_instance sh_rig_camera sh_data sd_metadata sd_scale]. split; [done|]. split; [by destruct (rig_of rigs image e)|]. split; [done|]. split; [done|]. split; [|done].
    unfold shot_pose. rewrite E2. cbn [mbind option_bind sh_instance sh_rig_camera]. rewrite E3. cbn [mbind option_bind]. rewrite E4. cbn [mbind option_bind in_pose]. by rewrite compose_0_l.
Qed.
(** Adding the second image of a rig instance replaces the instance: the first shot gets the pose of the second image, and is not in the instance. *)
Theorem C70_rig_refuted cameras ua rlat rlon ralt rigs image1 e1 image2 e2 inst rc1 rc2 lat1 lon1 lat2 lon2 :
  image1 <> image2 -> rig_of rigs image1 e1 = (inst, rc1) -> rig_of rigs image2 e2 = (inst, rc2) -> inst <> "" -> rc1 <> "" -> rc2 <> "" ->
  is_Some (cameras !! ex_camera e1) -> is_Some (cameras !! ex_camera e2) -> usable e1 -> usable e2 -> place e1 = Some (lat1, lon1) -> place e2 = Some (lat2, lon2) ->
  exists m : rec, reconstruction_from_metadata enumO cameras ua (rlat, rlon, ralt) rigs [(image1, e1); (image2, e2)] = Ok m /\
    (exists p alt, shot_pose compose m (false, image1) = Some p /\ shot_pose compose m (false, image2) = Some p /\ oriented e2 (w_rot p) /\ is_altitude ua e2 alt /\
       affine_apply (ecef_from_topocentric_transform rlat rlon ralt) (get_origin p) = ecef_from_lla lat2 lon2 alt) /\
    (exists i, m_instances m !! inst = Some i /\ in_members i !! image1 = None /\ in_members i !! image2 = Some (false, rc2)).
Proof.
  intros Hne Er1 Er2 Hi H1 H2 Hc1 Hc2 Hu1 Hu2 Hp1 Hp2. unfold reconstruction_from_metadata. cbn [add_images]. set (m0 := Map _ _ _ _ _ _ _).
  destruct (add_image_placed enumO HO ua (rlat, rlon, ralt) rigs m0 image1 e1) as (m1 & -> & C1 & C2 & C3 & C4 & C5 & C6 & C7 & C8 & C9); try done; [by unfold named; rewrite Er1|]. cbn [res_bind].
  destruct (add_image_placed enumO HO ua (rlat, rlon, ralt) rigs m1 image2 e2) as (m2 & -> & D1 & D2 & D3 & D4 & D5 & D6 & D7 & D8 & D9); try done; [by unfold named; rewrite Er2|by rewrite C1|by rewrite C7 by congruence|]. cbn [res_bind].
  exists m2. split; [done|]. unfold is_placed in C9, D9. rewrite Hp1, Er1 in C9. rewrite Hp2, Er2 in D9. cbn [fst snd] in C9, D9.
  destruct C9 as (meta1 & p1 & alt1 & _ & F2 & F3 & F4 & _). destruct D9 as (meta & p & alt & _ & G2 & G3 & G4 & V & Ho & Ha & HT). split.
  - exists p, alt. unfold shot_pose. rewrite D7 by congruence. rewrite F2, G2. cbn [mbind option_bind sh_instance sh_rig_camera]. rewrite G3, (D6 _ _ F4), G4. cbn [mbind option_bind in_pose]. by rewrite compose_0_l.
  - eexists. split; [exact G3|]. cbn [in_members]. rewrite lookup_singleton_ne by done. by rewrite lookup_singleton.
Qed.
End Props.

(** Concrete cases: an image with a GPS position held in portrait, one with angles, one without a position *)
Definition e_a : exif := Exif "cam" (Some (GpsDict (Some (10, 20)) (Some 100) None)) None (Some 6%Z) None None None None.
Definition e_b : exif := Exif "cam" None (Some (OpkDict (Some (0, 90, 0)) None)) None None None None None.
Definition e_c : exif := Exif "cam" (Some (GpsDict (Some (10, 21)) None (Some 0))) (Some (OpkDict (Some (0, 90, 0)) None)) None None None None None.
Lemma radians_0 : radians 0 = 0. Proof. unfold radians. lra. Qed.
Lemma not_tiny_0 : not_tiny 0. Proof. by left. Qed.
Lemma not_tiny_90 : not_tiny (radians 90).
Proof. apply not_tiny_ge. unfold radians. pose proof PI2_3_2. rewrite Rabs_pos_eq; lra. Qed.
Lemma usable_a : usable e_a. Proof. unfold usable, e_a, azimuth. cbn. rewrite radians_0. split; [done|]. split; [apply not_tiny_0|done]. Qed.
Lemma usable_b : usable e_b. Proof. unfold usable, e_b. cbn. rewrite radians_0. pose proof not_tiny_0. pose proof not_tiny_90. done. Qed.
Lemma usable_c : usable e_c. Proof. unfold usable, e_c. cbn. rewrite radians_0. pose proof not_tiny_0. pose proof not_tiny_90. done. Qed.
Example C70_case (c : camera) : exists m : @map camera similarity pose vec shot_data mesh Z (R * R * R),
  reconstruction_from_metadata (O:=Z) map_to_list {["cam" := c]} true (10, 20, 0) ∅ [("a", e_a); ("b", e_b); ("c", e_c)] = Ok m /\
  m_shots m !! (false, "b") = None /\ (exists s, m_shots m !! (false, "a") = Some s /\ sh_rig_camera s = "cam") /\
  exists p, shot_pose compose m (false, "a") = Some p /\ affine_apply (ecef_from_topocentric_transform 10 20 0) (get_origin p) = ecef_from_lla 10 20 100 /\
    mvec (w_rot p) (Vec 0 0 1) = Vec (-1) 0 0.
Proof.
  destruct (C70_reconstruction_from_metadata (O:=Z) map_to_list ltac:(by intros ?) {["cam" := c]} true 10 20 0 ∅ [("a", e_a); ("b", e_b); ("c", e_c)]) as (m & Em & _ & _ & _ & H1 & H2).
  { repeat constructor; set_solver. }
  { repeat constructor; set_solver. }
  { intros image e Hin. rewrite !elem_of_cons, elem_of_nil in Hin. destruct Hin as [[= -> ->]|[[= -> ->]|[[= -> ->]|[]]]]; (split; [done|]); (split; [by rewrite lookup_singleton; eexists|]); [apply usable_a|apply usable_b|apply usable_c]. }
  exists m. split; [done|]. split.
  { destruct (m_shots m !! (false, "b")) as [s|] eqn:E; [|done]. destruct (H1 _ _ E) as (image & e & [= <-] & Hin & Hp). rewrite !elem_of_cons, elem_of_nil in Hin. destruct Hin as [[= _]|[[= ->]|[[= _]|[]]]]. done. }
  destruct (H2 "a" e_a 10 20) as (s & p & alt & E1 & _ & E2 & _ & _ & E3 & _ & Ho & Ha & HT); [left|done|]. split; [exists s; split; [done|by injection E2]|].
  exists p. split; [done|]. cbn in Ha. assert (alt = 100) as -> by (apply Ha; lra). split; [done|]. destruct Ho as [_ [Ho _]]. rewrite Ho. cbn [up_in_image e_a ex_gravity_down ex_orientation default from_option Datatypes.id exif_sides up_of].
  assert (norm (Vec (-1) 0 0) = 1) as ->. { unfold norm, dot. cbn. replace (-1 * -1 + 0 * 0 + 0 * 0) with 1 by ring. apply sqrt_1. }
  unfold vscale. cbn. f_equal; field.
Qed.
Example C70_rig_case (c : camera) : exists m : @map camera similarity pose vec shot_data mesh Z (R * R * R),
  reconstruction_from_metadata (O:=Z) map_to_list {["cam" := c]} true (10, 20, 0) {["a" := ("i", "left", []); "c" := ("i", "right", [])]} [("a", e_a); ("c", e_c)] = Ok m /\
  exists p, shot_pose compose m (false, "a") = Some p /\ affine_apply (ecef_from_topocentric_transform 10 20 0) (get_origin p) = ecef_from_lla 10 21 2.
Proof.
  destruct (C70_rig_refuted (O:=Z) map_to_list ltac:(by intros ?) {["cam" := c]} true 10 20 0 {["a" := ("i", "left", []); "c" := ("i", "right", [])]} "a" e_a "c" e_c "i" "left" "right" 10 20 10 21)
    as (m & Em & (p & alt & E1 & _ & _ & Ha & HT) & _); try done; try (by rewrite lookup_singleton; eexists); [apply usable_a|apply usable_c|].
  exists m. split; [done|]. exists p. split; [done|]. cbn in Ha. by subst.
Qed.
Print Assumptions C70_metadata.
Print Assumptions C70_reconstruction_from_metadata.
Print Assumptions C70_rig_refuted.
