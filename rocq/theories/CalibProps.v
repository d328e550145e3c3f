(** C69: every image gets the camera of its metadata. *)
From Coq Require Import Reals QArith Qcanon Qreals Lra.
From stdpp Require Import prelude strings gmap numbers.
From Verif Require Import Base PyText JsonModel CamModel ExifModel ExifProofs CalibModel CalibSpec CalibProofs.
From Verif Require CaptureModel CaptureProofs.
Local Open Scope string_scope.
Local Close Scope R_scope.

(** An image of a camera without an entry in the table gets a camera of its projection type, with its focal length (the prior if it is
    unknown), its principal point, square pixels and no distortion; the table is not changed *)
Theorem C69_camera prior T md t :
  ~ hard_coded T md -> prior <> qc 0 -> (lower (default "perspective" (md_projection md)), t) ∈ plain_types ->
  exists c, camera_from_exif_metadata prior T md = (Ok c, T) /\
    plain_camera md t (known_focal prior md t) (known_centre md (md_cx md)) (known_centre md (md_cy md)) c.
Proof.
  intros Hn Hp Ht. unfold camera_from_exif_metadata, calibration_from_metadata. rewrite not_hard_coded by done.
  destruct (camera_plain prior md _ t eq_refl Ht Hp) as (c & E & Et & Hv). cbn [kind numbers].
  assert (kind (default (default_calibration prior) (if uses_focal_xy (lower (default "perspective" (md_projection md))) then focal_xy_calibration md else focal_ratio_calibration md)) = None) as Ek.
  { destruct (uses_focal_xy _); unfold focal_xy_calibration, focal_ratio_calibration; case_decide; done. }
  rewrite Ek. cbn [default from_option]. rewrite E. cbn [res_bind]. eexists. split; [reflexivity|]. repeat split; done.
Qed.
(** A projection type that does not exist is a ValueError *)
Theorem C69_unknown_type prior T md :
  ~ hard_coded T md -> (forall t, (lower (default "perspective" (md_projection md)), t) ∉ plain_types) -> lower (default "perspective" (md_projection md)) <> "dual" ->
  (camera_from_exif_metadata prior T md).1 = Err ValueError.
Proof.
  intros Hn Ht Hd. unfold camera_from_exif_metadata, calibration_from_metadata. rewrite not_hard_coded by done.
  set (pt := lower (default "perspective" (md_projection md))) in *. set (e := default (default_calibration prior) _).
  assert (kind e = None) as Ek. { unfold e. destruct (uses_focal_xy _); unfold focal_xy_calibration, focal_ratio_calibration; case_decide; done. }
  rewrite Ek. cbn [default from_option fst]. unfold camera_from_calibration. cbn [kind default from_option].
  change (Datatypes.id pt) with pt. assert (lower pt = pt) as -> by apply lower_lower.
  unfold plain_types in Ht. 
  assert (forall s t, (s, t) ∈ plain_types -> pt <> s) as Hne by (intros s t Hs ->; by apply (Ht t)).
  unfold plain_types in Hne.
  rewrite decide_False by (apply (Hne _ PERSPECTIVE); rewrite !elem_of_cons; tauto). rewrite decide_False by (apply (Hne _ BROWN); rewrite !elem_of_cons; tauto).
  rewrite decide_False by (apply (Hne _ FISHEYE); rewrite !elem_of_cons; tauto). rewrite decide_False by (apply (Hne _ FISHEYE_OPENCV); rewrite !elem_of_cons; tauto).
  rewrite decide_False by (apply (Hne _ FISHEYE62); rewrite !elem_of_cons; tauto). rewrite decide_False by (apply (Hne _ FISHEYE624); rewrite !elem_of_cons; tauto).
  rewrite decide_False by (apply (Hne _ RADIAL); rewrite !elem_of_cons; tauto). rewrite decide_False by (apply (Hne _ SIMPLE_RADIAL); rewrite !elem_of_cons; tauto).
  rewrite decide_False by done. unfold is_panorama. rewrite bool_decide_false by (apply (Hne _ SPHERICAL); rewrite !elem_of_cons; tauto).
  rewrite bool_decide_false by (apply (Hne _ SPHERICAL); rewrite !elem_of_cons; tauto). done.
Qed.
(** The type "dual", though it exists, cannot be used without an entry in the table: no calibration has a transition *)
Theorem C69_dual_refuted prior T md :
  ~ hard_coded T md -> lower (default "perspective" (md_projection md)) = "dual" -> (camera_from_exif_metadata prior T md).1 = Err KeyError.
Proof.
  intros Hn Hd. unfold camera_from_exif_metadata, calibration_from_metadata. rewrite not_hard_coded by done. rewrite Hd. change (uses_focal_xy "dual") with false.
  unfold focal_ratio_calibration. case_decide; reflexivity.
Qed.

(** The entry of an image: the one for all models of its make; else the one for its model, whatever the case and the spaces around; else, for
    a make without models, the one of the integer nearest to its focal length for 35 mm film *)
Theorem C69_entry T md m : T !! lower (strip (md_make md)) = Some m ->
  (forall e, m_all m = Some e -> hard_coded_calibration T md = Some (lower (strip (md_make md)), SAll, e)) /\
  (forall t e, m_all m = None -> m_model m = Some t -> t !! lower (strip (md_model md)) = Some e -> hard_coded_calibration T md = Some (lower (strip (md_make md)), SModel (lower (strip (md_model md))), e)) /\
  (forall t z e, m_all m = None -> m_model m = None -> m_focal m = Some t -> t !! z = Some e -> (qc (2 * z - 1) < qc 72 * md_focal_ratio md)%Qc -> (qc 72 * md_focal_ratio md < qc (2 * z + 1))%Qc ->
     hard_coded_calibration T md = Some (lower (strip (md_make md)), SFocal z, e)).
Proof.
  intros Hm. unfold hard_coded_calibration. rewrite Hm. cbn [mbind option_bind]. unfold find_slot. split; [|split].
  - intros e He. rewrite He. cbn. by rewrite He.
  - intros t e H0 H1 He. rewrite H0, H1, He. cbn. rewrite H1. cbn. by rewrite He.
  - intros t z e H0 H1 H2 He Hlo Hhi. assert (focal_35mm (md_focal_ratio md) = z) as E.
    { unfold focal_35mm. pose proof (CaptureProofs.round_spec (Qnum (this (md_focal_ratio md)) * 36) (Zpos (Qden (this (md_focal_ratio md)))) ltac:(lia)) as Hr.
      assert (~ qc 72 * md_focal_ratio md <= qc (2 * z - 1))%Qc as Hlo' by (by apply Qclt_not_le).
      assert (~ qc (2 * z + 1) <= qc 72 * md_focal_ratio md)%Qc as Hhi' by (by apply Qclt_not_le).
      rewrite CaptureProofs.qc_ge_iff in Hlo'. rewrite CaptureProofs.qc_le_iff in Hhi'. destruct (this (md_focal_ratio md)) as [n d]. cbn [Qnum Qden] in *.
      set (r := CaptureModel.round_half_even (n * 36) (Z.pos d)) in *. clearbody r. nia. }
    rewrite H0, H1, H2, E, He. cbn. rewrite H2. cbn. by rewrite He.
Qed.
(** An image with an entry that says it is a brown camera gets the entry's parameters, whatever its own metadata says *)
Theorem C69_hard_coded_brown prior T md make s e fx fy cx cy k1 k2 k3 p1 p2 :
  hard_coded_calibration T md = Some (make, s, e) -> kind e = Some "brown" -> fx <> qc 0 ->
  numbers e !! "focal_x" = Some fx -> numbers e !! "focal_y" = Some fy -> numbers e !! "c_x" = Some cx -> numbers e !! "c_y" = Some cy ->
  numbers e !! "k1" = Some k1 -> numbers e !! "k2" = Some k2 -> numbers e !! "k3" = Some k3 -> numbers e !! "p1" = Some p1 -> numbers e !! "p2" = Some p2 ->
  camera_from_exif_metadata prior T md = (Ok (Camera (md_camera md) (md_width md) (md_height md) BROWN [K1; K2; K3; P1; P2; Focal; AspectRatio; Cx; Cy]
    [real k1; real k2; real k3; real p1; real p2; real fx; (real fy / real fx)%R; real cx; real cy]), T).
Proof.
  intros H Hk Hf Hx Hy Hcx Hcy H1 H2 H3 H4 H5. unfold camera_from_exif_metadata, calibration_from_metadata. rewrite H.
  assert (nonempty e = true) as -> by (unfold nonempty; rewrite Hk; cbn; by rewrite orb_true_r). rewrite Hk. cbn [default from_option Datatypes.id].
  apply real_inj in Hf. unfold camera_from_calibration. cbn [kind default from_option Datatypes.id]. change (lower "brown") with "brown".
  rewrite decide_False by done. rewrite decide_True by done. unfold focal_xy.
  assert (forall k q, numbers e !! k = Some q -> num (Entry (numbers e) (Some "brown")) k = Ok (real q)) as N by (intros k q Hkq; by apply num_some).
  rewrite (N _ _ Hx), (N _ _ Hy), (N _ _ Hcx), (N _ _ Hcy). cbn [res_bind]. unfold py_div. destruct (Req_EM_T (real fx) 0); [done|]. cbn [res_bind mapR].
  rewrite (N _ _ H1), (N _ _ H2), (N _ _ H3), (N _ _ H4), (N _ _ H5). reflexivity.
Qed.
(** An entry without projection type and the three parameters of a perspective camera, for a perspective image *)
Theorem C69_hard_coded_perspective prior T md make s e f k1 k2 :
  hard_coded_calibration T md = Some (make, s, e) -> kind e = None -> lower (default "perspective" (md_projection md)) = "perspective" ->
  numbers e !! "focal" = Some f -> numbers e !! "k1" = Some k1 -> numbers e !! "k2" = Some k2 ->
  (camera_from_exif_metadata prior T md).1 = Ok (Camera (md_camera md) (md_width md) (md_height md) PERSPECTIVE [K1; K2; Focal] [real k1; real k2; real f]).
Proof.
  intros H Hk Hp Hf H1 H2. unfold camera_from_exif_metadata, calibration_from_metadata. rewrite H.
  assert (nonempty e = true) as ->. { unfold nonempty. rewrite bool_decide_true; [done|]. intros E. by rewrite E in Hf. }
  rewrite Hk, Hp. cbn [default from_option fst Datatypes.id]. unfold camera_from_calibration. cbn [kind default from_option Datatypes.id]. change (lower "perspective") with "perspective".
  rewrite decide_True by done. assert (forall k q, numbers e !! k = Some q -> num (Entry (numbers e) (Some "perspective")) k = Ok (real q)) as N by (intros k q Hkq; by apply num_some).
  rewrite (N _ _ Hf), (N _ _ H1), (N _ _ H2). reflexivity.
Qed.

(** ** All images *)
Lemma camera_name prior T md c T' : camera_from_exif_metadata prior T md = (Ok c, T') -> cam_id c = md_camera md /\ cam_width c = md_width md /\ cam_height c = md_height md.
Proof.
  unfold camera_from_exif_metadata. destruct (calibration_from_metadata prior T md) as [e T'']. destruct (camera_from_calibration e); [|done]. cbn. intros [= <- <-]. done.
Qed.
Lemma make_cameras_spec prior images : forall T cams r, make_cameras prior T images cams = Ok r ->
  (forall id c, cams !! id = Some c -> r !! id = Some c) /\
  (forall md, md ∈ images -> is_Some (r !! md_camera md)) /\
  (forall id c, r !! id = Some c -> cams !! id = Some c \/
     cams !! id = None /\ exists md T', first_with images id md /\ (camera_from_exif_metadata prior T' md).1 = Ok c).
Proof.
  induction images as [|md images IH]; intros T cams r H; cbn [make_cameras] in H.
  { simplify_eq. split; [done|]. split; [intros md Hm; by apply elem_of_nil in Hm|]. intros id c Hc. by left. }
  assert (forall id md', md_camera md <> id -> first_with images id md' -> first_with (md :: images) id md') as Hfirst.
  { intros id md' Hne (l & l' & -> & Hid & Hl). exists (md :: l), l'. split; [done|]. split; [done|]. intros m Hm. apply elem_of_cons in Hm as [-> |Hm]; [done|]. by apply Hl. }
  destruct (cams !! md_camera md) as [c0|] eqn:Ec.
  - destruct (IH _ _ _ H) as (H1 & H2 & H3). split; [done|]. split.
    + intros m Hm. apply elem_of_cons in Hm as [-> |Hm]; [|by apply H2]. exists c0. by apply H1.
    + intros id c Hc. destruct (H3 id c Hc) as [?|[Hn (md' & T' & Hf & Hcam)]]; [by left|]. right. split; [done|]. exists md', T'. split; [|done]. apply Hfirst; [|done].
      intros <-. by rewrite Ec in Hn.
  - destruct (camera_from_exif_metadata prior T md) as [[c0|] T'] eqn:Ecam; [|done]. cbn [res_bind] in H. destruct (IH _ _ _ H) as (H1 & H2 & H3). split; [|split].
    + intros id c Hc. apply H1. rewrite lookup_insert_ne; [done|]. intros <-. by rewrite Ec in Hc.
    + intros m Hm. apply elem_of_cons in Hm as [-> |Hm]; [|by apply H2]. exists c0. apply H1. apply lookup_insert.
    + intros id c Hc. destruct (H3 id c Hc) as [Hl|[Hn (md' & T'' & Hf & Hcam)]].
      * apply lookup_insert_Some in Hl as [[<- <-]|[Hne Hl]]; [|by left]. right. split; [done|]. exists md, T. split; [|by rewrite Ecam].
        exists [], images. split; [done|]. split; [done|]. intros m Hm. by apply elem_of_nil in Hm.
      * apply lookup_insert_None in Hn as [Hn Hne]. right. split; [done|]. exists md', T''. split; [|done]. by apply Hfirst.
Qed.
(** If the cameras can be made, every image has one, under its camera name; each camera bears its name and has the size of the first image
    with that name *)
Theorem C69_all_images prior T images cams : extract_cameras prior T images None = Ok cams ->
  (forall md, md ∈ images -> is_Some (cams !! md_camera md)) /\
  (forall id c, cams !! id = Some c -> cam_id c = id /\ exists md, first_with images id md /\ cam_width c = md_width md /\ cam_height c = md_height md).
Proof.
  intros H. unfold extract_cameras in H. destruct (make_cameras prior T images ∅) as [r|] eqn:E; [|done]. cbn in H. simplify_eq.
  destruct (make_cameras_spec prior images T ∅ cams E) as (_ & H2 & H3). split; [done|]. intros id c Hc. destruct (H3 id c Hc) as [Hl|[_ (md & T' & Hf & Hcam)]]; [done|].
  destruct (camera_from_exif_metadata prior T' md) as [r T''] eqn:Er. cbn in Hcam. subst r. destruct (camera_name _ _ _ _ _ Er) as (Hi & Hw & Hh).
  pose proof Hf as (l & l' & _ & Hid & _). split; [congruence|]. by exists md.
Qed.

Lemma untouched prior T md : (~ hard_coded T md \/ kinds_known T) -> (calibration_from_metadata prior T md).2 = T.
Proof.
  intros H. unfold calibration_from_metadata. destruct (hard_coded_calibration T md) as [[[make s] e]|] eqn:E; [|done].
  destruct H as [H|H]; [by rewrite not_hard_coded in E|]. destruct (nonempty e); [|done]. unfold hard_coded_calibration in E.
  destruct (T !! _) as [m|] eqn:Em; [|done]. cbn in E. destruct (find_slot m _ _) as [s'|]; [|done]. cbn in E. destruct (slot_entry m s') as [e'|] eqn:Es; [|done]. cbn in E. simplify_eq.
  destruct (H _ _ _ _ Em Es) as [k ->]. done.
Qed.
Lemma make_cameras_pure prior T images : (forall md, md ∈ images -> ~ hard_coded T md \/ kinds_known T) -> forall cams r, make_cameras prior T images cams = Ok r ->
  forall id c, r !! id = Some c <-> cams !! id = Some c \/ cams !! id = None /\ exists md, first_with images id md /\ (camera_from_exif_metadata prior T md).1 = Ok c.
Proof.
  induction images as [|md images IH]; intros Hu cams r H id c; cbn [make_cameras] in H.
  { simplify_eq. split; [by left|]. intros [?|[_ (md & (l & l' & E & _) & _)]]; [done|]. by destruct l. }
  assert (forall md, md ∈ images -> ~ hard_coded T md \/ kinds_known T) as Hu' by (intros m Hm; apply Hu; by right).
  assert (forall md', md_camera md <> id -> first_with images id md' <-> first_with (md :: images) id md') as Hfirst.
  { intros md' Hne. split; intros (l & l' & E & Hid & Hl).
    - exists (md :: l), l'. split; [by rewrite E|]. split; [done|]. intros m Hm. apply elem_of_cons in Hm as [-> |Hm]; [done|]. by apply Hl.
    - destruct l as [|m l]; cbn in E; simplify_eq. exists l, l'. split; [done|]. split; [done|]. intros m' Hm. apply Hl. by right. }
  destruct (cams !! md_camera md) as [c0|] eqn:Ec.
  - rewrite (IH Hu' _ _ H). split; (intros [?|[Hn (md' & Hf & Hcam)]]; [by left|]; right; split; [done|]; exists md'; split; [|done]);
      (apply Hfirst; [intros <-; by rewrite Ec in Hn|done]).
  - pose proof (untouched prior T md (Hu md ltac:(by left))) as Eu. unfold camera_from_exif_metadata in H at 1.
    destruct (calibration_from_metadata prior T md) as [e T'] eqn:Ecal. cbn in Eu. subst T'.
    destruct (camera_from_calibration e) as [c1|] eqn:Ee; [|done]. cbn [res_bind] in H. rewrite (IH Hu' _ _ H). 
    assert ((camera_from_exif_metadata prior T md).1 = Ok (Camera (md_camera md) (md_width md) (md_height md) (cam_type c1) (cam_params c1) (cam_values c1))) as Ecam.
    { unfold camera_from_exif_metadata. rewrite Ecal, Ee. done. }
    destruct (decide (md_camera md = id)) as [<- |Hne].
    + rewrite lookup_insert. split.
      * intros [Hc|[? _]]; [|done]. right. split; [done|]. exists md. split; [|congruence]. exists [], images. split; [done|]. split; [done|]. intros m Hm. by apply elem_of_nil in Hm.
      * intros [Hc|[_ (md' & (l & l' & E & Hid & Hl) & Hcam)]]; [congruence|]. left. destruct l as [|m l]; cbn in E; simplify_eq; [congruence|]. exfalso. apply (Hl m); [by left|done].
    + rewrite lookup_insert_ne by done. split; (intros [?|[Hn (md' & Hf & Hcam)]]; [by left|]; right; split; [done|]; exists md'; split; [|done]; by apply Hfirst).
Qed.
(** If the table says the projection type of each of its entries, or has none for the images, the camera of a name is the one of the first
    image with that name: it does not depend on the other images *)
Theorem C69_independent prior T images cams :
  (forall md, md ∈ images -> ~ hard_coded T md \/ kinds_known T) -> extract_cameras prior T images None = Ok cams ->
  forall id c, cams !! id = Some c <-> exists md, first_with images id md /\ (camera_from_exif_metadata prior T md).1 = Ok c.
Proof.
  intros Hu H id c. unfold extract_cameras in H. destruct (make_cameras prior T images ∅) as [r|] eqn:E; [|done]. cbn in H. simplify_eq.
  rewrite (make_cameras_pure prior T images Hu ∅ cams E). split; [by intros [?|[_ ?]]|]. intros ?. by right.
Qed.

(** Overrides: a camera "all" replaces every camera, also its size; otherwise the named cameras replace those of the images *)
Theorem C69_overrides prior T images cams o : extract_cameras prior T images None = Ok cams ->
  exists cams', extract_cameras prior T images (Some o) = Ok cams' /\
    match o !! "all" with
    | Some c => forall id, cams' !! id = match cams !! id with Some _ => Some (with_id c id) | None => None end
    | None => forall id, cams' !! id = match o !! id with Some c => Some c | None => cams !! id end
    end.
Proof.
  intros H. unfold extract_cameras in *. destruct (make_cameras prior T images ∅) as [r|]; [|done]. cbn in H. simplify_eq. cbn [res_bind]. eexists. split; [done|].
  unfold override_cameras. destruct (o !! "all") as [c|].
  - intros id. rewrite map_lookup_imap. by destruct (cams !! id).
  - intros id. rewrite lookup_union. destruct (o !! id), (cams !! id); done.
Qed.

(** ** Where it fails *)
Definition image (camera make model projection : string) : metadata := Metadata camera make model 4000 3000 (Some projection) (frac 5 10) None None None.
Definition photo := image "photo" "XIAOYI" "m1" "perspective".
Definition panorama := image "panorama" "XIAOYI" "m2" "equirectangular".
(** With an entry that does not say its projection type, the camera depends on the images before: the first one writes its own projection
    type into the entry. A flat photo after a panorama is taken for a panorama *)
Theorem C69_order_refuted prior : exists cams cams' c c',
  extract_cameras prior shipped [photo; panorama] None = Ok cams /\ cams !! "photo" = Some c /\ cam_type c = PERSPECTIVE /\
  extract_cameras prior shipped [panorama; photo] None = Ok cams' /\ cams' !! "photo" = Some c' /\ cam_type c' = SPHERICAL.
Proof.
  do 4 eexists. split; [vm_compute; reflexivity|]. split; [reflexivity|]. split; [reflexivity|].
  split; [vm_compute; reflexivity|]. split; reflexivity.
Qed.
(** An entry of a perspective camera makes every other projection type but spherical and fisheye a KeyError, which stops the command *)
Theorem C69_projection_refuted prior : extract_cameras prior shipped [image "c" "xiaoyi" "m" "brown"] None = Err KeyError.
Proof. vm_compute. reflexivity. Qed.
(** Entries of a make that is not in lower case, like PARROT, are never found *)
Theorem C69_case_refuted T make m md : lower make <> make -> hard_coded_calibration (<[make := m]> T) md = hard_coded_calibration T md.
Proof.
  intros H. unfold hard_coded_calibration. rewrite lookup_insert_ne; [done|]. intros E. apply H. rewrite E. apply lower_lower.
Qed.
(** Entries by focal length are never found for a make that also has models, like gopro *)
Theorem C69_focal_refuted T make m t f f' md : m_model m = Some t ->
  hard_coded_calibration (<[make := Models (m_all m) (m_model m) f]> T) md = hard_coded_calibration (<[make := Models (m_all m) (m_model m) f']> T) md.
Proof.
  intros H. unfold hard_coded_calibration. destruct (decide (make = lower (strip (md_make md)))) as [<- |Hne]; [|by rewrite !lookup_insert_ne by done].
  rewrite !lookup_insert. cbn [mbind option_bind]. unfold find_slot. cbn [m_all m_model m_focal]. rewrite H. destruct (m_all m); [done|]. by destruct (t !! _).
Qed.

(** ** The hypotheses are met *)
Example C69_shipped_case : lower "PARROT" <> "PARROT" /\ shipped !! "PARROT" = Some parrot /\ m_model gopro <> None /\ m_focal gopro <> None.
Proof. done. Qed.
Example C69_hero8 prior : exists c, camera_from_exif_metadata prior shipped (image "c" "GoPro " "HERO8 Black" "perspective") = (Ok c, shipped) /\ cam_type c = BROWN.
Proof.
  eexists. split; [|shelve]. eapply C69_hard_coded_brown; [vm_compute; reflexivity|reflexivity| | | | | | | | | |]; [|reflexivity..]. intros H. discriminate.
  Unshelve. reflexivity.
Qed.
Example C69_plain : exists c, camera_from_exif_metadata (frac 85 100) shipped (image "c" "nikon" "d80" "Brown") = (Ok c, shipped) /\
  plain_camera (image "c" "nikon" "d80" "Brown") BROWN (frac 5 10) (qc 0) (qc 0) c.
Proof.
  apply (C69_camera (frac 85 100) shipped (image "c" "nikon" "d80" "Brown") BROWN).
  - intros (m & Hm & _). vm_compute in Hm. discriminate.
  - discriminate.
  - vm_compute. repeat constructor.
Qed.
Example C69_known : kinds_known {["gopro" := Models None (m_model gopro) None]}.
Proof.
  intros make m s e Hm He. apply lookup_singleton_Some in Hm as [<- <-]. destruct s as [|x|f]; cbn in He; [done| |done].
  apply lookup_singleton_Some in He as [_ <-]. by eexists.
Qed.

Print Assumptions C69_camera.
Print Assumptions C69_unknown_type.
Print Assumptions C69_all_images.
Print Assumptions C69_independent.
Print Assumptions C69_overrides.
Print Assumptions C69_order_refuted.
