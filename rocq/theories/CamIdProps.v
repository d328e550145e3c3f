(** C67: camera names and focal lengths. *)
From stdpp Require Import prelude strings pretty gmap numbers.
From Coq Require Import Ascii QArith Qcanon Field.
From Verif Require Import Base TextModel TextProofs PyText ExifModel ExifSpec ExifProofs CamIdProofs.
Local Open Scope string_scope.
Local Open Scope list_scope.

(** Images with the same camera name have the same size, the same projection type (up to case) and focal ratios that print the same up to six
    characters: for any way of printing numbers as words. So one set of camera parameters, whose size they share, fits them. *)
Theorem C67_same_camera (str_float : Qc -> string) make model width height projection focal make' model' width' height' projection' focal' :
  (forall x, word (str_float x)) -> word projection -> word projection' ->
  camera_id str_float make model width height projection focal = camera_id str_float make' model' width' height' projection' focal' ->
  width = width' /\ height = height' /\ lower projection = lower projection' /\
  lower (str_take 6 (str_float focal)) = lower (str_take 6 (str_float focal')).
Proof.
  intros Hsf Hp Hp' E.
  assert (forall x, word (str_take 6 (str_float x))) as Ht.
  { intros x. destruct (Hsf x) as [Hn Hs]. generalize (str_float x) Hn Hs. clear. intros s Hn Hs. split.
    - by destruct s.
    - clear Hn. revert s Hs. generalize 6%nat. intros n. induction n as [|n IH]; intros s Hs; [by constructor|]. destruct s as [|a s]; [by constructor|].
      apply no_space_cons in Hs as [Ha Hs]. cbn [str_take]. apply no_space_cons. split; [done|by apply IH]. }
  destruct (camera_id_words str_float make model width height projection focal) as [fr E1]; [done|done|].
  destruct (camera_id_words str_float make' model' width' height' projection' focal') as [fr' E2]; [done|done|].
  rewrite E, E2 in E1. apply app_inv_tail4 in E1 as (Hw & Hh & Hpt & Hf). repeat split; [| |done|done]; by apply (inj pretty).
Qed.
(** A make that is repeated at the start of the model does not change the name. *)
Theorem C67_make_in_model str_float make model width height projection focal :
  make <> "" -> (forall a r, make = String a r -> py_space a = false) -> make <> "unknown" ->
  camera_id str_float make (make +:+ " " +:+ model) width height projection focal = camera_id str_float make model width height projection focal /\
  sensor_string make (make +:+ " " +:+ model) = sensor_string make model.
Proof.
  intros Hn Hs Hu. assert (strip (replace_with_empty (make +:+ " " +:+ model) make) = strip (replace_with_empty model make)) as E.
  { rewrite remove_prefix, remove_after_space by done. change (" " +:+ ?x) with (String " " x). by apply strip_space. }
  unfold camera_id, sensor_string. rewrite !decide_True by done. by rewrite E.
Qed.

(** The two focal lengths agree: the 35 mm equivalent is 36 mm times the ratio. *)
Theorem C67_focal_35 sensor_data f35 f w s : let r := compute_focal sensor_data f35 f w s in (r.1 = qc 36 * r.2)%Qc.
Proof.
  assert (qc 36 <> 0%Qc) as H36 by (by apply qc_neq0). assert (forall r : Qc, (qc 36 * (r / qc 36))%Qc = r) as H by (intros r; field; done).
  assert (forall o, let r := focal_from_sensor sensor_data f o s in (r.1 = qc 36 * r.2)%Qc) as Hs.
  { intros o. unfold focal_from_sensor. destruct (nonzero (match nonzero o with Some w => Some w | None => _ end)); [|cbn; rewrite qc_0; ring].
    destruct (nonzero f); [done|cbn; rewrite qc_0; ring]. }
  cbn zeta. unfold compute_focal. destruct f35 as [f35|]; [|apply Hs]. case_decide; [cbn; by rewrite H|apply Hs].
Qed.
(** The focal ratio of an image whose tags state the focal length [F] and the sensor width [W] is [F / W], whatever the unit of the resolution;
    a focal length in 35 mm equivalent has priority. *)
Theorem C67_focal_ratio sensor_data t use_exif_size loaded n h make model F v W :
  extract_make t = Ok make -> extract_model t = Ok model -> extract_image_size t use_exif_size loaded = Ok (n, h) ->
  states_sensor_width t n W -> t !! "EXIF FocalLength" = Some (TValues [v]) -> ratio_is v F -> F <> 0%Qc -> W <> 0%Qc ->
  t !! "EXIF FocalLengthIn35mmFilm" = None ->
  extract_focal sensor_data t use_exif_size loaded = Ok (qc 36 * (F / W), F / W)%Qc.
Proof.
  intros Em Emo Es Hw Ef Hf HF HW E35. unfold extract_focal. rewrite Em, Emo. cbn [res_bind].
  unfold get_tag_as_float. rewrite E35, Ef. destruct Hf as (nn & d & -> & Hd & Hq). cbn [index lookup list_lookup of_option res_bind]. rewrite (eval_frac_is nn d F) by done.
  cbn [res_bind]. rewrite (sensor_width_spec t use_exif_size loaded n h W) by done. cbn [res_bind]. f_equal. unfold compute_focal, focal_from_sensor. cbn [nonzero].
  rewrite qc_0. rewrite (decide_False (P := W = 0%Qc)) by done. cbn [nonzero]. rewrite qc_0, (decide_False (P := W = 0%Qc)), (decide_False (P := F = 0%Qc)) by done. done.
Qed.
Theorem C67_focal_35_first sensor_data t use_exif_size loaded n v f r :
  t !! "EXIF FocalLengthIn35mmFilm" = Some (TValues [v]) -> (v = VInt n /\ f = qc n \/ ratio_is v f) -> (0 < f)%Qc ->
  extract_focal sensor_data t use_exif_size loaded = Ok r -> r = (f, f / qc 36)%Qc.
Proof.
  intros E Hv Hf. unfold extract_focal. destruct (extract_make t); [|done]. destruct (extract_model t); [|done]. cbn [res_bind].
  assert (get_tag_as_float t "EXIF FocalLengthIn35mmFilm" 0 = Ok (Some f)) as ->.
  { unfold get_tag_as_float. rewrite E. cbn [index lookup list_lookup of_option res_bind]. destruct Hv as [[-> ->]|(m & d & -> & Hd & Hq)]; [done|]. by rewrite (eval_frac_is m d f). }
  cbn [res_bind]. destruct (get_tag_as_float t "EXIF FocalLength" 0); [|done]. cbn [res_bind].
  destruct (extract_sensor_width _ _ _); [|done]. cbn [res_bind]. unfold compute_focal. rewrite decide_True by (by rewrite qc_0). by intros [= <-].
Qed.
(** The table of sensor widths is used only without a stated width, and then with the name of the camera. *)
Theorem C67_sensor_table sensor_data focal_35 sensor F W : (forall f, focal_35 = Some f -> f <= 0)%Qc -> sensor <> "" -> sensor_data !! sensor = Some W ->
  F <> 0%Qc -> W <> 0%Qc -> compute_focal sensor_data focal_35 (Some F) None sensor = (qc 36 * (F / W), F / W)%Qc.
Proof.
  intros H35 Hs E HF HW. assert (focal_from_sensor sensor_data (Some F) None sensor = (qc 36 * (F / W), F / W)%Qc) as Ef.
  { unfold focal_from_sensor. cbn [nonzero]. rewrite (decide_False (P := sensor = "")) by done. rewrite E. cbn [nonzero].
    rewrite qc_0, (decide_False (P := W = 0%Qc)), (decide_False (P := F = 0%Qc)) by done. done. }
  unfold compute_focal. destruct focal_35 as [f|]; [|done]. rewrite decide_False; [done|]. rewrite qc_0. intros Hlt. specialize (H35 f eq_refl). by apply Qcle_not_lt in H35.
Qed.
(** Nothing is invented: the ratio is zero ("unknown") without a focal length. *)
Theorem C67_unknown sensor_data focal_35 w s : (forall f, focal_35 = Some f -> f <= 0)%Qc -> compute_focal sensor_data focal_35 None w s = (qc 0, qc 0).
Proof.
  intros H35. assert (focal_from_sensor sensor_data None w s = (qc 0, qc 0)) as Ef.
  { unfold focal_from_sensor. by destruct (nonzero (match nonzero w with Some w => Some w | None => _ end)). }
  unfold compute_focal. destruct focal_35 as [f|]; [|done]. rewrite decide_False; [done|]. rewrite qc_0. intros Hlt. specialize (H35 f eq_refl). by apply Qcle_not_lt in H35.
Qed.

(** ** What does not hold *)
(** The name does not determine make and model: two cameras of different makes can have the same name, and then share one calibration. *)
Theorem C67_make_refuted : exists make model make' model', make <> make' /\ forall str_float width height projection focal,
  camera_id str_float make model width height projection focal = camera_id str_float make' model' width height projection focal.
Proof. exists "acme", "pro one", "acme pro", "one". split; [done|]. intros. reflexivity. Qed.
(** A resized image read with its real size (use_exif_size off) keeps the tags of the original: its focal ratio is wrong by the scale. *)
Definition original : tags :=
  <["EXIF ExifImageWidth" := TValues [VInt 4000]]> (<["EXIF ExifImageLength" := TValues [VInt 3000]]>
  (<["EXIF FocalPlaneResolutionUnit" := TValues [VInt 4]]> (<["EXIF FocalPlaneXResolution" := TValues [VRatio 400 1]]>
  (<["EXIF FocalLength" := TValues [VRatio 5 1]]> ∅)))).
Theorem C67_resized_refuted : exists r r', extract_focal ∅ original true (1500, 2000)%Z = Ok r /\ extract_focal ∅ original false (1500, 2000)%Z = Ok r' /\
  r.2 = (qc 1 / qc 2)%Qc /\ r'.2 = qc 1.
Proof.
  eexists _, _. split; [vm_compute; reflexivity|]. split; [vm_compute; reflexivity|]. split; vm_compute; apply Qc_is_canon; reflexivity.
Qed.
(** A panorama whose XMP gives the projection type as an attribute ("@GPano:ProjectionType") is taken for a perspective image. *)
Theorem C67_panorama_attribute_refuted : extract_projection_type [<["@GPano:ProjectionType" := "equirectangular"]> ∅] = "perspective" /\
  extract_projection_type [<["GPano:ProjectionType" := "equirectangular"]> ∅] = "equirectangular".
Proof. split; vm_compute; reflexivity. Qed.

(** ** The hypotheses can be met *)
Definition print_half (q : Qc) : string := "0.5".
Example C67_example_id : camera_id print_half "ACME" "ACME Pro One" 4000 3000 "perspective" (qc 1 / qc 2)%Qc = "v2 acme pro one 4000 3000 perspective 0.5" /\
  (forall x, word (print_half x)) /\ word "perspective".
Proof.
  split; [vm_compute; reflexivity|].
  split; [intros x|]; (split; [done|]); unfold no_space, print_half; cbn [list_ascii_of_string]; repeat (constructor; [reflexivity|]); constructor.
Qed.
Example C67_example_focal : states_sensor_width original 4000 (qc 10) /\ extract_image_size original true (1500, 2000)%Z = Ok (4000, 3000)%Z /\
  extract_focal ∅ original true (1500, 2000)%Z = Ok (qc 36 * (qc 5 / qc 10), qc 5 / qc 10)%Qc.
Proof.
  assert (forall n d q, d <> 0%Z -> (q * qc d = qc n)%Qc -> ratio_is (VRatio n d) q) as Hr by (intros n d q H1 H2; by exists n, d).
  assert (states_sensor_width original 4000 (qc 10)) as H.
  { exists 4%Z, (qc 1), (VRatio 400 1), (qc 400). split; [done|]. split; [constructor|]. split; [done|]. split; [apply Hr; [done|apply Qc_is_canon; reflexivity]|].
    split; [done|apply Qc_is_canon; reflexivity]. }
  assert (extract_image_size original true (1500, 2000)%Z = Ok (4000, 3000)%Z) as Hs by (vm_compute; reflexivity). split; [done|]. split; [done|].
  apply (C67_focal_ratio ∅ original true (1500, 2000)%Z 4000 3000 "unknown" "unknown" (qc 5) (VRatio 5 1) (qc 10)); [reflexivity|reflexivity|exact Hs|exact H|reflexivity|apply Hr; [done|apply Qc_is_canon; reflexivity]|by apply qc_neq0|by apply qc_neq0|reflexivity].
Qed.

Print Assumptions C67_same_camera.
Print Assumptions C67_make_in_model.
Print Assumptions C67_focal_35.
Print Assumptions C67_focal_ratio.
Print Assumptions C67_focal_35_first.
Print Assumptions C67_sensor_table.
Print Assumptions C67_unknown.
Print Assumptions C67_make_refuted.
Print Assumptions C67_resized_refuted.
Print Assumptions C67_panorama_attribute_refuted.
