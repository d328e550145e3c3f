(** C28, C29: saving and loading reconstructions. Specification in RecSpec.v. *)
From Coq Require Import Reals Lra.
From stdpp Require Import prelude gmap strings.
From Verif Require Import Base JsonModel CamModel CamSpec CamProofs Lin RotModel RotProofs TracksModel MapModel MapSpec MapProofs PoseModel PoseSpec PoseProofs PoseMapProofs PoseProps RecModel RecSpec RecProofs.
Local Close Scope R_scope.

(** C28. Reading back the written metadata gives exactly the measurements that have a place in the file. Missing for the full
    property: opk_angles, opk_accuracy and attributes are not written (next theorem). *)
Theorem C28_metadata_partial : forall m, json_to_pymap_metadata (pymap_metadata_to_json m) = Ok (kept_measurements m).
Proof. intros m. by apply meta_round_trip. Qed.
Theorem C28_lost_refuted : exists m, ms_opk_angles m <> None /\ ms_opk_accuracy m <> None /\ ms_attributes m <> ∅ /\
  json_to_pymap_metadata (pymap_metadata_to_json m) = Ok no_measurements.
Proof.
  exists (Measurements None None None None None None (Some 1%R) (Some v0) None None {["a" := "b"]}). cbn [ms_opk_angles ms_opk_accuracy ms_attributes]. split_and!; try done.
Qed.
(** A measurement that is read is one that was written: no key, no value. *)
Theorem C28_invents_nothing : forall m m', json_to_pymap_metadata (pymap_metadata_to_json m) = Ok m' ->
  (ms_capture_time m = None -> ms_capture_time m' = None) /\ (ms_gps_position m = None -> ms_gps_position m' = None) /\
  (ms_gps_accuracy m = None -> ms_gps_accuracy m' = None) /\ (ms_compass_angle m = None -> ms_compass_angle m' = None) /\
  (ms_compass_accuracy m = None -> ms_compass_accuracy m' = None) /\ (ms_gravity_down m = None -> ms_gravity_down m' = None) /\
  (ms_orientation m = None -> ms_orientation m' = None) /\ (ms_sequence_key m = None -> ms_sequence_key m' = None) /\
  ms_opk_angles m' = None /\ ms_opk_accuracy m' = None /\ ms_attributes m' = ∅.
Proof. intros m m'. rewrite C28_metadata_partial. intros [= <-]. by split_and!. Qed.

Section Rec.
Context {O : Type}.
Variable feature_of : O -> Z.
Variable enumL : gmap string (landmark vec) -> list (string * landmark vec).
Variable enumF : gmap string (bool * Z) -> list (string * (bool * Z)).
Variable enumO : gmap string O -> list (string * O).
Variable enumS : gmap shot_key (shot shot_data mesh O) -> list (shot_key * shot shot_data mesh O).
Variable enumI : gmap string (bool * string) -> list (string * (bool * string)).
Variable enumC : gmap string camera -> list (string * camera).
Variable enumB : gmap string similarity -> list (string * similarity).
Variable enumP : gmap string pose -> list (string * pose).
Variable enumN : gmap string (instance pose) -> list (string * instance pose).
Hypothesis HL : enumerates enumL. Hypothesis HF : enumerates enumF. Hypothesis HO : enumerates enumO. Hypothesis HS : enumerates enumS.
Hypothesis HI : enumerates enumI. Hypothesis HC : enumerates enumC. Hypothesis HB : enumerates enumB. Hypothesis HP : enumerates enumP. Hypothesis HN : enumerates enumN.
Notation rec := (@map camera similarity pose vec shot_data mesh O (R * R * R)).
Notation posed := (posed feature_of bias0 data0 mesh0 enumL enumF enumO).
Notation to_json := (reconstruction_to_json enumL enumS enumI enumC enumB enumP enumN).

(** C29. Every reconstruction built through the API and that a file can hold is saved, and loading the file gives the same
    cameras, biases, rig cameras, rig instances with poses and members, shots and pano shots (but for their observations and
    the measurements of C28) with the same poses, points with coordinates and colors (but for their observations), and
    reference, (0, 0, 0) when there was none. Whatever the iteration order of the maps. *)
Theorem C29_round_trip : forall m : rec, posed m -> saveable m -> exists d m', to_json m = Ok d /\ reconstruction_from_json d = Ok m' /\
  m_cameras m' = m_cameras m /\ m_bias m' = m_bias m /\ m_rig_cameras m' = m_rig_cameras m /\ m_instances m' = m_instances m /\
  (forall k, m_shots m' !! k = kept_shot <$> m_shots m !! k) /\ (forall k, get_pose m' k = get_pose m k) /\
  (forall id, m_landmarks m' !! id = kept_point <$> m_landmarks m !! id) /\
  m_reference m' = Some (default (0%R, 0%R, 0%R) (m_reference m)).
Proof.
  intros m Hm Hsv. destruct (posed_inv feature_of bias0 data0 mesh0 enumL enumF enumO HL HF HO m Hm) as [Hinv Hpv].
  destruct (round_trip m feature_of Hinv Hpv Hsv enumI HI enumL enumS enumC enumB enumP enumN HL HS HC HB HP HN) as (d & E1 & E2).
  eexists d, _. split; [exact E1|]. split; [exact E2|]. cbn [m_cameras m_bias m_rig_cameras m_instances m_shots m_landmarks m_reference]. split_and!; try done.
  - intros k. apply lookup_fmap.
  - intros k. unfold get_pose. cbn. rewrite lookup_fmap. by destruct (m_shots m !! k).
  - intros k. apply lookup_fmap.
Qed.

(** Nothing more is lost by saving and loading again: the second time the result is what was saved. *)
Theorem C29_stable : forall (m m' : rec) d, posed m -> saveable m -> to_json m = Ok d -> reconstruction_from_json d = Ok m' ->
  exists d', to_json m' = Ok d' /\ reconstruction_from_json d' = Ok m'.
Proof.
  intros m m' d Hm Hsv E1 E2. destruct (posed_inv feature_of bias0 data0 mesh0 enumL enumF enumO HL HF HO m Hm) as [Hinv [V1 V2]].
  destruct (round_trip m feature_of Hinv (conj V1 V2) Hsv enumI HI enumL enumS enumC enumB enumP enumN HL HS HC HB HP HN) as (d1 & F1 & F2).
  rewrite E1 in F1. injection F1 as <-. rewrite E2 in F2. injection F2 as ->.
  set (m' := Map _ _ _ _ _ _ _) in *.
  assert (forall k s', m_shots m' !! k = Some s' -> exists s, m_shots m !! k = Some s /\ s' = kept_shot s) as Hk.
  { intros k s'. unfold m'; cbn. rewrite lookup_fmap. destruct (m_shots m !! k); [|done]. intros [= <-]. eauto. }
  assert (forall k s, m_shots m !! k = Some s -> m_shots m' !! k = Some (kept_shot s)) as Hk'.
  { intros k s Hs. unfold m'; cbn. by rewrite lookup_fmap, Hs. }
  assert (inv feature_of m') as Hinv'.
  { destruct Hinv as [_ _ [R1 R2 R3 R4 R5]]. split.
    - intros k f lm. unfold F_of, O_of. destruct (m_shots m' !! k) as [s'|] eqn:E; cbn.
      + apply Hk in E as (s & _ & ->). cbn. split; [done|]. intros (o & Ho & _). done.
      + split; [done|]. by intros (o & Ho & _).
    - intros lm s b f. unfold L_of, O_of. assert (m_landmarks m' !! lm ≫= (fun l => lm_obs l !! s) = None) as ->.
      { unfold m'; cbn. rewrite lookup_fmap. destruct (m_landmarks m !! lm); done. }
      split; [done|]. intros (o & Ho & _). destruct (m_shots m' !! (b, s)) as [s'|] eqn:E; cbn in Ho; [|done]. apply Hk in E as (x & _ & ->). done.
    - split.
      + intros k s' (s & Hs & ->)%Hk. exact (R1 _ _ Hs).
      + intros id i s b rc Hi Hmem. destruct (R2 _ _ _ _ _ Hi Hmem) as (x & Hx & Ha & Hb). exists (kept_shot x). split; [by apply Hk'|done].
      + intros k s' (s & Hs & ->)%Hk. exact (R3 _ _ Hs).
      + exact R4.
      + exact R5. }
  assert (saveable m') as Hsv'.
  { destruct Hsv as [S1 S2 S3 S4 S5 S6]. split; [exact S1|exact S2|exact S3|..].
    - intros id s' (s & Hs & ->)%Hk. exact (S4 _ _ Hs).
    - intros id s' (s & Hs & ->)%Hk. exact (S5 _ _ Hs).
    - intros id. unfold m'; cbn. rewrite !lookup_fmap. destruct (S6 id) as [-> | ->]; [by left|by right]. }
  destruct (round_trip m' feature_of Hinv' (conj V1 V2) Hsv' enumI HI enumL enumS enumC enumB enumP enumN HL HS HC HB HP HN) as (d' & G1 & G2).
  exists d'. split; [done|]. rewrite G2. f_equal. unfold m'; cbn. f_equal.
  - rewrite <- map_fmap_compose. apply map_fmap_ext. done.
  - rewrite <- map_fmap_compose. apply map_fmap_ext. done.
Qed.

(** The condition on names is needed: a shot with the name of a pano shot loses its rig. Whatever the file says about its rig
    instance, it comes back in an instance of its own. *)
Theorem C29_shared_name_refuted : forall (obj panos d : jdict) rs id (m m' : rec),
  jget obj "pano_shots" = Some (JObj panos) -> id ∈ panos.*1 -> rig_instance_camera_per_shot obj = Ok rs ->
  shot_from_json rs false m id d = Ok m' -> exists s, m_shots m' !! (false, id) = Some s /\ sh_instance s = id.
Proof.
  intros obj panos d rs id m m' Hp Hid Hrs. assert (rs !! id = None) as Hno.
  { revert Hrs. unfold rig_instance_camera_per_shot. rewrite Hp. cbn [as_obj res_bind]. destruct (jget obj "rig_instances") as [j|]; [|by intros [= <-]].
    destruct (as_obj j); cbn [res_bind]; [|done]. destruct (mapR _ _); cbn [res_bind]; [|done]. intros [= <-].
    match goal with |- foldl _ _ ?c !! _ = _ => generalize c end. intros l. induction l as [|[k v] l IH] using rev_ind; [done|]. rewrite foldl_app. cbn [foldl fst snd].
    destruct (decide (k ∈ panos.*1)); [done|]. rewrite lookup_insert_ne; [done|]. by intros ->. }
  unfold shot_from_json. destruct (pose_from_json d) as [p|]; cbn [res_bind]; [|done]. destruct (jreq d "camera") as [j|]; cbn [res_bind]; [|done].
  destruct (as_str j) as [cam|]; cbn [res_bind]; [|done]. rewrite Hno. cbn [fmap option_fmap option_map]. unfold rec_create_shot. cbn [truthy from_option Datatypes.id].
  destruct (rec_add_rig_camera m cam pose0) as [m1|]; cbn [res_bind]; [|done]. destruct (m_rig_cameras m1 !! cam); cbn [of_option res_bind]; [|done].
  destruct (match m_instances m1 !! id with Some _ => _ | None => _ end) as [m2|]; cbn [res_bind]; [|done].
  destruct (m_instances m2 !! id); cbn [of_option res_bind]; [|done].
  destruct (create_shot _ _ _ _ _ _ _ _ _ _) as [m3|] eqn:Ec; cbn [res_bind]; [|done].
  assert (exists s, m_shots m3 !! (false, id) = Some s /\ sh_instance s = id) as H3.
  { revert Ec. unfold create_shot. destruct (m_shots m2 !! _); [done|]. destruct (m_cameras m2 !! cam), (m_instances m2 !! id), (m_rig_cameras m2 !! cam); try done.
    destruct (instance_add_shot _ _ _); cbn [res_bind]; [|done]. destruct (instance_update_pose _ _ _ _ _ _); cbn [res_bind]; [|done]. intros [= <-]. cbn.
    rewrite lookup_insert. eauto. }
  unfold assign_shot_attributes. destruct (json_to_pymap_metadata d); cbn [res_bind]; [|done].
  destruct (match jget d "scale" with None => _ | Some _ => _ end); cbn [res_bind]; [|done]. destruct (match jget d "covariance" with None => _ | Some _ => _ end); cbn [res_bind]; [|done].
  destruct (match jget d "merge_cc" with None => _ | Some _ => _ end); cbn [res_bind]; [|done]. destruct H3 as (s & Hs & Hsi). unfold assign_shot. rewrite Hs. cbn [res_bind].
  destruct (jget d "vertices") as [jv|]; [destruct (jget d "faces") as [jf|]|].
  - destruct (as_rows jv); cbn [res_bind]; [|done]. destruct (as_rows jf); cbn [res_bind]; [|done]. unfold set_mesh. cbn. rewrite lookup_insert. intros [= <-]. cbn. rewrite lookup_insert. eauto.
  - intros [= <-]. cbn. rewrite lookup_insert. eauto.
  - intros [= <-]. cbn. rewrite lookup_insert. eauto.
Qed.
End Rec.

(** A reconstruction that meets the hypotheses: two shots in one rig instance, one of them off its centre, a pano shot, a
    point seen by a shot. *)
Definition ex_cam : camera := Camera "cam" 100 50 PERSPECTIVE [K1; K2; Focal] [0; 0; 1]%R.
Notation ex_rec := (@map camera similarity pose vec shot_data mesh Z (R * R * R)).
Notation ex_step := (map_step (fun o : Z => o) bias0 pose0 data0 mesh0 compose inverse map_to_list map_to_list map_to_list).
Notation ex_posed := (posed (Rf := R * R * R) (fun o : Z => o) bias0 data0 mesh0 map_to_list map_to_list map_to_list).
Definition blank (c rc i : string) : shot shot_data mesh Z := Shot c rc i data0 mesh0 ∅ ∅.
Definition ex_m : ex_rec :=
  Map {["cam" := ex_cam]} {["cam" := bias0]} (<["panoshot_cam" := pose0]> (<["cam" := pose0]> {["front" := ex_rc]}))
      (<["panoshot_p" := Instance (compose (inverse pose0) ex_p) {["p" := (true, "panoshot_cam")]}]> {["i" := Instance (compose (inverse pose0) ex_p) (<["b" := (false, "cam")]> {["a" := (false, "front")]})]})
      (<[(true, "p") := blank "cam" "panoshot_cam" "panoshot_p"]> (<[(false, "b") := blank "cam" "cam" "i"]> {[(false, "a") := Shot "cam" "front" "i" data0 mesh0 {["1" := 7%Z]} {[7%Z := "1"]}]}))
      {["1" := Landmark v0 (255, 0, 0)%Z {["a" := (false, 7%Z)]}]} None.
Lemma ex_rc_not_identity : is_identity ex_rc = false.
Proof.
  unfold is_identity, ex_rc. rewrite vector_get_rotation.
  - assert (norm (Vec 0 0 1) = 1%R) as ->. { unfold norm, dot; cbn. replace (0 * 0 + 0 * 0 + 1 * 1)%R with 1%R by ring. apply sqrt_1. }
    destruct (Rlt_dec (norm _) _); [|done]. destruct (Rlt_dec 1 _) as [H|]; [|done]. exfalso. revert H. apply Rle_not_lt.
    rewrite <- Rinv_1. apply Rinv_le_contravar; [lra|]. simpl. lra.
  - assert (norm (Vec 0 0 1) = 1%R) as ->. { unfold norm, dot; cbn. replace (0 * 0 + 0 * 0 + 1 * 1)%R with 1%R by ring. apply sqrt_1. }
    pose proof PI2_1. lra.
Qed.
Example C29_example_saveable : saveable ex_m.
Proof.
  unfold ex_m. split; cbn [m_cameras m_bias m_rig_cameras m_shots].
  - intros id c [<- <-]%lookup_singleton_Some. split; [done|]. split; [|by intros []].
    apply (made_attributes (create_perspective 1 0 0)). constructor.
  - intros id b [<- <-]%lookup_singleton_Some. apply valid_pose0.
  - intros id p. rewrite !lookup_insert_Some, lookup_singleton_Some. intros [[_ <-]|[_ [[_ <-]|[_ [_ <-]]]]]; [by left|by left|]. right. apply ex_rc_not_identity.
  - intros id s. rewrite !lookup_insert_Some, lookup_singleton_Some. intros [[? ?]|[_ [[_ <-]|[_ [_ <-]]]]]; [done|split; done..].
  - intros id s. rewrite !lookup_insert_Some, lookup_singleton_Some. intros [[[= <-] <-]|[_ [[? ?]|[_ [? ?]]]]]; [|done..]. done.
  - intros id. destruct (decide (id = "p")) as [->|].
    + left. done.
    + right. rewrite lookup_insert_ne by congruence. rewrite lookup_insert_ne by done. by rewrite lookup_singleton_ne.
Qed.
Example C29_example_posed : ex_posed ex_m.
Proof.
  assert (valid ex_rc) as H1 by (apply from_w2c_valid, exp_rotation). assert (valid ex_p) as H2 by (apply from_w2c_valid, exp_rotation).
  pose proof valid_pose0 as H3.
  assert (forall (m : ex_rec) op m', ex_posed m -> ex_step m op = m' -> allowed (fun o : Z => o) m op -> op_valid op -> ex_posed m') as Hstep.
  { intros m op m' ? <- ? ?. by constructor. }
  set (c1 := {["cam" := ex_cam]} : gmap string camera). set (b1 := {["cam" := bias0]} : gmap string similarity).
  set (r1 := {["front" := ex_rc]} : gmap string pose). set (r2 := <["cam" := pose0]> r1). set (r3 := <["panoshot_cam" := pose0]> r2).
  set (i1 := {["i" := Instance pose0 ∅]} : gmap string (instance pose)). set (i2 := <["panoshot_p" := Instance pose0 ∅]> i1).
  set (q := compose (inverse pose0) ex_p).
  set (i3 := <["i" := Instance pose0 {["a" := (false, "front")]}]> i2).
  set (i4 := <["i" := Instance q (<["b" := (false, "cam")]> {["a" := (false, "front")]})]> i3).
  set (i5 := <["panoshot_p" := Instance q {["p" := (true, "panoshot_cam")]}]> i4).
  set (s1 := {[(false, "a") := blank "cam" "front" "i"]} : gmap shot_key (shot shot_data mesh Z)).
  set (s2 := <[(false, "b") := blank "cam" "cam" "i"]> s1).
  set (s3 := <[(true, "p") := blank "cam" "panoshot_cam" "panoshot_p"]> s2).
  set (s4 := <[(false, "a") := Shot "cam" "front" "i" data0 mesh0 {["1" := 7%Z]} {[7%Z := "1"]}]> s3).
  set (l1 := {["1" := Landmark v0 (255, 0, 0)%Z ∅]} : gmap string (landmark vec)).
  set (l2 := <["1" := Landmark v0 (255, 0, 0)%Z {["a" := (false, 7%Z)]}]> l1).
  assert (ex_posed (map_empty : ex_rec)) as P0 by constructor.
  pose proof (Hstep _ (MCamera "cam" ex_cam) (Map c1 b1 ∅ ∅ ∅ ∅ None) P0 eq_refl I I) as P1.
  pose proof (Hstep _ (MRigCamera "front" ex_rc) (Map c1 b1 r1 ∅ ∅ ∅ None) P1 eq_refl I H1) as P2.
  pose proof (Hstep _ (MRigCamera "cam" pose0) (Map c1 b1 r2 ∅ ∅ ∅ None) P2 eq_refl I H3) as P3.
  pose proof (Hstep _ (MRigCamera "panoshot_cam" pose0) (Map c1 b1 r3 ∅ ∅ ∅ None) P3 eq_refl I H3) as P4.
  pose proof (Hstep _ (MInstance "i") (Map c1 b1 r3 i1 ∅ ∅ None) P4 eq_refl I I) as P5.
  pose proof (Hstep _ (MInstance "panoshot_p") (Map c1 b1 r3 i2 ∅ ∅ None) P5 eq_refl I I) as P6.
  assert (ex_posed (Map c1 b1 r3 i3 s1 ∅ None)) as P7.
  { apply (Hstep _ (MShot (false, "a") "cam" "front" "i" None) _ P6); [reflexivity| |done]. by intros i [= <-]. }
  assert (ex_posed (Map c1 b1 r3 i4 s2 ∅ None)) as P8.
  { apply (Hstep _ (MShot (false, "b") "cam" "cam" "i" (Some ex_p)) _ P7); [reflexivity| |done]. by intros i [= <-]. }
  assert (ex_posed (Map c1 b1 r3 i5 s3 ∅ None)) as P9.
  { apply (Hstep _ (MShot (true, "p") "cam" "panoshot_cam" "panoshot_p" (Some ex_p)) _ P8); [reflexivity| |done]. by intros i [= <-]. }
  pose proof (Hstep _ (MLandmark "1" v0) (Map c1 b1 r3 i5 s3 l1 None) P9 eq_refl I I) as P10.
  assert (ex_posed (Map c1 b1 r3 i5 s4 l2 None)) as P11.
  { apply (Hstep _ (MAddObs (false, "a") "1" 7%Z) _ P10); [reflexivity| |done]. split.
    - intros lm' o' (s & [= <-] & Ho). done.
    - intros b f (l & Hl & Ho). cbn in Hl. injection Hl as <-. done. }
  assert (ex_m = Map c1 b1 r3 i5 s4 l2 None) as ->; [|done].
  unfold ex_m. f_equal.
  - unfold i5, i4, i3, i2, i1. rewrite insert_insert. rewrite (insert_commute _ "i" "panoshot_p") by done. rewrite insert_insert. by rewrite insert_singleton.
  - unfold s4, s3, s2, s1. rewrite !(insert_commute _ (false, "a")) by done. by rewrite insert_singleton.
  - unfold l2, l1. by rewrite insert_singleton.
Qed.
Print Assumptions C28_metadata_partial.
Print Assumptions C28_lost_refuted.
Print Assumptions C28_invents_nothing.
Print Assumptions C29_round_trip.
Print Assumptions C29_stable.
Print Assumptions C29_shared_name_refuted.
