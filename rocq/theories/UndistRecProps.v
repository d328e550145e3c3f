(** C61: the undistorted reconstruction *)
From Coq Require Import Reals Lra.
From stdpp Require Import prelude gmap strings pretty.
From Verif Require Import Base CamModel CamSpec CameraSpec ProjModel Lin RotModel TracksModel TracksSpec TracksProofs MapModel MapSpec PoseModel PoseSpec PoseProofs RecModel UndistRecModel UndistRecSpec UndistRecProofs.
Local Open Scope R_scope.

Section Undistort.
Variable enumS : gmap shot_key ushot -> list (shot_key * ushot).
Variable enumL : gmap string (landmark vec) -> list (string * landmark vec).
Variable enumO : gmap string (observation R) -> list (string * observation R).
Variable tracks : option utm. Variable r : urec. Variable images : list string. Variable image_format : string. Variable width : Z.
Hypothesis HS : enumerates enumS. Hypothesis HL : enumerates enumL. Hypothesis HO : enumerates enumO.
Hypothesis Hwf : well_formed r.
Hypothesis Hclash : no_clash r images image_format.
Notation run := (undistort_reconstruction enumS enumL enumO tracks r images image_format width).

(** Undistortion succeeds. Nothing is undistorted but the shots that are in the dataset and have a supported camera: each of them is
    listed once, with its images; the other shots are left out silently. *)
Theorem C61_succeeds : exists st, run = Ok st.
Proof. destruct (undistort_ok enumS enumL enumO tracks r images image_format width HS HL HO Hwf Hclash) as (st & ids & E & _). by exists st. Qed.
Lemma run_inv st : run = Ok st -> exists ids, (forall id s, m_shots r !! (false, id) = Some s -> id ∈ ids) /\
  inv tracks r images image_format width ((fun l => Landmark (lm_pos l) (lm_color l) ∅) <$> m_landmarks r) (Some (default (0, 0, 0) (m_reference r))) ids st.
Proof.
  intros E. destruct (undistort_ok enumS enumL enumO tracks r images image_format width HS HL HO Hwf Hclash) as (st' & ids & E' & H). rewrite E in E'. injection E' as <-. by exists ids.
Qed.
Theorem C61_dictionary st : run = Ok st ->
  NoDup (us_shots st).*1 /\
  forall id subs, (id, subs) ∈ us_shots st <-> exists s c, kept r images id s c /\ subs = outputs image_format id (cam_type c).
Proof.
  intros E. destruct (run_inv st E) as (ids & Hids & HI). split; [apply (v_nodup _ _ _ _ _ _ _ _ _ HI)|]. intros id subs. rewrite (v_list _ _ _ _ _ _ _ _ _ HI). split.
  - intros (s & c & _ & K & Es). by exists s, c.
  - intros (s & c & K & Es). exists s, c. split; [|done]. destruct K as (Hs & _). by eapply Hids.
Qed.
(** The new reconstruction has these shots and no other, and no shot of it observes a point. *)
Theorem C61_nothing_else st k x : run = Ok st -> m_shots (us_rec st) !! k = Some x ->
  k.1 = false /\ sh_obs x = ∅ /\ exists id s c, kept r images id s c /\ k.2 ∈ outputs image_format id (cam_type c).
Proof.
  intros E Hx. destruct (run_inv st E) as (ids & Hids & HI). destruct (v_only _ _ _ _ _ _ _ _ _ HI _ _ Hx) as [Hk (id & s & c & Hid & K & Hn)].
  split; [done|]. split; [|by exists id, s, c]. destruct k as [b n]. cbn in Hk, Hn. subst b.
  destruct (v_shots _ _ _ _ _ _ _ _ _ HI id s c Hid K) as (p & _ & _ & Hf & Hs). pose proof K as (_ & _ & _ & [Hfl|Hsp]).
  - rewrite output_flat in Hn by done. apply elem_of_list_singleton in Hn as ->. destruct (Hf Hfl) as (y & Hy & _ & Ho & _). congruence.
  - rewrite Hsp in Hn. apply output_side in Hn as (side & Hside & ->). destruct (Hs Hsp side Hside) as (y & Hy & _ & Ho & _). change (m_shots (us_rec st) !! (false, side_name image_format id side) = Some x) in Hx. rewrite Hx in Hy. by injection Hy as ->.
Qed.
(** A shot of a flat camera gives one shot: same pose, same measurements, seen by a perspective camera without distortion. *)
Theorem C61_flat st id s c : run = Ok st -> kept r images id s c -> flat (cam_type c) ->
  exists n c' p, named image_format id n /\ outputs image_format id (cam_type c) = [n] /\ flattened c c' /\ get_pose r (false, id) = Some p /\
    shot_of (us_rec st) n (sd_metadata (sh_data s)) c' p.
Proof.
  intros E K Hf. destruct (run_inv st E) as (ids & Hids & HI). pose proof K as (Hs & _ & Hc & _).
  destruct (v_shots _ _ _ _ _ _ _ _ _ HI id s c (Hids _ _ Hs) K) as (p & Hp & _ & H & _).
  exists (add_image_format_extension id image_format), (flat_camera c), p. split; [apply extension_named|]. split; [by apply output_flat|]. split; [|split; [done|by apply H]].
  apply flat_makes; [|done]. by apply (wf_cameras _ Hwf _ _ Hc).
Qed.
(** A panorama gives six shots: same optical centre, same measurements, turned by the six rotations of [sides], seen by square cameras
    of half angle 45 degrees. *)
Theorem C61_panorama st id s c : run = Ok st -> kept r images id s c -> cam_type c = SPHERICAL ->
  exists p, get_pose r (false, id) = Some p /\
    forall i side, sides !! i = Some side -> exists n c' q,
      named image_format (id +:+ "_perspective_view_" +:+ side.1) n /\ outputs image_format id (cam_type c) !! i = Some n /\ quarter width c' /\
      shot_of (us_rec st) n (sd_metadata (sh_data s)) c' q /\
      valid q /\ get_origin q = get_origin p /\ w_rot q = mmul (rows side.2) (w_rot p).
Proof.
  intros E K Ht. destruct (run_inv st E) as (ids & Hids & HI). pose proof K as (Hs & _ & Hc & _).
  destruct (v_shots _ _ _ _ _ _ _ _ _ HI id s c (Hids _ _ Hs) K) as (p & Hp & Hv & _ & H). exists p. split; [done|]. intros i side Hi.
  assert (side ∈ sides) as Hside by (by eapply elem_of_list_lookup_2). exists (side_name image_format id side), (pano_camera width), (compose (side_pose side.2) p).
  split; [apply extension_named|]. split; [|split; [apply pano_camera_quarter|split; [by apply H|]]].
  { rewrite Ht. unfold outputs. rewrite decide_False by (simpl; tauto). rewrite decide_True by done. rewrite list_lookup_fmap, Hi. done. }
  pose proof (side_pose_valid side Hside) as Hsv. pose proof (valid_compose _ _ Hsv Hv) as Hq. split; [done|]. split; [|done].
  assert (transform (compose (side_pose side.2) p) (get_origin p) = v0) as Hz.
  { rewrite transform_compose, origin_zero by done. unfold transform, side_pose, set_rotation_matrix. cbn. unfold mvec, vadd, v0. cbn. f_equal; lra. }
  apply (f_equal (transform_inverse (compose (side_pose side.2) p))) in Hz. rewrite transform_cancel in Hz by done. rewrite Hz.
  unfold transform_inverse, get_origin. by rewrite mvec_0, vadd_0_l.
Qed.
(** Points keep their names, coordinates and colors; the reference is kept. *)
Theorem C61_points st : run = Ok st ->
  (forall id, (fun l => (lm_pos l, lm_color l)) <$> m_landmarks (us_rec st) !! id = (fun l => (lm_pos l, lm_color l)) <$> m_landmarks r !! id) /\
  m_reference (us_rec st) = Some (default (0, 0, 0) (m_reference r)).
Proof.
  intros E. destruct (run_inv st E) as (ids & Hids & HI). split; [|apply (v_ref _ _ _ _ _ _ _ _ _ HI)]. intros id. rewrite (v_lms _ _ _ _ _ _ _ _ _ HI), lookup_fmap.
  by destruct (m_landmarks r !! id).
Qed.
(** Tracks: a flat image has the observations of the shot (where they are in the distorted image: they are not moved). A view of a
    panorama has those that [pano_observation] finds in it (see C62). There are no others. *)
Theorem C61_tracks st tr : run = Ok st -> tracks = Some tr ->
  consistent (us_tracks st) /\
  (forall id s c n t, kept r images id s c -> flat (cam_type c) -> named image_format id n -> observed (us_tracks st) n t = observed tr id t) /\
  (forall id s c side n c' p q m t, kept r images id s c -> cam_type c = SPHERICAL -> side ∈ sides -> named image_format (id +:+ "_perspective_view_" +:+ side.1) n ->
    get_pose r (false, id) = Some p -> shot_of (us_rec st) n m c' q ->
    observed (us_tracks st) n t = observed tr id t ≫= pano_observation c c' (w_rot p) (w_rot q)) /\
  (forall n t, is_Some (observed (us_tracks st) n t) -> exists id s c, kept r images id s c /\ n ∈ outputs image_format id (cam_type c)).
Proof.
  intros E Ht. destruct (run_inv st E) as (ids & Hids & HI). split; [apply (v_cons _ _ _ _ _ _ _ _ _ HI)|].
  split; [|split].
  - intros id s c n t K Hf Hn. pose proof K as (Hs & _). rewrite (named_unique _ _ _ _ Hn (extension_named image_format id)).
    destruct (v_tracks _ _ _ _ _ _ _ _ _ HI tr id s c Ht (Hids _ _ Hs) K) as (p & _ & H). by apply H.
  - intros id s c side n c' p q m t K Hsp Hside Hn Hp Hshot. pose proof K as (Hs & _). rewrite (named_unique _ _ _ _ Hn (extension_named image_format _)) in *.
    destruct (v_tracks _ _ _ _ _ _ _ _ _ HI tr id s c Ht (Hids _ _ Hs) K) as (p' & Hp' & H). assert (p' = p) as -> by congruence.
    destruct (v_shots _ _ _ _ _ _ _ _ _ HI id s c (Hids _ _ Hs) K) as (p' & Hp2 & _ & _ & H2). assert (p' = p) as -> by congruence.
    destruct (H2 Hsp side Hside) as (x & Hx & _ & _ & Hc & Hq). destruct Hshot as (y & Hy & _ & _ & Hc' & Hq'). unfold side_name in *.
    assert (y = x) as -> by congruence. assert (c' = pano_camera width) as -> by congruence. assert (q = compose (side_pose side.2) p) as -> by congruence.
    by apply H.
  - intros n t H. destruct (v_seen _ _ _ _ _ _ _ _ _ HI n t H) as (id & s & c & _ & K & Hn). by exists id, s, c.
Qed.
Theorem C61_no_tracks st : run = Ok st -> tracks = None -> us_tracks st = tm_empty.
Proof. intros E. destruct (run_inv st E) as (ids & Hids & HI). apply (v_none _ _ _ _ _ _ _ _ _ HI). Qed.
End Undistort.

(** Without panoramas, names clash exactly when an image has the name of another one with the extension added. *)
Lemma app_cancel_r (a b c : string) : a +:+ c = b +:+ c -> a = b.
Proof.
  assert (forall a b : string, String.length (a +:+ b) = (String.length a + String.length b)%nat) as HL.
  { intros x y. induction x as [|h x IH]; [done|]. exact (f_equal S IH). }
  revert b. induction a as [|x a IH]; intros b E.
  - destruct b as [|y b]; [done|]. exfalso. apply (f_equal String.length) in E. rewrite !HL in E. cbn in E. lia.
  - destruct b as [|y b].
    + exfalso. apply (f_equal String.length) in E. rewrite !HL in E. cbn in E. lia.
    + injection E as -> E. f_equal. by apply IH.
Qed.
Theorem C61_no_clash r images image_format :
  (forall id s c, kept r images id s c -> flat (cam_type c)) ->
  (forall id s c id' s' c', kept r images id s c -> kept r images id' s' c' -> id' <> id +:+ "." +:+ image_format) ->
  no_clash r images image_format.
Proof.
  intros Hf Hn id1 s1 c1 id2 s2 c2 i j K1 K2 E Hs. rewrite (output_flat _ _ _ (Hf _ _ _ K1)) in *. rewrite (output_flat _ _ _ (Hf _ _ _ K2)) in *.
  destruct i as [|[|i]]; cbn in Hs; try (by destruct Hs). destruct j as [|j]; [|discriminate E]. injection E as E. split; [|done].
  pose proof (extension_named image_format id1) as N1. pose proof (extension_named image_format id2) as N2. rewrite E in N1.
  destruct N1 as [(a & _ & E1)|(_ & E1)], N2 as [(b & _ & E2)|(_ & E2)]; rewrite E2 in E1.
  - done.
  - destruct (Hn _ _ _ _ _ _ K2 K1). done.
  - destruct (Hn _ _ _ _ _ _ K1 K2). done.
  - symmetry. by eapply app_cancel_r.
Qed.

(** * The hypotheses are met, and names can clash *)
Definition with_id (c : camera) (id : string) : camera := Camera id 640 480 (cam_type c) (cam_params c) (cam_values c).
Definition pin : camera := with_id (create_perspective 1 0 0) "pin".
Definition ball : camera := with_id create_spherical "ball".
(** Two shots, [a] by camera [ca] and [b] by camera [cb], and the point "1" *)
Definition two (ca cb : camera) (a b : string) : urec :=
  Map (<[cam_id ca := ca]> {[cam_id cb := cb]}) ∅ (<[cam_id ca := pose0]> {[cam_id cb := pose0]})
      (<[a := Instance pose0 {[a := (false, cam_id ca)]}]> {[b := Instance pose0 {[b := (false, cam_id cb)]}]})
      (<[(false, a) := Shot (cam_id ca) (cam_id ca) a (udata no_measurements) mesh0 ∅ ∅]> {[(false, b) := Shot (cam_id cb) (cam_id cb) b (udata no_measurements) mesh0 ∅ ∅]})
      {["1" := Landmark (Vec 1 2 3) (0, 0, 0)%Z ∅]} (Some (1, 2, 3)).
Ltac look H := repeat (apply lookup_insert_Some in H as [[? ?]|[? H]]; [|try (apply lookup_singleton_Some in H as [? ?])]).
Lemma two_shots ca cb a b k s : m_shots (two ca cb a b) !! k = Some s -> a <> b ->
  (k = (false, a) /\ s = Shot (cam_id ca) (cam_id ca) a (udata no_measurements) mesh0 ∅ ∅) \/ (k = (false, b) /\ s = Shot (cam_id cb) (cam_id cb) b (udata no_measurements) mesh0 ∅ ∅).
Proof. cbn. intros H Hab. apply lookup_insert_Some in H as [[<- <-]|[? H]]; [by left|]. apply lookup_singleton_Some in H as [<- <-]. by right. Qed.
Lemma two_well_formed ca cb a b : a <> b -> (cam_id ca = cam_id cb -> ca = cb) -> made ca -> made cb ->
  cam_id ca ∉ "perspective_panorama_camera" :: sides.*1 -> cam_id cb ∉ "perspective_panorama_camera" :: sides.*1 -> well_formed (two ca cb a b).
Proof.
  intros Hab Hc Ma Mb Na Nb.
  assert (Hcb : forall (A : Type) (x y : A), (cam_id ca = cam_id cb -> x = y) -> (<[cam_id ca := x]> {[cam_id cb := y]} : gmap string A) !! cam_id cb = Some y).
  { intros A x y E. destruct (decide (cam_id ca = cam_id cb)) as [e|n]; [rewrite <- e, lookup_insert; by rewrite E|rewrite lookup_insert_ne by done; apply lookup_singleton]. }
  split; [split| |].
  - intros k s Hs. destruct (two_shots _ _ _ _ _ _ Hs Hab) as [[-> ->]|[-> ->]]; cbn [two m_cameras m_rig_cameras m_instances sh_camera sh_rig_camera sh_instance fst snd].
    + rewrite !lookup_insert. split; [by eexists|]. split; [by eexists|]. eexists. split; [done|]. cbn. by rewrite lookup_singleton.
    + rewrite !Hcb by done. split; [by eexists|]. split; [by eexists|]. eexists. rewrite lookup_insert_ne, lookup_singleton by done. split; [done|]. cbn. by rewrite lookup_singleton.
  - intros id i s b' rc Hi Hm. cbn in Hi. apply lookup_insert_Some in Hi as [[<- <-]|[? Hi]]; [|apply lookup_singleton_Some in Hi as [<- <-]]; cbn in Hm; apply lookup_singleton_Some in Hm as [<- [= <- <-]]; cbn.
    + rewrite lookup_insert. by eexists.
    + rewrite lookup_insert_ne, lookup_singleton by congruence. by eexists.
  - intros k lm o (s & Hs & Ho). destruct (two_shots _ _ _ _ _ _ Hs Hab) as [[-> ->]|[-> ->]]; cbn in Ho; by rewrite lookup_empty in Ho.
  - intros k lm f (l & Hl & Hf). cbn in Hl. apply lookup_singleton_Some in Hl as [<- <-]. cbn in Hf. by rewrite lookup_empty in Hf.
  - split.
    + intros id p Hp. cbn in Hp. apply lookup_insert_Some in Hp as [[<- <-]|[? Hp]]; [apply valid_pose0|]. apply lookup_singleton_Some in Hp as [<- <-]. apply valid_pose0.
    + intros id i Hp. cbn in Hp. apply lookup_insert_Some in Hp as [[<- <-]|[? Hp]]; [apply valid_pose0|]. apply lookup_singleton_Some in Hp as [<- <-]. apply valid_pose0.
  - intros id c H. cbn in H. apply lookup_insert_Some in H as [[<- <-]|[? H]]; [done|]. by apply lookup_singleton_Some in H as [<- <-].
Qed.
Lemma pin_ball id : id ∈ ["pin"; "ball"] -> id ∉ "perspective_panorama_camera" :: sides.*1.
Proof. intros H. assert (bool_decide (id ∉ "perspective_panorama_camera" :: sides.*1) = true) as E; [|by apply bool_decide_eq_true in E]. by repeat (apply elem_of_cons in H as [->|H]; [done|]); apply elem_of_nil in H. Qed.
Example C61_example : well_formed (two pin ball "p.jpg" "s.jpg") /\ no_clash (two pin ball "p.jpg" "s.jpg") ["p.jpg"; "s.jpg"] "jpg" /\
  (exists s, kept (two pin ball "p.jpg" "s.jpg") ["p.jpg"; "s.jpg"] "p.jpg" s pin /\ flat (cam_type pin)) /\
  (exists s, kept (two pin ball "p.jpg" "s.jpg") ["p.jpg"; "s.jpg"] "s.jpg" s ball /\ cam_type ball = SPHERICAL) /\
  named "jpg" "p.jpg" "p.jpg" /\ named "jpg" "s.jpg_perspective_view_top" "s.jpg_perspective_view_top.jpg".
Proof.
  split; [apply two_well_formed; try done; try (apply made_attributes; constructor); apply pin_ball; repeat (first [by left|right])|].
  assert (forall id s c, kept (two pin ball "p.jpg" "s.jpg") ["p.jpg"; "s.jpg"] id s c -> (id = "p.jpg" /\ c = pin) \/ (id = "s.jpg" /\ c = ball)) as HK.
  { intros id s c (Hs & _ & Hc & _). destruct (two_shots _ _ _ _ _ _ Hs) as [[[= ->] ->]|[[= ->] ->]]; [done| |]; [left|right]; (split; [done|]); cbn in Hc; by injection Hc as <-. }
  split; [|split; [|split; [|split]]].
  - intros id1 s1 c1 id2 s2 c2 i j K1 K2. apply HK in K1, K2.
    assert (forall l : list string, NoDup l -> l !! i = l !! j -> is_Some (l !! i) -> i = j) as HN.
    { intros l Hl E [x Hx]. eapply NoDup_lookup; [done|done|]. by rewrite <- E. }
    assert (forall l l' : list string, bool_decide (Forall (fun x => x ∉ l') l) = true -> l !! i = l' !! j -> is_Some (l !! i) -> False) as HD.
    { intros l l' H E [x Hx]. apply bool_decide_eq_true in H. rewrite Forall_forall in H. eapply H; [by eapply elem_of_list_lookup_2|]. eapply elem_of_list_lookup_2. by rewrite <- E. }
    destruct K1 as [[-> ->]|[-> ->]], K2 as [[-> ->]|[-> ->]]; intros E Hi.
    + split; [done|]. eapply HN; [|done|done]. by apply (bool_decide_eq_true_1 _).
    + exfalso. by eapply HD; [|done|done].
    + exfalso. by eapply HD; [|done|done].
    + split; [done|]. eapply HN; [|done|done]. by apply (bool_decide_eq_true_1 _).
  - eexists. split; [|done]. split; [reflexivity|]. split; [by left|]. split; [reflexivity|]. by left.
  - eexists. split; [|done]. split; [reflexivity|]. split; [by right; left|]. split; [reflexivity|]. by right.
  - left. by exists "p".
  - apply (extension_named "jpg" "s.jpg_perspective_view_top").
Qed.
Lemma get_shot_clash (m : urec) id cid p meta fmt : let n := add_image_format_extension id fmt in
  is_Some (m_shots m !! (false, n)) -> is_Some (m_instances m !! n) -> is_Some (m_rig_cameras m !! cid) ->
  get_shot_with_different_camera m id cid p meta fmt = Err RuntimeError.
Proof.
  intros n [s Hs] [i Hi] [q Hq]. unfold get_shot_with_different_camera. fold n. cbn zeta. unfold rec_create_shot. cbn [truthy default from_option]. unfold Datatypes.id.
  unfold rec_add_rig_camera. rewrite Hq. cbn [res_bind]. rewrite Hq. cbn [of_option res_bind]. rewrite Hi. cbn [res_bind]. rewrite Hi. cbn [of_option res_bind].
  unfold create_shot. by rewrite Hs.
Qed.
(** Images "a" and "a.jpg", undistorted to jpg: the same name, and undistortion fails. *)
Theorem C61_clash_refuted : exists r images, well_formed r /\
  forall enumS enumL enumO tracks width, enumerates enumS -> enumerates enumL -> enumerates enumO ->
    undistort_reconstruction enumS enumL enumO tracks r images "jpg" width = Err RuntimeError.
Proof.
  exists (two pin pin "a" "a.jpg"), ["a"; "a.jpg"]. 
  split; [apply two_well_formed; try done; try (apply made_attributes; constructor); apply pin_ball; repeat (first [by left|right])|].
  intros enumS enumL enumO tracks width HS HL HO. unfold undistort_reconstruction.
  rewrite copy_points_ok; [|rewrite (HL _); apply NoDup_fst_map_to_list|intros; apply lookup_empty]. cbn [res_bind]. rewrite copied_points by done.
  set (lms := _ <$> _). clearbody lms.
  set (m0 := set_reference _ _). assert (m_shots m0 = ∅ /\ m_instances m0 = ∅ /\ m_rig_cameras m0 = ∅ /\ m_cameras m0 = ∅) as (Z1 & Z2 & Z3 & Z4) by done. clearbody m0.
  set (sh := fun n => Shot "pin" "pin" n (udata no_measurements) mesh0 ∅ ∅ : ushot).
  assert (exists a b, (a = "a" /\ b = "a.jpg" \/ a = "a.jpg" /\ b = "a") /\ enumS (m_shots (two pin pin "a" "a.jpg")) = [((false, a), sh a); ((false, b), sh b)]) as (a & b & Hab & Hen).
  { assert (enumS (m_shots (two pin pin "a" "a.jpg")) ≡ₚ [((false, "a"), sh "a"); ((false, "a.jpg"), sh "a.jpg")]) as HP.
    { rewrite (HS _). cbn [two m_shots]. rewrite map_to_list_insert by done. rewrite map_to_list_singleton. done. }
    symmetry in HP. apply Permutation_length_2_inv in HP as [E|E]; rewrite E; [exists "a", "a.jpg"|exists "a.jpg", "a"]; tauto. }
  rewrite Hen. cbn [List.filter fst snd negb foldR].
  assert (Hstep : forall st n, n = "a" \/ n = "a.jpg" -> undistort_shot enumO tracks (two pin pin "a" "a.jpg") (list_to_set ["a"; "a.jpg"]) "jpg" width st (false, n, sh n) =
    try (m, sub) := get_shot_with_different_camera (rec_add_camera (us_rec st) pin) n "pin" pose0 no_measurements "jpg" in
    try ut := add_all_tracks enumO tracks m (us_tracks st) pin pose0 n [sub] in Ok (UState m ut (us_count st) (us_shots st ++ [(n, [sub])]))).
  { intros st n Hn. unfold undistort_shot. rewrite decide_False by (intros H; apply H; set_solver).
    change (m_cameras _ !! sh_camera (sh n)) with (Some pin). cbn [of_option res_bind].
    assert (get_pose (two pin pin "a" "a.jpg") (false, n) = Some pose0) as ->.
    { assert (size ({[n := (false, "pin")]} : gmap string (bool * string)) = 1%nat) as Hsz by apply map_size_singleton.
      transitivity (Some (shot_get_pose pose0 pose0 (size ({[n := (false, "pin")]} : gmap string (bool * string))))); [by destruct Hn as [-> | ->]|].
      rewrite Hsz. unfold shot_get_pose. f_equal. destruct (_ && _); [done|]. apply compose_0_l, valid_pose0. }
    cbn [of_option res_bind cam_type pin with_id create_perspective new_camera]. change (sd_metadata (sh_data (sh n))) with no_measurements.
    unfold perspective_camera_from_perspective. change (get_param pin Focal) with (Ok 1). cbn [res_bind].
    change (like pin 1) with pin. change (cam_id pin) with "pin".
    destruct (get_shot_with_different_camera _ _ _ _ _ _) as [[m sub]|e]; done. }
  rewrite Hstep by tauto. set (m1 := rec_add_camera m0 pin). 
  assert (m_shots m1 = ∅ /\ m_instances m1 = ∅ /\ m_rig_cameras m1 = ∅ /\ m_cameras m1 !! "pin" = Some pin) as (Y1 & Y2 & Y3 & Y4).
  { unfold m1, rec_add_camera. rewrite Z4. change (∅ !! cam_id pin) with (@None camera). unfold create_camera. cbn [m_shots m_instances m_rig_cameras m_cameras]. 
    rewrite Z1, Z2, Z3, Z4. done. }
  cbn [us_rec]. fold m1. rewrite (get_shot_ok m1 a "pin" pose0 no_measurements "jpg" pin); [|by rewrite Y1|by rewrite Y2|done|by rewrite Y3|apply valid_pose0].
  assert (add_image_format_extension a "jpg" = "a.jpg") as -> by (destruct Hab as [[-> ->]|[-> ->]]; done).
  cbn [res_bind]. set (m2 := Map _ _ _ _ _ _ _). 
  assert (exists ut, add_all_tracks enumO tracks m2 (us_tracks (UState m0 tm_empty 0 [])) pin pose0 a ["a.jpg"] = Ok ut) as [ut ->].
  { unfold add_all_tracks. destruct tracks; [|by eexists]. cbn. by eexists. }
  cbn [res_bind]. rewrite Hstep by tauto. cbn [us_rec]. rewrite get_shot_clash; [done| | |].
  all: assert (rec_add_camera m2 pin = m2) as -> by (unfold rec_add_camera; change (cam_id pin) with "pin"; cbn [m_cameras m2]; by rewrite Y4).
  all: assert (add_image_format_extension b "jpg" = "a.jpg") as Eb by (destruct Hab as [[-> ->]|[-> ->]]; done); rewrite ?Eb; cbn [m2 m_shots m_instances m_rig_cameras]; rewrite lookup_insert; by eexists.
Qed.

Print Assumptions C61_succeeds.
Print Assumptions C61_dictionary.
Print Assumptions C61_nothing_else.
Print Assumptions C61_flat.
Print Assumptions C61_panorama.
Print Assumptions C61_points.
Print Assumptions C61_tracks.
Print Assumptions C61_no_tracks.
Print Assumptions C61_no_clash.
Print Assumptions C61_clash_refuted.
