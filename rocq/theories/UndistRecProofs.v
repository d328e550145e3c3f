From Coq Require Import Ascii Reals Lra.
From stdpp Require Import prelude gmap strings pretty.
From Verif Require Import Base CamModel CamSpec CamProofs FunctorModel CameraSpec CameraProofs ProjModel Lin RotModel TextProofs TracksModel TracksSpec TracksProofs MapModel MapSpec PoseModel PoseSpec PoseProofs RecModel PixelModel UndistRecModel UndistRecSpec.
Local Open Scope R_scope.

(** * Names *)
Lemma string_app_assoc (a b c : string) : (a +:+ b) +:+ c = a +:+ (b +:+ c).
Proof. induction a as [|x a IH]; [done|]. exact (f_equal (String x) IH). Qed.
Lemma ends_with_spec suf s : ends_with suf s = true <-> exists stem, s = stem +:+ suf.
Proof.
  induction s as [|x s IH]; simpl; rewrite orb_true_iff, bool_decide_eq_true.
  - split; [intros [<-|?]; [by exists ""|done]|]. intros [stem E]. left. destruct stem; [done|discriminate E].
  - rewrite IH. split; [intros [<-|[stem ->]]; [by exists ""|by exists (String x stem)]|].
    intros [stem E]. destruct stem as [|y stem]; [by left|]. right. exists stem. by injection E as <- ->.
Qed.
Lemma extension_named fmt id : named fmt id (add_image_format_extension id fmt).
Proof.
  unfold add_image_format_extension, named. destruct (ends_with _ _) eqn:E.
  - left. apply ends_with_spec in E as [stem ->]. by exists stem.
  - right. split; [|done]. intros H%ends_with_spec. congruence.
Qed.
Lemma named_unique fmt id n n' : named fmt id n -> named fmt id n' -> n = n'.
Proof. intros [(a & E & ->)|(H & ->)] [(b & E' & ->)|(H' & ->)]; try done; exfalso; eauto. Qed.
Lemma named_dot fmt id n : named fmt id n -> exists stem, n = stem +:+ "." +:+ fmt.
Proof. intros [(stem & E & ->)|(_ & ->)]; eauto. Qed.
Lemma pretty_nat_chars (k : nat) : Forall (fun a => a <> "."%char) (String.list_ascii_of_string (pretty k)).
Proof.
  change (pretty k) with (pretty (N.of_nat k)). eapply Forall_impl; [apply pretty_N_digits|]. intros a Ha ->. 
  repeat (apply elem_of_cons in Ha as [Ha|Ha]; [discriminate Ha|]). by apply elem_of_nil in Ha.
Qed.
Lemma pretty_not_named fmt id (k : nat) : pretty k <> add_image_format_extension id fmt.
Proof.
  intros E. destruct (named_dot _ _ _ (extension_named fmt id)) as [stem E']. pose proof (pretty_nat_chars k) as H.
  rewrite E, E', list_ascii_app in H. apply Forall_app in H as [_ H]. simpl in H. inversion H. done.
Qed.
Lemma pretty_nat_nonempty (k : nat) : (pretty k : string) <> "".
Proof.
  change (pretty k) with (pretty (N.of_nat k)). intros E. pose proof (read_digits_pretty_N (N.of_nat k)) as H. rewrite E in H. discriminate H.
Qed.

(** * The six views *)
Lemma views_sides : views = (fun side => (side.1, rows side.2)) <$> sides.
Proof.
  unfold views, sides. cbn [fmap list_fmap fst snd rows].
  assert (H0 : - 0 * PI / 2 = 0) by lra. assert (H1 : - 1 * PI / 2 = - (PI / 2)) by lra. assert (H2 : - 2 * PI / 2 = - PI) by lra.
  assert (H3 : - 3 * PI / 2 = - (3 * (PI / 2))) by lra. assert (H4 : - PI / 2 = - (PI / 2)) by lra.
  rewrite H0, H1, H2, H3, H4.
  assert (C3 : cos (3 * (PI / 2)) = 0) by apply cos_3PI2. assert (S3 : sin (3 * (PI / 2)) = -1) by apply sin_3PI2.
  repeat (apply (f_equal2 cons); [f_equal; unfold tf_rotation_matrix; rewrite ?sin_neg, ?cos_neg, ?C3, ?S3, ?sin_0, ?cos_0, ?sin_PI2, ?cos_PI2, ?sin_PI, ?cos_PI; unfold madd, mscale, mI; simpl; f_equal; lra|]).
  done.
Qed.
Lemma rotation_side side : side ∈ sides -> rotation (rows side.2).
Proof.
  intros H. unfold sides in H.
  repeat (apply elem_of_cons in H as [->|H]; [split; [unfold mmul, mT, mI; simpl; f_equal; lra|unfold det; simpl; lra]|]). by apply elem_of_nil in H.
Qed.
Definition side_pose (a : vec * vec * vec) : pose := set_rotation_matrix pose0 (rows a).
Lemma side_pose_valid side : side ∈ sides -> valid (side_pose side.2).
Proof.
  intros H. split; [exact (rotation_side _ H)|]. split; [done|]. simpl. unfold inv_tr, minv, adj, det, mI, mscale, mvec, vopp, v0; simpl. f_equal; lra.
Qed.

(** * Inserting several entries *)
Section Inserts.
Context {K A B : Type} `{Countable K}.
Variable key : A -> K. Variable val : A -> B.
Definition inserts (m : gmap K B) (l : list A) : gmap K B := foldl (fun m a => <[key a := val a]> m) m l.
Lemma inserts_out m l k : k ∉ key <$> l -> inserts m l !! k = m !! k.
Proof.
  revert m. induction l as [|a l IH]; intros m Hk; [done|]. simpl in *. apply not_elem_of_cons in Hk as [H1 H2]. unfold inserts in *. simpl.
  rewrite IH by done. by rewrite lookup_insert_ne.
Qed.
Lemma inserts_in m l a : NoDup (key <$> l) -> a ∈ l -> inserts m l !! key a = Some (val a).
Proof.
  revert m. induction l as [|b l IH]; intros m Hn Ha; [by apply elem_of_nil in Ha|]. simpl in Hn. apply NoDup_cons in Hn as [Hb Hn]. 
  apply elem_of_cons in Ha as [->|Ha].
  - change (inserts (<[key b := val b]> m) l !! key b = Some (val b)). by rewrite inserts_out, lookup_insert.
  - change (inserts (<[key b := val b]> m) l !! key a = Some (val a)). by apply IH.
Qed.
Lemma inserts_Some m l k b : inserts m l !! k = Some b -> (exists a, a ∈ l /\ key a = k /\ val a = b) \/ (m !! k = Some b /\ k ∉ key <$> l).
Proof.
  revert m. induction l as [|a l IH]; intros m Hk; [right; split; [done|apply not_elem_of_nil]|]. 
  change (inserts (<[key a := val a]> m) l !! k = Some b) in Hk. apply IH in Hk as [(x & Hx & E)|[Hk Hn]].
  - left. exists x. split; [by right|done].
  - destruct (decide (key a = k)) as [<-|N].
    + rewrite lookup_insert in Hk. injection Hk as Hk. left. exists a. split; [left|done].
    + rewrite lookup_insert_ne in Hk by done. right. split; [done|]. apply not_elem_of_cons. split; [by intros ->|done].
Qed.
Lemma inserts_snoc m l a : inserts m (l ++ [a]) = <[key a := val a]> (inserts m l).
Proof. unfold inserts. by rewrite foldl_app. Qed.
Lemma insert_grows (m : gmap K B) k b : (forall x, m !! k = Some x -> x = b) -> m ⊆ <[k := b]> m.
Proof. intros Hx. destruct (m !! k) as [x|] eqn:E; [rewrite (Hx x eq_refl) in E; by rewrite insert_id|by apply insert_subseteq]. Qed.
Lemma inserts_grows m l : NoDup (key <$> l) -> (forall a x, a ∈ l -> m !! key a = Some x -> x = val a) -> m ⊆ inserts m l.
Proof.
  intros Hn Hl. apply map_subseteq_spec. intros k x Hk. destruct (decide (k ∈ key <$> l)) as [(a & -> & Ha)%elem_of_list_fmap|N].
  - rewrite (Hl a x Ha Hk). by apply inserts_in.
  - by rewrite inserts_out.
Qed.
End Inserts.

(** * One flat image *)
Definition udata (meta : measurements) : shot_data := ShotData meta 1 [] 0.
Lemma get_shot_ok (m : urec) id cid p meta fmt c' : let n := add_image_format_extension id fmt in
  m_shots m !! (false, n) = None -> m_instances m !! n = None -> m_cameras m !! cid = Some c' ->
  (forall q, m_rig_cameras m !! cid = Some q -> q = pose0) -> valid p ->
  get_shot_with_different_camera m id cid p meta fmt =
  Ok (Map (m_cameras m) (m_bias m) (<[cid := pose0]> (m_rig_cameras m)) (<[n := Instance p {[n := (false, cid)]}]> (m_instances m))
          (<[(false, n) := Shot cid cid n (udata meta) mesh0 ∅ ∅]> (m_shots m)) (m_landmarks m) (m_reference m), n).
Proof.
  intros n Hs Hi Hc Hr Hp. unfold get_shot_with_different_camera. fold n. cbn zeta.
  unfold rec_create_shot. cbn [truthy default from_option]. unfold Datatypes.id.
  assert (rec_add_rig_camera m cid pose0 = Ok (set_rig_cameras m (<[cid := pose0]> (m_rig_cameras m)))) as ->.
  { unfold rec_add_rig_camera. destruct (m_rig_cameras m !! cid) as [q|] eqn:E.
    - rewrite (Hr q eq_refl) in E. rewrite insert_id by done. by destruct m.
    - unfold create_rig_camera. by rewrite E. }
  cbn [res_bind m_rig_cameras set_rig_cameras]. rewrite lookup_insert. cbn [of_option res_bind m_instances set_rig_cameras]. rewrite Hi.
  unfold rec_add_rig_instance, create_instance. cbn [m_instances set_rig_cameras]. rewrite Hi. cbn [res_bind set_instances set_rig_cameras m_instances m_rig_cameras m_cameras]. rewrite insert_insert, lookup_insert.
  cbn [of_option res_bind]. unfold create_shot, set_instances, set_rig_cameras. cbn [m_shots m_cameras m_instances m_rig_cameras]. rewrite Hs, Hc, !lookup_insert.
  unfold instance_add_shot. cbn [in_members in_pose]. rewrite decide_True by apply map_Forall_empty. cbn [res_bind fst snd].
  unfold instance_update_pose. cbn [in_members snd]. rewrite lookup_insert. cbn [m_rig_cameras]. rewrite lookup_insert. cbn [of_option res_bind].
  unfold set_metadata. unfold set_shots, set_instances. cbn [m_shots]. rewrite lookup_insert. cbn [of_option res_bind sh_data sd_scale sd_covariance sd_merge_cc data0].
  unfold assign_shot. cbn [m_shots]. rewrite lookup_insert. cbn [res_bind]. unfold set_shots, set_instances. cbn.
  rewrite !insert_insert. rewrite insert_empty.
  assert (compose (inverse pose0) p = p) as ->. { rewrite <- (compose_0_l p Hp) at 1. rewrite cancel_l; [done|apply valid_pose0|done]. }
  done.
Qed.

(** * The six views of one panorama *)
Definition view_name (sid fmt : string) (v : string * mat) : string := add_image_format_extension (sid +:+ "_perspective_view_" +:+ v.1) fmt.
Lemma add_view_ok sid inst fmt meta (m : urec) acc v i : let n := view_name sid fmt v in let q := set_rotation_matrix pose0 v.2 in
  v.1 <> "" -> inst <> "" -> m_shots m !! (false, n) = None -> m_instances m !! inst = Some i -> is_Some (m_cameras m !! pano_camera_id) ->
  (forall x, m_rig_cameras m !! v.1 = Some x -> x = q) -> map_Forall (fun _ e => e.2 <> v.1) (in_members i) ->
  exists ip, add_view sid inst fmt meta (m, acc) v =
  Ok (Map (m_cameras m) (m_bias m) (<[v.1 := q]> (m_rig_cameras m)) (<[inst := Instance ip (<[n := (false, v.1)]> (in_members i))]> (m_instances m))
          (<[(false, n) := Shot pano_camera_id v.1 inst (udata meta) mesh0 ∅ ∅]> (m_shots m)) (m_landmarks m) (m_reference m), acc ++ [n]).
Proof.
  intros n q Hv Hin Hs Hi [c' Hc] Hr Hm. unfold add_view. fold n q.
  assert (rec_add_rig_camera m v.1 q = Ok (set_rig_cameras m (<[v.1 := q]> (m_rig_cameras m)))) as ->.
  { unfold rec_add_rig_camera. destruct (m_rig_cameras m !! v.1) as [x|] eqn:E.
    - rewrite (Hr x eq_refl) in E. rewrite insert_id by done. by destruct m.
    - unfold create_rig_camera. by rewrite E. }
  cbn [res_bind]. unfold rec_create_shot. cbn [truthy]. rewrite !decide_False by done. cbn [default from_option]. unfold Datatypes.id.
  cbn [res_bind m_rig_cameras set_rig_cameras]. rewrite lookup_insert. cbn [of_option res_bind m_instances set_rig_cameras]. rewrite Hi. cbn [of_option res_bind].
  unfold create_shot, set_instances, set_rig_cameras. cbn [m_shots m_cameras m_instances m_rig_cameras]. fold (view_name sid fmt v). fold n. rewrite Hs, Hc, Hi, lookup_insert.
  unfold instance_add_shot. rewrite decide_True by done. cbn [res_bind fst snd].
  unfold instance_update_pose. cbn [in_members snd]. rewrite lookup_insert. cbn [m_rig_cameras]. rewrite lookup_insert. cbn [of_option res_bind].
  unfold set_metadata. unfold set_shots, set_instances. cbn [m_shots]. rewrite lookup_insert. cbn [of_option res_bind sh_data sd_scale sd_covariance sd_merge_cc data0].
  unfold assign_shot. cbn [m_shots]. rewrite lookup_insert. cbn [res_bind]. unfold set_shots, set_instances. cbn. rewrite insert_insert. by eexists.
Qed.
Definition view_shot (inst : string) (meta : measurements) (v : string * mat) : ushot := Shot pano_camera_id v.1 inst (udata meta) mesh0 ∅ ∅.
Lemma add_views_ok sid inst fmt meta (vs : list (string * mat)) : inst <> "" -> forall (m : urec) acc i,
  NoDup vs.*1 -> (forall v, v ∈ vs -> v.1 <> "") -> NoDup (view_name sid fmt <$> vs) ->
  (forall v, v ∈ vs -> m_shots m !! (false, view_name sid fmt v) = None) -> m_instances m !! inst = Some i -> is_Some (m_cameras m !! pano_camera_id) ->
  (forall v x, v ∈ vs -> m_rig_cameras m !! v.1 = Some x -> x = set_rotation_matrix pose0 v.2) ->
  (forall v, v ∈ vs -> map_Forall (fun _ e => e.2 <> v.1) (in_members i)) ->
  exists ip, foldR (add_view sid inst fmt meta) vs (m, acc) =
  Ok (Map (m_cameras m) (m_bias m) (inserts fst (fun v => set_rotation_matrix pose0 v.2) (m_rig_cameras m) vs)
          (<[inst := Instance ip (inserts (view_name sid fmt) (fun v => (false, v.1)) (in_members i) vs)]> (m_instances m))
          (inserts (fun v => (false, view_name sid fmt v)) (view_shot inst meta) (m_shots m) vs) (m_landmarks m) (m_reference m), acc ++ (view_name sid fmt <$> vs)).
Proof.
  intros Hin. induction vs as [|v vs IH]; intros m acc i Hn1 Hne Hn2 Hs Hi Hc Hr Hm.
  - exists (in_pose i). simpl. unfold inserts; simpl. rewrite app_nil_r. rewrite insert_id by (rewrite Hi; by destruct i). by destruct m.
  - simpl in Hn1, Hn2. apply NoDup_cons in Hn1 as [Hv1 Hn1]. apply NoDup_cons in Hn2 as [Hv2 Hn2].
    destruct (add_view_ok sid inst fmt meta m acc v i) as [ip E]; try done; try (by apply Hne; left); try (by apply Hs; left); try (by apply Hm; left).
    { intros x. apply Hr. left. }
    cbn zeta in E. cbn [foldR]. rewrite E. cbn [res_bind].
    match goal with |- context [foldR _ vs (?m', ?a)] => destruct (IH m' a (Instance ip (<[view_name sid fmt v:=(false, v.1)]> (in_members i)))) as [ip' E'] end; try done.
    + intros w Hw. apply Hne. by right.
    + intros w Hw. cbn. rewrite lookup_insert_ne; [apply Hs; by right|]. intros [= Ev]. apply Hv2. rewrite Ev. by apply elem_of_list_fmap_1.
    + cbn. by rewrite lookup_insert.
    + intros w x Hw. cbn. rewrite lookup_insert_ne; [apply Hr; by right|]. intros Ev. apply Hv1. rewrite Ev. by apply elem_of_list_fmap_1.
    + intros w Hw. cbn. apply map_Forall_insert_2; [|apply Hm; by right]. simpl. intros Ev. apply Hv1. rewrite Ev. by apply elem_of_list_fmap_1.
    + exists ip'. etransitivity; [exact E'|]. cbn. rewrite insert_insert, <- app_assoc. done.
Qed.
Lemma sides_names : NoDup sides.*1 /\ forall side, side ∈ sides -> side.1 <> "".
Proof. split; [apply (bool_decide_unpack _); vm_compute; exact I|]. intros side H. unfold sides in H. repeat (apply elem_of_cons in H as [->|H]; [done|]). by apply elem_of_nil in H. Qed.
Lemma view_names sid fmt : view_name sid fmt <$> views = outputs fmt sid SPHERICAL.
Proof. rewrite views_sides, <- list_fmap_compose. done. Qed.
Lemma view_elem v : v ∈ views <-> exists side, side ∈ sides /\ v = (side.1, rows side.2).
Proof. rewrite views_sides, elem_of_list_fmap. split; intros (x & ? & ?); by exists x. Qed.
Lemma pano_ok (m : urec) sid p meta width fmt (count : nat) :
  m_instances m !! (pretty count : string) = None -> NoDup (outputs fmt sid SPHERICAL) ->
  (forall n, n ∈ outputs fmt sid SPHERICAL -> m_shots m !! (false, n) = None) ->
  (forall c, m_cameras m !! pano_camera_id = Some c -> c = pano_camera width) ->
  (forall side q, side ∈ sides -> m_rig_cameras m !! side.1 = Some q -> q = side_pose side.2) ->
  exists bias, perspective_views_of_a_panorama m sid p meta width fmt count =
  Ok (Map (<[pano_camera_id := pano_camera width]> (m_cameras m)) bias (inserts fst (fun v => set_rotation_matrix pose0 v.2) (m_rig_cameras m) views)
          (<[pretty count := Instance p (inserts (view_name sid fmt) (fun v => (false, v.1)) ∅ views)]> (m_instances m))
          (inserts (fun v => (false, view_name sid fmt v)) (view_shot (pretty count) meta) (m_shots m) views) (m_landmarks m) (m_reference m),
      outputs fmt sid SPHERICAL).
Proof.
  intros Hi Hn Hs Hc Hr. unfold perspective_views_of_a_panorama. cbn zeta.
  set (m1 := rec_add_camera m (pano_camera width)).
  assert (exists bias, m1 = Map (<[pano_camera_id := pano_camera width]> (m_cameras m)) bias (m_rig_cameras m) (m_instances m) (m_shots m) (m_landmarks m) (m_reference m)) as [bias ->].
  { unfold m1, rec_add_camera. cbn [cam_id pano_camera]. destruct (m_cameras m !! pano_camera_id) as [c|] eqn:E.
    - exists (m_bias m). rewrite (Hc c eq_refl) in E. rewrite insert_id by done. by destruct m.
    - unfold create_camera. eexists. f_equal. unfold emplace. by rewrite E. }
  exists bias. unfold rec_add_rig_instance, create_instance. cbn [m_instances]. rewrite Hi. cbn [res_bind]. unfold set_instances. cbn [m_instances m_cameras m_bias m_rig_cameras m_shots m_landmarks m_reference].
  rewrite insert_insert.
  match goal with |- context [foldR _ views (?m', [])] => destruct (add_views_ok sid (pretty count) fmt meta views (pretty_nat_nonempty count) m' [] (Instance pose0 ∅)) as [ip E] end.
  - rewrite views_sides, <- list_fmap_compose. apply sides_names.
  - intros v (side & H & ->)%view_elem. by apply sides_names.
  - by rewrite view_names.
  - intros v Hv. cbn. apply Hs. rewrite <- view_names. by apply elem_of_list_fmap_1.
  - cbn. by rewrite lookup_insert.
  - cbn. rewrite lookup_insert. by eexists.
  - intros v x (side & H & ->)%view_elem. cbn. intros Hx. by apply (Hr side).
  - intros v _. apply map_Forall_empty.
  - rewrite E, view_names. cbn [res_bind]. unfold instance_set_pose. cbn [m_instances]. rewrite lookup_insert. cbn [res_bind]. unfold set_instances. cbn [in_members m_cameras m_bias m_rig_cameras m_shots m_landmarks m_reference app]. rewrite !insert_insert. done.
Qed.

(** * The loop *)
Record ext (m m' : urec) : Prop := {
  ext_cameras : m_cameras m ⊆ m_cameras m'; ext_rcs : m_rig_cameras m ⊆ m_rig_cameras m'; ext_insts : m_instances m ⊆ m_instances m';
  ext_shots : m_shots m ⊆ m_shots m'; ext_lms : m_landmarks m' = m_landmarks m; ext_ref : m_reference m' = m_reference m }.
Lemma shot_of_ext m m' n meta c q : ext m m' -> shot_of m n meta c q -> shot_of m' n meta c q.
Proof.
  intros [H1 H2 H3 H4 _ _] (x & Hx & Hd & Ho & Hc & Hp). exists x. 
  assert (m_shots m' !! (false, n) = Some x) as Hx' by (by eapply lookup_weaken).
  repeat split; try done; [by eapply lookup_weaken|].
  unfold get_pose in *. rewrite Hx in Hp. rewrite Hx'. simpl in *.
  destruct (m_instances m !! sh_instance x) as [i|] eqn:Ei; [|done]. simpl in Hp. destruct (m_rig_cameras m !! sh_rig_camera x) as [rc|] eqn:Er; [|done].
  rewrite (lookup_weaken _ _ _ _ Ei H3). simpl. rewrite (lookup_weaken _ _ _ _ Er H2). done.
Qed.
Definition flat_camera (c : camera) : camera :=
  like c (match cam_type c with PERSPECTIVE | FISHEYE => value_of c Focal | _ => value_of c Focal * (1 + value_of c AspectRatio) / 2 end).
Lemma value_param c p x : get_param c p = Ok x -> value_of c p = x. Proof. unfold value_of. by intros ->. Qed.
Ltac pors := match goal with |- context [param_or ?c ?p ?d] => first [change (param_or c p d) with d | change (param_or c p d) with (value_of c p)] end.
Lemma flat_makes c : made c -> flat (cam_type c) ->
  match cam_type c with
  | PERSPECTIVE => perspective_camera_from_perspective c | BROWN => perspective_camera_from_brown c
  | FISHEYE => perspective_camera_from_fisheye c | FISHEYE_OPENCV => perspective_camera_from_fisheye_opencv c
  | _ => perspective_camera_from_fisheye62 c end = Ok (flat_camera c) /\ flattened c (flat_camera c).
Proof.
  intros Hm Hf. shaped. unfold flat_camera, flattened, like.
  assert (forall id w h v, made (Camera id w h PERSPECTIVE [K1; K2; Focal] [0; 0; v]) /\ undistorted (Camera id w h PERSPECTIVE [K1; K2; Focal] [0; 0; v])) as HP.
  { intros id0 w0 h0 v. split; [exact (made_attributes (create_perspective v 0 0) id0 w0 h0 (made_perspective v 0 0))|].
    intros q Hq. repeat (destruct Hq as [<-|Hq]; [reflexivity|]). destruct Hq. }
  destruct t; cbn in Hf; try contradiction; cbn in H0.
  - conc vs 3%nat H0. split; [reflexivity|]. repeat split; try apply HP. pors. values. cbn [cam_type cam_values]. lra.
  - conc vs 9%nat H0. split; [reflexivity|]. repeat split; try apply HP. pors. values. cbn [cam_type cam_values]. lra.
  - conc vs 3%nat H0. split; [reflexivity|]. repeat split; try apply HP. pors. values. cbn [cam_type cam_values]. lra.
  - conc vs 8%nat H0. split; [reflexivity|]. repeat split; try apply HP. pors. values. cbn [cam_type cam_values]. lra.
  - conc vs 12%nat H0. split; [reflexivity|]. repeat split; try apply HP. pors. values. cbn [cam_type cam_values]. lra.
Qed.
Lemma pano_camera_quarter width : quarter width (pano_camera width).
Proof.
  repeat split; try exact (made_attributes (create_perspective (1 / 2) 0 0) _ _ _ (made_perspective _ _ _)).
  intros q Hq. repeat (destruct Hq as [<-|Hq]; [reflexivity|]). destruct Hq.
Qed.
Section Loop.
Variable enumO : gmap string (observation R) -> list (string * observation R).
Hypothesis HenumO : enumerates enumO.
Lemma subshot_tracks_spec (tr ut : utm) id sub view : consistent ut -> let ut' := add_subshot_tracks enumO tr ut id sub view in
  consistent ut' /\ forall n t, observed ut' n t = (if decide (n = sub) then match observed tr id t ≫= view with Some o => Some o | None => observed ut n t end else observed ut n t).
Proof.
  intros Hc. unfold add_subshot_tracks. rewrite (observed_eq) || idtac.
  destruct (tracks_per_shot tr !! id) as [obs|] eqn:E; cbn zeta.
  - set (f := fun ut '(t, o) => _).
    assert (forall l ut, NoDup l.*1 -> consistent ut -> consistent (foldl f ut l) /\ forall n t, observed (foldl f ut l) n t =
        (if decide (n = sub) then match (list_to_map l : gmap string _) !! t ≫= view with Some o => Some o | None => observed ut n t end else observed ut n t)) as H.
    { clear - ut. intros l. induction l as [|[t0 o0] l IH]; intros ut0 Hn Hc.
      - split; [done|]. intros n t. simpl. rewrite lookup_empty. simpl. by destruct (decide _).
      - simpl in Hn. apply NoDup_cons in Hn as [Ht Hn]. simpl. destruct (view o0) as [o'|] eqn:Ev.
        + destruct (IH (tm_add ut0 sub t0 o') Hn (consistent_add _ _ _ _ Hc)) as [H1 H2]. split; [done|]. intros n t. rewrite H2.
          destruct (decide (n = sub)) as [->|N].
          * destruct (decide (t = t0)) as [->|N'].
            -- rewrite lookup_insert. simpl. rewrite Ev. rewrite not_elem_of_list_to_map_1 by done. simpl. rewrite observed_add, bool_decide_eq_true_2 by done. done.
            -- rewrite lookup_insert_ne by done. destruct (_ ≫= view); [done|]. rewrite observed_add, bool_decide_eq_false_2; [done|]. by intros [_ ?].
          * rewrite observed_add, bool_decide_eq_false_2; [done|]. intros [? _]; congruence.
        + destruct (IH ut0 Hn Hc) as [H1 H2]. split; [done|]. intros n t. rewrite H2. destruct (decide (n = sub)) as [->|N]; [|done].
          destruct (decide (t = t0)) as [->|N']; [|by rewrite lookup_insert_ne].
          rewrite lookup_insert, not_elem_of_list_to_map_1 by done. simpl. by rewrite Ev. }
    assert (Hp : enumO obs ≡ₚ map_to_list obs) by apply HenumO.
    assert (NoDup (enumO obs).*1) as Hn by (rewrite Hp; apply NoDup_fst_map_to_list).
    destruct (H _ ut Hn Hc) as [H1 H2]. split; [done|]. intros n t. rewrite H2.
    assert ((list_to_map (enumO obs) : gmap string _) = obs) as ->. { rewrite (list_to_map_proper _ _ Hn Hp). apply list_to_map_to_list. }
    rewrite (observed_eq tr), E. done.
  - split; [done|]. intros n t. rewrite (observed_eq tr), E. simpl. by destruct (decide _).
Qed.

Variable tracks : option utm. Variable r : urec. Variable images : list string. Variable fmt : string. Variable width : Z.
Variable L0 : gmap string (landmark vec). Variable R0 : option (R * R * R).
Hypothesis WF : well_formed r.
Hypothesis NC : no_clash r images fmt.
Definition made_before (ids : list string) (n : string) : Prop := exists id s c, id ∈ ids /\ kept r images id s c /\ n ∈ outputs fmt id (cam_type c).
Definition side_name (id : string) (side : string * (vec * vec * vec)) : string := add_image_format_extension (id +:+ "_perspective_view_" +:+ side.1) fmt.
Definition placed (m : urec) (id : string) (s : ushot) (c : camera) : Prop := exists p, get_pose r (false, id) = Some p /\ valid p /\
  (flat (cam_type c) -> shot_of m (add_image_format_extension id fmt) (sd_metadata (sh_data s)) (flat_camera c) p) /\
  (cam_type c = SPHERICAL -> forall side, side ∈ sides -> shot_of m (side_name id side) (sd_metadata (sh_data s)) (pano_camera width) (compose (side_pose side.2) p)).
Definition tracked (tr ut : utm) (id : string) (c : camera) : Prop := exists p, get_pose r (false, id) = Some p /\ forall t,
  (flat (cam_type c) -> observed ut (add_image_format_extension id fmt) t = observed tr id t) /\
  (cam_type c = SPHERICAL -> forall side, side ∈ sides ->
     observed ut (side_name id side) t = observed tr id t ≫= pano_observation c (pano_camera width) (w_rot p) (w_rot (compose (side_pose side.2) p))).
Record inv (ids : list string) (st : ustate) : Prop := {
  v_inst : forall k, is_Some (m_instances (us_rec st) !! k) -> made_before ids k \/ exists j, (j < us_count st)%nat /\ k = pretty j;
  v_rc : forall k q, m_rig_cameras (us_rec st) !! k = Some q ->
    (is_Some (m_cameras r !! k) /\ q = pose0) \/ exists side, side ∈ sides /\ side.1 = k /\ q = side_pose side.2;
  v_cam : forall k c', m_cameras (us_rec st) !! k = Some c' ->
    (exists c, m_cameras r !! k = Some c /\ flat (cam_type c) /\ c' = flat_camera c) \/ (k = pano_camera_id /\ c' = pano_camera width);
  v_only : forall k x, m_shots (us_rec st) !! k = Some x -> k.1 = false /\ made_before ids k.2;
  v_shots : forall id s c, id ∈ ids -> kept r images id s c -> placed (us_rec st) id s c;
  v_none : tracks = None -> us_tracks st = tm_empty;
  v_cons : consistent (us_tracks st);
  v_seen : forall n t, is_Some (observed (us_tracks st) n t) -> made_before ids n;
  v_tracks : forall tr id s c, tracks = Some tr -> id ∈ ids -> kept r images id s c -> tracked tr (us_tracks st) id c;
  v_list : forall id subs, (id, subs) ∈ us_shots st <-> exists s c, id ∈ ids /\ kept r images id s c /\ subs = outputs fmt id (cam_type c);
  v_nodup : NoDup (us_shots st).*1;
  v_lms : m_landmarks (us_rec st) = L0; v_ref : m_reference (us_rec st) = R0 }.

Lemma kept_fun id s c s' c' : kept r images id s c -> kept r images id s' c' -> s' = s /\ c' = c.
Proof. intros (H1 & _ & H2 & _) (H1' & _ & H2' & _). assert (s' = s) as -> by congruence. split; congruence. Qed.
Lemma clash_elem id s c id' s' c' n : kept r images id s c -> kept r images id' s' c' -> n ∈ outputs fmt id (cam_type c) -> n ∈ outputs fmt id' (cam_type c') -> id = id'.
Proof.
  intros K K' [i H]%elem_of_list_lookup [j H']%elem_of_list_lookup. refine (proj1 (NC _ _ _ _ _ _ i j K K' _ _)); [by rewrite H, H'|]. rewrite H. by eexists.
Qed.
Lemma fresh_name ids id s c n : id ∉ ids -> kept r images id s c -> n ∈ outputs fmt id (cam_type c) -> ~ made_before ids n.
Proof. intros Hid K Hn (id' & s' & c' & Hi & K' & Hn'). apply Hid. by rewrite (clash_elem _ _ _ _ _ _ _ K K' Hn Hn'). Qed.
Lemma outputs_nodup id s c : kept r images id s c -> NoDup (outputs fmt id (cam_type c)).
Proof.
  intros K. apply NoDup_alt. intros i j n Hi Hj. refine (proj2 (NC _ _ _ _ _ _ i j K K _ _)); [by rewrite Hi, Hj|]. rewrite Hi. by eexists.
Qed.
Lemma outputs_ext id t n : n ∈ outputs fmt id t -> exists x, n = add_image_format_extension x fmt.
Proof.
  unfold outputs. destruct (decide _); [intros ->%elem_of_list_singleton; by eexists|]. destruct (decide _); [|intros H; by apply elem_of_nil in H].
  intros (side & -> & _)%elem_of_list_fmap. by eexists.
Qed.
Lemma kept_pose id s c : kept r images id s c -> exists p, get_pose r (false, id) = Some p /\ valid p.
Proof.
  intros (Hs & _ & _ & _). destruct WF as [HD [HV1 HV2] _]. destruct (nd_shot _ HD _ _ Hs) as (_ & [rc Hrc] & i & Hi & _).
  unfold get_pose. rewrite Hs. simpl. rewrite Hi. simpl. rewrite Hrc. simpl. eexists. split; [done|]. unfold shot_get_pose.
  destruct (_ && _); [by eapply HV2|]. apply valid_compose; [by eapply HV1|by eapply HV2].
Qed.
Lemma made_before_snoc ids id n : made_before ids n -> made_before (ids ++ [id]) n.
Proof. intros (x & s & c & Hx & H). exists x, s, c. split; [apply elem_of_app; by left|done]. Qed.
(** A shot that is not kept changes nothing *)
Lemma inv_skip ids st id : (forall s c, ~ kept r images id s c) -> inv ids st -> inv (ids ++ [id]) st.
Proof.
  intros Hk [H1 H2 H3 H4 H5 H6 H7 H8 H9 H10 H11 H12 H13].
  assert (forall x s c, x ∈ ids ++ [id] -> kept r images x s c -> x ∈ ids) as Hx.
  { intros x s c [?| ->%elem_of_list_singleton]%elem_of_app K; [done|]. by destruct (Hk _ _ K). }
  split; try done.
  - intros k Hk'. destruct (H1 k Hk'); [left; by apply made_before_snoc|by right].
  - intros k x Hx'. destruct (H4 k x Hx'). split; [done|]. by apply made_before_snoc.
  - eauto.
  - intros n t Hn. apply made_before_snoc. by eapply H8.
  - eauto.
  - intros x subs. rewrite H10. split; intros (s & c & Hi & K & E); exists s, c; (split; [|done]); [apply elem_of_app; by left|by eapply Hx].
Qed.

Lemma fold_tracks (tr : utm) id (F : utm -> string -> res utm) (G : string -> observation R -> option (observation R)) subs :
  (forall sub ut, sub ∈ subs -> F ut sub = Ok (add_subshot_tracks enumO tr ut id sub (G sub))) -> NoDup subs ->
  forall ut, consistent ut -> exists ut', foldR F subs ut = Ok ut' /\ consistent ut' /\
  (forall n t, n ∉ subs -> observed ut' n t = observed ut n t) /\
  (forall n t, n ∈ subs -> observed ut n t = None -> observed ut' n t = observed tr id t ≫= G n).
Proof.
  induction subs as [|sub subs IH]; intros HF Hn ut Hc.
  - exists ut. split; [done|]. split; [done|]. split; [done|]. intros n t H. by apply elem_of_nil in H.
  - apply NoDup_cons in Hn as [Hs Hn]. cbn [foldR]. rewrite HF by left. cbn [res_bind].
    destruct (subshot_tracks_spec tr ut id sub (G sub) Hc) as [Hc1 H1].
    destruct (IH (fun s u H => HF s u (elem_of_list_further _ _ _ H)) Hn _ Hc1) as (ut' & E & Hc' & Hout & Hin). exists ut'. split; [done|]. split; [done|]. split.
    + intros n t [N1 N2]%not_elem_of_cons. rewrite Hout by done. by rewrite H1, decide_False.
    + intros n t [->|H]%elem_of_cons Ho.
      * rewrite Hout by done. rewrite H1, decide_True by done. destruct (_ ≫= _); done.
      * apply Hin; [done|]. rewrite H1, decide_False; [done|]. by intros ->.
Qed.
Lemma shot_of_read m n meta c q : shot_of m n meta c q -> read_shot m n = Ok (c, q).
Proof. intros (x & Hx & _ & _ & Hc & Hp). unfold read_shot. rewrite Hx. cbn. rewrite Hc. cbn. by rewrite Hp. Qed.
Lemma side_output id side : side ∈ sides -> side_name id side ∈ outputs fmt id SPHERICAL.
Proof. intros H. unfold outputs. rewrite decide_False by (simpl; tauto). rewrite decide_True by done. apply elem_of_list_fmap. by exists side. Qed.
Lemma output_side id n : n ∈ outputs fmt id SPHERICAL -> exists side, side ∈ sides /\ n = side_name id side.
Proof. unfold outputs. rewrite decide_False by (simpl; tauto). rewrite decide_True by done. intros (side & -> & H)%elem_of_list_fmap. by exists side. Qed.
Lemma output_flat id t : flat t -> outputs fmt id t = [add_image_format_extension id fmt].
Proof. intros H. unfold outputs. by rewrite decide_True. Qed.
Lemma is_panorama_type t : is_panorama (projection_string t) = bool_decide (t = SPHERICAL).
Proof. by destruct t. Qed.
Lemma all_tracks_spec m' id s c p ut : kept r images id s c -> get_pose r (false, id) = Some p -> placed m' id s c -> consistent ut ->
  (forall n t, n ∈ outputs fmt id (cam_type c) -> observed ut n t = None) ->
  exists ut', add_all_tracks enumO tracks m' ut c p id (outputs fmt id (cam_type c)) = Ok ut' /\ consistent ut' /\ (tracks = None -> ut' = ut) /\
  (forall n t, n ∉ outputs fmt id (cam_type c) -> observed ut' n t = observed ut n t) /\
  (forall tr, tracks = Some tr -> tracked tr ut' id c).
Proof.
  intros K Hp (p' & Hp' & _ & Hfl & Hsp) Hc Hno. assert (p' = p) as -> by congruence. clear Hp'.
  unfold add_all_tracks. destruct tracks as [tr|]; [|exists ut; split; [done|]; split; [done|]; split; [done|]; split; [done|]; intros ? [=]].
  rewrite is_panorama_type. pose proof (outputs_nodup _ _ _ K) as Hn. destruct K as (_ & _ & _ & Hsup).
  set (F := fun ut sub => _).
  set (G := fun sub => if decide (cam_type c = SPHERICAL) then match read_shot m' sub with Ok (vc, vp) => pano_observation c vc (w_rot p) (w_rot vp) | Err _ => fun _ => None end else Some).
  destruct (fold_tracks tr id F G (outputs fmt id (cam_type c))) with (ut := ut) as (ut' & E & Hc' & Hout & Hin); try done.
  { intros sub u Hsub. unfold F, G. destruct (decide (cam_type c = SPHERICAL)) as [Et|Et].
    - rewrite bool_decide_eq_true_2 by done. rewrite Et in Hsub. apply output_side in Hsub as (side & Hside & ->).
      by rewrite (shot_of_read _ _ _ _ _ (Hsp Et side Hside)).
    - by rewrite bool_decide_eq_false_2. }
  exists ut'. split; [done|]. split; [done|]. split; [done|]. split; [done|].
  intros tr' [= <-]. exists p. split; [done|]. intros t. split.
  - intros Hf. rewrite Hin; [|rewrite output_flat by done; by left|apply Hno; rewrite output_flat by done; by left].
    unfold G. rewrite decide_False; [by destruct (observed tr id t)|]. intros Et. by rewrite Et in Hf.
  - intros Et side Hside. assert (side_name id side ∈ outputs fmt id (cam_type c)) as Hel by (rewrite Et; by apply side_output).
    rewrite Hin by auto. unfold G. rewrite decide_True by done. by rewrite (shot_of_read _ _ _ _ _ (Hsp Et side Hside)).
Qed.
Lemma inv_add ids st id s c m' count' p : kept r images id s c -> id ∉ ids -> get_pose r (false, id) = Some p -> inv ids st -> ext (us_rec st) m' -> (us_count st <= count')%nat ->
  (forall k, is_Some (m_instances m' !! k) -> is_Some (m_instances (us_rec st) !! k) \/ k ∈ outputs fmt id (cam_type c) \/ (k = pretty (us_count st) /\ (us_count st < count')%nat)) ->
  (forall k q, m_rig_cameras m' !! k = Some q -> m_rig_cameras (us_rec st) !! k = Some q \/ (is_Some (m_cameras r !! k) /\ q = pose0) \/ exists side, side ∈ sides /\ side.1 = k /\ q = side_pose side.2) ->
  (forall k c', m_cameras m' !! k = Some c' -> m_cameras (us_rec st) !! k = Some c' \/ (exists c, m_cameras r !! k = Some c /\ flat (cam_type c) /\ c' = flat_camera c) \/ (k = pano_camera_id /\ c' = pano_camera width)) ->
  (forall k x, m_shots m' !! k = Some x -> m_shots (us_rec st) !! k = Some x \/ (k.1 = false /\ k.2 ∈ outputs fmt id (cam_type c))) ->
  placed m' id s c ->
  exists ut', add_all_tracks enumO tracks m' (us_tracks st) c p id (outputs fmt id (cam_type c)) = Ok ut' /\
    inv (ids ++ [id]) (UState m' ut' count' (us_shots st ++ [(id, outputs fmt id (cam_type c))])).
Proof.
  intros K Hid Hp [H1 H2 H3 H4 H5 H6 H7 H8 H9 H10 H11 H12 H13] Hext Hcount Hi Hr Hc Hs Hpl.
  assert (Hnew : forall n t, n ∈ outputs fmt id (cam_type c) -> observed (us_tracks st) n t = None).
  { intros n t Hn. destruct (observed _ n t) eqn:E; [|done]. exfalso. eapply (fresh_name ids id s c n); try done. eapply H8. by rewrite E. }
  destruct (all_tracks_spec m' id s c p (us_tracks st) K Hp Hpl H7 Hnew) as (ut' & E & Hcons & Hnone & Hout & Htr). exists ut'. split; [done|].
  assert (Hmb : forall n, n ∈ outputs fmt id (cam_type c) -> made_before (ids ++ [id]) n).
  { intros n Hn. exists id, s, c. split; [apply elem_of_app; right; by left|done]. }
  split; cbn [us_rec us_tracks us_count us_shots]; try done.
  - intros k Hk. destruct (Hi k Hk) as [Hk'|[Hk'|[-> Hlt]]].
    + destruct (H1 k Hk') as [?|(j & Hj & ->)]; [left; by apply made_before_snoc|]. right. exists j. split; [lia|done].
    + left. by apply Hmb.
    + right. by exists (us_count st).
  - intros k q Hq. destruct (Hr k q Hq) as [?|?]; [by apply H2|done].
  - intros k c' Hq. destruct (Hc k c' Hq) as [?|?]; [by apply H3|done].
  - intros k x Hx. destruct (Hs k x Hx) as [Hx'|[? ?]]; [|split; [done|by apply Hmb]]. destruct (H4 k x Hx'). split; [done|by apply made_before_snoc].
  - intros id' s' c' [Hi'| ->%elem_of_list_singleton]%elem_of_app K'.
    + destruct (H5 id' s' c' Hi' K') as (q & Hq & Hv & Hf & Hsp). exists q. split; [done|]. split; [done|]. split.
      * intros Hfl. eapply shot_of_ext; [done|]. by apply Hf.
      * intros Het side Hside. eapply shot_of_ext; [done|]. by apply Hsp.
    + destruct (kept_fun _ _ _ _ _ K K') as [-> ->]. done.
  - intros Hn. rewrite (Hnone Hn). by apply H6.
  - intros n t Hn. destruct (decide (n ∈ outputs fmt id (cam_type c))) as [Hel|Hel]; [by apply Hmb|]. rewrite Hout in Hn by done. apply made_before_snoc. by eapply H8.
  - intros tr id' s' c' Ht [Hi'| ->%elem_of_list_singleton]%elem_of_app K'.
    + destruct (H9 tr id' s' c' Ht Hi' K') as (q & Hq & Hf). exists q. split; [done|]. intros t.
      assert (forall n, n ∈ outputs fmt id' (cam_type c') -> n ∉ outputs fmt id (cam_type c)) as Hdis.
      { intros n Hn Hn'. apply Hid. by rewrite (clash_elem _ _ _ _ _ _ _ K K' Hn' Hn). }
      split.
      * intros Hfl. rewrite Hout; [by apply Hf|]. apply Hdis. rewrite output_flat by done. by left.
      * intros Het side Hside. rewrite Hout; [by apply Hf|]. apply Hdis. rewrite Het. by apply side_output.
    + destruct (kept_fun _ _ _ _ _ K K') as [-> ->]. by apply Htr.
  - intros id' subs. rewrite elem_of_app, elem_of_list_singleton, H10. split.
    + intros [(s' & c' & Hi' & K' & Es)|[= -> ->]].
      * exists s', c'. split; [apply elem_of_app; by left|done].
      * exists s, c. split; [apply elem_of_app; right; by left|done].
    + intros (s' & c' & [Hi'| ->%elem_of_list_singleton]%elem_of_app & K' & ->).
      * left. by exists s', c'.
      * right. by destruct (kept_fun _ _ _ _ _ K K') as [-> ->].
  - rewrite fmap_app. apply NoDup_app. split; [done|]. split; [|apply NoDup_singleton].
    intros x Hx ->%elem_of_list_singleton. apply elem_of_list_fmap in Hx as ([y subs] & Ey & Hy). cbn in Ey. subst y. apply H10 in Hy as (? & ? & Hy & _). done.
  - by rewrite (ext_lms _ _ Hext).
  - by rewrite (ext_ref _ _ Hext).
Qed.

Lemma flat_step ids st id s c p : kept r images id s c -> flat (cam_type c) -> id ∉ ids -> get_pose r (false, id) = Some p -> inv ids st ->
  let n := add_image_format_extension id fmt in
  exists m', get_shot_with_different_camera (rec_add_camera (us_rec st) (flat_camera c)) id (cam_id c) p (sd_metadata (sh_data s)) fmt = Ok (m', n) /\
  exists ut', add_all_tracks enumO tracks m' (us_tracks st) c p id [n] = Ok ut' /\ inv (ids ++ [id]) (UState m' ut' (us_count st) (us_shots st ++ [(id, [n])])).
Proof.
  intros K Hf Hid Hp HI n. pose proof HI as [H1 H2 H3 H4 _ _ _ _ _ _ _ _ _]. destruct (kept_pose _ _ _ K) as (p' & Hp' & Hv). assert (p' = p) as -> by congruence. clear Hp'.
  pose proof K as (Hs & Him & Hc & Hsup).
  destruct (wf_cameras _ WF _ _ Hc) as (Hcid & Hmade & Hnames).
  apply not_elem_of_cons in Hnames as [Hnp Hns].
  assert (Hcam : forall x, m_cameras (us_rec st) !! cam_id c = Some x -> x = flat_camera c).
  { intros x Hx. rewrite Hcid in Hx. destruct (H3 _ _ Hx) as [(c0 & Hc0 & _ & ->)|[E _]]; [congruence|]. by destruct Hnp. }
  set (m1 := rec_add_camera (us_rec st) (flat_camera c)).
  assert (exists bias, m1 = Map (<[cam_id c := flat_camera c]> (m_cameras (us_rec st))) bias (m_rig_cameras (us_rec st)) (m_instances (us_rec st)) (m_shots (us_rec st)) (m_landmarks (us_rec st)) (m_reference (us_rec st))) as [bias Em1].
  { unfold m1, rec_add_camera. change (cam_id (flat_camera c)) with (cam_id c). destruct (m_cameras (us_rec st) !! cam_id c) as [x|] eqn:E.
    - exists (m_bias (us_rec st)). rewrite (Hcam x eq_refl) in E. rewrite insert_id by done. by destruct (us_rec st).
    - unfold create_camera. eexists. f_equal. unfold emplace. by rewrite E. }
  rewrite Em1. clear m1 Em1.
  assert (Hmb : ~ made_before ids n). { eapply fresh_name; [done|done|]. rewrite output_flat by done. by left. }
  assert (Hfi : m_instances (us_rec st) !! n = None).
  { destruct (m_instances _ !! n) eqn:E; [|done]. exfalso. destruct (H1 n) as [?|(j & _ & Ej)]; [by rewrite E|done|]. symmetry in Ej. by apply pretty_not_named in Ej. }
  assert (Hfs : m_shots (us_rec st) !! (false, n) = None).
  { destruct (m_shots (us_rec st) !! _) eqn:E; [|done]. exfalso. by destruct (H4 _ _ E) as [_ ?]. }
  assert (Hrc : forall q, m_rig_cameras (us_rec st) !! cam_id c = Some q -> q = pose0).
  { intros q Hq. destruct (H2 _ _ Hq) as [[_ ?]|(side & Hside & Ek & _)]; [done|]. exfalso. apply Hns. rewrite <- Hcid, <- Ek. by apply elem_of_list_fmap_1. }
  rewrite (get_shot_ok _ id (cam_id c) p (sd_metadata (sh_data s)) fmt (flat_camera c)); cbn [m_cameras m_bias m_rig_cameras m_instances m_shots m_landmarks m_reference]; try done; [|by rewrite lookup_insert].
  fold n. eexists. split; [reflexivity|]. assert ([n] = outputs fmt id (cam_type c)) as -> by (by rewrite output_flat).
  apply (inv_add ids st id s c _ _ p); try done; cbn [m_cameras m_bias m_rig_cameras m_instances m_shots m_landmarks m_reference].
  - split; cbn [m_cameras m_bias m_rig_cameras m_instances m_shots m_landmarks m_reference]; try done; apply insert_grows; try done; congruence.
  - intros k [x Hx]. apply lookup_insert_Some in Hx as [[<- _]|[_ ?]]; [|left; by eexists]. right. left. rewrite output_flat by done. by left.
  - intros k q. rewrite lookup_insert_Some. intros [[<- <-]|[_ ?]]; [|by left]. right. left. split; [|done]. rewrite Hcid. by eexists.
  - intros k x. rewrite lookup_insert_Some. intros [[<- <-]|[_ ?]]; [|by left]. right. left. exists c. by rewrite Hcid.
  - intros k x. rewrite lookup_insert_Some. intros [[<- <-]|[_ ?]]; [|by left]. right. split; [done|]. rewrite output_flat by done. by left.
  - exists p. split; [done|]. split; [done|]. split; [|intros Et; by rewrite Et in Hf]. intros _. fold n.
    eexists. split; [cbn; by rewrite lookup_insert|]. cbn. split; [done|]. split; [done|]. split; [by rewrite lookup_insert|].
    unfold get_pose. cbn. rewrite lookup_insert. cbn. rewrite lookup_insert. cbn. rewrite lookup_insert. cbn. rewrite map_size_singleton. f_equal.
    unfold shot_get_pose. rewrite is_identity_0. done.
Qed.
Lemma pano_step ids st id s c p : kept r images id s c -> cam_type c = SPHERICAL -> id ∉ ids -> get_pose r (false, id) = Some p -> inv ids st ->
  exists m', perspective_views_of_a_panorama (us_rec st) id p (sd_metadata (sh_data s)) width fmt (us_count st) = Ok (m', outputs fmt id SPHERICAL) /\
  exists ut', add_all_tracks enumO tracks m' (us_tracks st) c p id (outputs fmt id SPHERICAL) = Ok ut' /\
    inv (ids ++ [id]) (UState m' ut' (S (us_count st)) (us_shots st ++ [(id, outputs fmt id SPHERICAL)])).
Proof.
  intros K Et Hid Hp HI. pose proof HI as [H1 H2 H3 H4 _ _ _ _ _ _ _ _ _]. destruct (kept_pose _ _ _ K) as (p' & Hp' & Hv). assert (p' = p) as -> by congruence. clear Hp'.
  pose proof (outputs_nodup _ _ _ K) as Hnd. rewrite Et in Hnd.
  assert (Hmb : forall n, n ∈ outputs fmt id SPHERICAL -> ~ made_before ids n). { intros n Hn. eapply fresh_name; [done|done|]. by rewrite Et. }
  assert (Hfs : forall n, n ∈ outputs fmt id SPHERICAL -> m_shots (us_rec st) !! (false, n) = None).
  { intros n Hn. destruct (m_shots (us_rec st) !! _) eqn:E; [|done]. exfalso. destruct (H4 _ _ E) as [_ ?]. by eapply Hmb. }
  assert (Hfi : m_instances (us_rec st) !! (pretty (us_count st) : string) = None).
  { destruct (m_instances _ !! _) eqn:E; [|done]. exfalso. destruct (H1 (pretty (us_count st))) as [(x & s' & c' & _ & _ & Hx)|(j & Hj & Ej)]; [by rewrite E| |].
    - apply outputs_ext in Hx as [y Hy]. by apply pretty_not_named in Hy.
    - apply (inj pretty) in Ej. lia. }
  assert (Hcam : forall x, m_cameras (us_rec st) !! pano_camera_id = Some x -> x = pano_camera width).
  { intros x Hx. destruct (H3 _ _ Hx) as [(c0 & Hc0 & _)|[_ ?]]; [|done]. exfalso. destruct (wf_cameras _ WF _ _ Hc0) as (_ & _ & Hn). apply Hn. by left. }
  assert (Hrc : forall side q, side ∈ sides -> m_rig_cameras (us_rec st) !! side.1 = Some q -> q = side_pose side.2).
  { intros side q Hside Hq. destruct (H2 _ _ Hq) as [[[c0 Hc0] _]|(side' & Hside' & Ek & ->)].
    - exfalso. destruct (wf_cameras _ WF _ _ Hc0) as (_ & _ & Hn). apply Hn. right. by apply elem_of_list_fmap_1.
    - f_equal. destruct sides_names as [Hnn _]. apply elem_of_list_lookup in Hside as [i Hi], Hside' as [j Hj].
      assert (i = j) as ->; [|congruence]. eapply (NoDup_lookup _ i j _ Hnn); rewrite list_lookup_fmap; [by rewrite Hi|]. by rewrite Hj, <- Ek. }
  assert (Hvn : NoDup (views.*1)) by (rewrite views_sides, <- list_fmap_compose; apply sides_names).
  destruct (pano_ok (us_rec st) id p (sd_metadata (sh_data s)) width fmt (us_count st)) as [bias E]; try done.
  rewrite E. eexists. split; [reflexivity|]. rewrite <- Et.
  assert (Hkeys : NoDup ((fun v => (false, view_name id fmt v)) <$> views)).
  { rewrite <- view_names in Hnd. change (NoDup ((pair false ∘ view_name id fmt) <$> views)). rewrite list_fmap_compose. apply NoDup_fmap_2; [by intros ? ? [=]|done]. }
  apply (inv_add ids st id s c _ _ p); try done; cbn [m_cameras m_bias m_rig_cameras m_instances m_shots m_landmarks m_reference].
  - split; cbn [m_cameras m_bias m_rig_cameras m_instances m_shots m_landmarks m_reference]; try done.
    + by apply insert_grows.
    + apply inserts_grows; [done|]. intros v x (side & Hside & ->)%view_elem. by apply Hrc.
    + apply insert_grows. congruence.
    + apply inserts_grows; [done|]. intros v x Hv'. rewrite Hfs; [done|]. rewrite <- view_names. by apply elem_of_list_fmap_1.
  - lia.
  - intros k [x Hx]. apply lookup_insert_Some in Hx as [[<- _]|[_ ?]]; [|left; by eexists]. right. right. split; [done|lia].
  - intros k q [(v & (side & Hside & ->)%view_elem & <- & <-)|[? _]]%inserts_Some; [|by left]. right. right. by exists side.
  - intros k x. rewrite lookup_insert_Some. intros [[<- <-]|[_ ?]]; [|by left]. right. by right.
  - intros k x [(v & Hv' & <- & <-)|[? _]]%inserts_Some; [|by left]. right. split; [done|]. rewrite Et, <- view_names. by apply (elem_of_list_fmap_1 (view_name id fmt)).
  - exists p. split; [done|]. split; [done|]. split; [rewrite Et; by intros []|]. intros _ side Hside.
    assert (Hvi : (side.1, rows side.2) ∈ views) by (apply view_elem; by exists side).
    assert (Hsn : side_name id side = view_name id fmt (side.1, rows side.2)) by done. rewrite Hsn.
    exists (view_shot (pretty (us_count st)) (sd_metadata (sh_data s)) (side.1, rows side.2)).
    cbn [m_cameras m_bias m_rig_cameras m_instances m_shots m_landmarks m_reference].
    assert (Hlk : inserts (fun v => (false, view_name id fmt v)) (view_shot (pretty (us_count st)) (sd_metadata (sh_data s))) (m_shots (us_rec st)) views
        !! (false, view_name id fmt (side.1, rows side.2)) = Some (view_shot (pretty (us_count st)) (sd_metadata (sh_data s)) (side.1, rows side.2))).
    { apply (inserts_in (fun v => (false, view_name id fmt v)) _ _ _ _ Hkeys Hvi). }
    split; [done|]. split; [done|]. split; [done|]. split; [cbn; by rewrite lookup_insert|].
    unfold get_pose. cbn [m_cameras m_bias m_rig_cameras m_instances m_shots]. rewrite Hlk. cbn [mbind option_bind view_shot sh_instance sh_rig_camera]. rewrite lookup_insert. cbn [mbind option_bind fst].
    assert (Hrl : inserts fst (fun v => set_rotation_matrix pose0 v.2) (m_rig_cameras (us_rec st)) views !! side.1 = Some (side_pose side.2)).
    { apply (inserts_in fst (fun v => set_rotation_matrix pose0 v.2) _ _ (side.1, rows side.2) Hvn Hvi). }
    rewrite Hrl. cbn [mbind option_bind in_pose in_members]. f_equal. unfold shot_get_pose. rewrite andb_comm. 
    assert (size (inserts (view_name id fmt) (fun v => (false, v.1)) ∅ views) = 6%nat) as ->; [|done].
    rewrite <- view_names in Hnd. clear - Hnd.
    assert (forall l (m : gmap string (bool * string)), NoDup (view_name id fmt <$> l) -> (forall v, v ∈ l -> m !! view_name id fmt v = None) ->
       size (inserts (view_name id fmt) (fun v => (false, v.1)) m l) = (size m + length l)%nat) as H.
    { intros l. induction l as [|v l IH]; intros m Hn Hm; [unfold inserts; simpl; lia|]. simpl in Hn. apply NoDup_cons in Hn as [Hv Hn].
      change (size (inserts (view_name id fmt) (fun v => (false, v.1)) (<[view_name id fmt v := (false, v.1)]> m) l) = (size m + length (v :: l))%nat).
      rewrite IH; [rewrite map_size_insert_None by (apply Hm; left); simpl; lia|done|]. intros w Hw. rewrite lookup_insert_ne; [apply Hm; by right|].
      intros E. apply Hv. rewrite E. by apply elem_of_list_fmap_1. }
    rewrite H; [by rewrite map_size_empty|done|]. intros. apply lookup_empty.
Qed.
Lemma step_ok ids st id s : id ∉ ids -> m_shots r !! (false, id) = Some s -> inv ids st ->
  exists st', undistort_shot enumO tracks r (list_to_set images) fmt width st ((false, id), s) = Ok st' /\ inv (ids ++ [id]) st'.
Proof.
  intros Hid Hs HI. unfold undistort_shot.
  destruct (decide (id ∉ _)) as [N|N].
  { exists st. split; [done|]. apply inv_skip; [|done]. intros s' c' (_ & Hi & _). apply N. by apply elem_of_list_to_set. }
  assert (id ∈ images) as Him. { destruct (decide (id ∈ images)); [done|]. exfalso. apply N. by rewrite elem_of_list_to_set. }
  destruct (nd_shot _ (wf_refs _ WF) _ _ Hs) as ([c Hc] & [rc Hrc] & i & Hi & _). rewrite Hc. cbn [of_option res_bind].
  assert (exists p, get_pose r (false, id) = Some p) as [p Hp]. { unfold get_pose. rewrite Hs. cbn. rewrite Hi. cbn. rewrite Hrc. cbn. by eexists. }
  rewrite Hp. cbn [of_option res_bind]. destruct (wf_cameras _ WF _ _ Hc) as (_ & Hmade & _).
  assert (flat (cam_type c) -> exists st', (try next := try c' := Ok (flat_camera c) in (try (m, sub) := get_shot_with_different_camera (rec_add_camera (us_rec st) c') id (cam_id c) p (sd_metadata (sh_data s)) fmt in Ok (Some (m, us_count st, [sub]))) in
      match next with None => Ok st | Some (m, count, subs) => try ut := add_all_tracks enumO tracks m (us_tracks st) c p id subs in Ok (UState m ut count (us_shots st ++ [(id, subs)])) end) = Ok st' /\ inv (ids ++ [id]) st') as Hflat.
  { intros Hf. assert (kept r images id s c) as K by (split; [done|]; split; [done|]; split; [done|by left]).
    destruct (flat_step ids st id s c p K Hf Hid Hp HI) as (m' & E & ut' & E' & HI'). cbn [res_bind]. rewrite E. cbn [res_bind]. rewrite E'. cbn [res_bind]. by eexists. }
  assert (~ supported (cam_type c) -> inv (ids ++ [id]) st) as Hskip.
  { intros N'. apply inv_skip; [|done]. intros s' c' (Hs' & _ & Hc' & Hsup). apply N'. assert (s' = s) as -> by congruence. by assert (c' = c) as -> by congruence. }
  pose proof (flat_makes c Hmade) as HM. destruct (cam_type c) eqn:Et; cbn [flat] in *.
  all: try (rewrite (proj1 (HM I)); exact (Hflat I)).
  all: try (exists st; split; [reflexivity|]; apply Hskip; intros [[]|?]; done).
  assert (kept r images id s c) as K by (split; [done|]; split; [done|]; split; [done|by right]).
  destruct (pano_step ids st id s c p K Et Hid Hp HI) as (m' & E & ut' & E' & HI').
  change (is_panorama (projection_string SPHERICAL)) with true. cbn iota. rewrite E. cbn [res_bind]. rewrite E'. cbn [res_bind]. by eexists.
Qed.
Lemma loop_ok l : (forall e, e ∈ l -> e.1.1 = false /\ m_shots r !! e.1 = Some e.2) -> NoDup (l.*1).*2 -> forall ids st,
  (forall id, id ∈ (l.*1).*2 -> id ∉ ids) -> inv ids st ->
  exists st', foldR (undistort_shot enumO tracks r (list_to_set images) fmt width) l st = Ok st' /\ inv (ids ++ (l.*1).*2) st'.
Proof.
  induction l as [|[[b id] s] l IH]; intros Hl Hn ids st Hd HI; [exists st; split; [done|]; by rewrite app_nil_r|].
  cbn in Hn. apply NoDup_cons in Hn as [Hid Hn]. destruct (Hl _ (elem_of_list_here _ _)) as [Hb Hs]. cbn in Hb, Hs. subst b.
  destruct (step_ok ids st id s) as (st1 & E & HI1); [apply Hd; by left|done|done|]. cbn [foldR]. rewrite E. cbn [res_bind].
  destruct (IH (fun e H => Hl e (elem_of_list_further _ _ _ H)) Hn (ids ++ [id]) st1) as (st' & E' & HI').
  - intros x Hx [Hx'|Hx'%elem_of_list_singleton]%elem_of_app; [by eapply Hd; [right|]|]. subst x. done.
  - done.
  - exists st'. split; [done|]. by rewrite <- app_assoc in HI'.
Qed.
End Loop.

(** * Points *)
Lemma copy_points_ok l : NoDup l.*1 -> forall m : urec, (forall id, id ∈ l.*1 -> m_landmarks m !! id = None) ->
  copy_points m l = Ok (set_landmarks m (foldl (fun acc e => <[e.1 := Landmark (lm_pos e.2) (lm_color e.2) ∅]> acc) (m_landmarks m) l)).
Proof.
  induction l as [|[id x] l IH]; intros Hn m Hm; [by destruct m|]. cbn in Hn. apply NoDup_cons in Hn as [Hid Hn].
  unfold copy_points. cbn [foldR]. unfold create_landmark. rewrite Hm by left. cbn [res_bind]. unfold set_landmark, set_landmarks. cbn [m_landmarks m_cameras m_bias m_rig_cameras m_instances m_shots m_reference].
  rewrite lookup_insert. cbn [res_bind lm_obs]. rewrite insert_insert. fold (copy_points). etransitivity; [apply IH; [done|]|done].
  intros id' Hid'. cbn. rewrite lookup_insert_ne; [apply Hm; by right|]. by intros ->.
Qed.
Lemma copied_points enumL (L : gmap string (landmark vec)) : enumerates enumL ->
  foldl (fun acc e => <[e.1 := Landmark (lm_pos e.2) (lm_color e.2) ∅]> acc) ∅ (enumL L) = (fun l => Landmark (lm_pos l) (lm_color l) ∅) <$> L.
Proof.
  intros HE. assert (Hp := HE L). assert (NoDup (enumL L).*1) as Hn by (rewrite Hp; apply NoDup_fst_map_to_list).
  change (inserts fst (fun e : string * landmark vec => Landmark (lm_pos e.2) (lm_color e.2) ∅) ∅ (enumL L) = (fun l => Landmark (lm_pos l) (lm_color l) ∅) <$> L).
  apply map_eq. intros k. rewrite lookup_fmap. destruct (L !! k) as [l|] eqn:E.
  - simpl. apply (inserts_in fst (fun e : string * landmark vec => Landmark (lm_pos e.2) (lm_color e.2) ∅) ∅ _ (k, l)); [done|]. rewrite Hp. by apply elem_of_map_to_list.
  - simpl. rewrite inserts_out; [apply lookup_empty|]. intros ([k' l] & Ek & Hel)%elem_of_list_fmap. cbn in Ek. subst k'. rewrite Hp in Hel. apply elem_of_map_to_list in Hel. congruence.
Qed.
Theorem undistort_ok enumS enumL enumO tracks (r : urec) images fmt width : enumerates enumS -> enumerates enumL -> enumerates enumO ->
  well_formed r -> no_clash r images fmt ->
  exists st ids, undistort_reconstruction enumS enumL enumO tracks r images fmt width = Ok st /\
    (forall id s, m_shots r !! (false, id) = Some s -> id ∈ ids) /\
    inv tracks r images fmt width ((fun l => Landmark (lm_pos l) (lm_color l) ∅) <$> m_landmarks r) (Some (default (0, 0, 0) (m_reference r))) ids st.
Proof.
  intros HS HL HO WF NC. unfold undistort_reconstruction.
  rewrite copy_points_ok; [|rewrite (HL _); apply NoDup_fst_map_to_list|intros; apply lookup_empty]. cbn [res_bind m_landmarks map_empty]. rewrite copied_points by done.
  set (l := List.filter _ _). 
  assert (Hmem : forall e, e ∈ l -> e.1.1 = false /\ m_shots r !! e.1 = Some e.2).
  { intros e He. unfold l in He. apply elem_of_list_In, filter_In in He as [He Hb]. split; [by destruct (e.1.1)|]. 
    apply elem_of_list_In in He. rewrite (HS _) in He. destruct e. by apply elem_of_map_to_list in He. }
  assert (Hnd : NoDup (l.*1).*2).
  { assert (NoDup (enumS (m_shots r)).*1) as H by (rewrite (HS _); apply NoDup_fst_map_to_list). unfold l. clear - H.
    induction (enumS (m_shots r)) as [|[[b id] s] es IH]; [constructor|]. cbn in H. apply NoDup_cons in H as [H1 H2]. cbn. destruct b; cbn; [by apply IH|].
    apply NoDup_cons. split; [|by apply IH]. intros (k & Ek & (e & -> & He)%elem_of_list_fmap)%elem_of_list_fmap. apply elem_of_list_In, filter_In in He as [He Hb].
    apply H1. destruct e as [[b' id'] s']. cbn in Ek, Hb. subst id'. destruct b'; [done|]. apply elem_of_list_fmap. exists ((false, id), s'). split; [done|]. by apply elem_of_list_In. }
  match goal with |- context [foldR _ l ?st0] => destruct (loop_ok enumO HO tracks r images fmt width ((fun l => Landmark (lm_pos l) (lm_color l) ∅) <$> m_landmarks r) (Some (default (0, 0, 0) (m_reference r))) WF NC l Hmem Hnd [] st0) as (st & E & HI) end.
  - intros id _. apply not_elem_of_nil.
  - split; cbn.
    + intros k [x Hx]. by rewrite lookup_empty in Hx.
    + intros k q. by rewrite lookup_empty.
    + intros k q. by rewrite lookup_empty.
    + intros k q. by rewrite lookup_empty.
    + intros id s c Hid. by apply elem_of_nil in Hid.
    + done.
    + apply consistent_empty.
    + intros n t [o Ho]. by rewrite observed_empty in Ho.
    + intros tr id s c _ Hid. by apply elem_of_nil in Hid.
    + intros id subs. split; [intros H; by apply elem_of_nil in H|]. intros (s & c & H & _). by apply elem_of_nil in H.
    + constructor.
    + done.
    + done.
  - exists st, ((l.*1).*2). split; [done|]. split; [|done]. intros id s Hs. apply elem_of_list_fmap. exists (false, id). split; [done|].
    apply elem_of_list_fmap. exists ((false, id), s). split; [done|]. unfold l. apply elem_of_list_In, filter_In. split; [|done].
    apply elem_of_list_In. rewrite (HS _). by apply elem_of_map_to_list.
Qed.
