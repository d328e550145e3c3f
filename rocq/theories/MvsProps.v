(** C75: the OpenMVS and PMVS exports describe the same cameras, images and points. *)
From stdpp Require Import prelude gmap strings.
From Coq Require Import Reals Lra Psatz.
From Verif Require Import Base JsonModel CamModel ProjModel Lin RotModel TracksModel PoseModel PoseSpec PoseProofs CamSpec CamProofs CameraSpec CameraProofs CameraProps GcpProofs
  BundlerModel BundlerProofs MvsModel MvsSpec MvsProofs.
Local Open Scope R_scope.

Lemma filter_sub {A} (P : A -> Prop) `{forall x, Decision (P x)} (l : list A) : sublist (filter P l) l.
Proof. induction l as [|a l IH]; [constructor|]. rewrite filter_cons. destruct (decide (P a)); by constructor. Qed.
Lemma sub_NoDup {A} (l k : list A) : sublist l k -> NoDup k -> NoDup l.
Proof. intros H HN. induction H as [|x l k H IH|x l k H IH]; [done| |]; apply NoDup_cons in HN as [Hx HN]; [|by apply IH]. constructor; [|by apply IH]. intros Hi. apply Hx. eapply elem_of_submseteq; [exact Hi|by apply sublist_submseteq]. Qed.
Lemma sub_fmap {A B} (f : A -> B) (l k : list A) : sublist l k -> sublist (f <$> l) (f <$> k).
Proof. induction 1; cbn; by constructor. Qed.
Lemma about_origin p X : valid p -> mvec (w_rot p) (vsub X (get_origin p)) = transform p X.
Proof.
  intros (HR & _ & HV). unfold transform, get_origin. rewrite HV.
  transitivity (vadd (mvec (w_rot p) X) (mvec (mmul (w_rot p) (mT (w_rot p))) (w_tr p))).
  { rewrite mvec_mmul. generalize (mT (w_rot p)) (w_rot p) (w_tr p) X. vring. }
  rewrite rotation_r by done. by rewrite mvec_I.
Qed.
Section OpenMVS.
Variable enumO : gmap string obs -> list (string * obs).
Variable export_only : option (gset string).
Variables (isfile : string -> bool) (abspath : string -> string) (image_file mask_file : string -> string).
(** The shots that are written: those of the image list (all without a list) whose camera is perspective *)
Definition is_written (sh : string * (string * camera * pose)) : Prop :=
  (match export_only with None => True | Some l => sh.1 ∈ l end) /\ cam_type sh.2.1.2 = PERSPECTIVE.
Lemma written_spec shots sh : sh ∈ written export_only shots <-> sh ∈ shots /\ is_written sh.
Proof.
  unfold written. rewrite elem_of_list_filter. unfold is_written, exported. destruct export_only as [l|]; [rewrite bool_decide_eq_true|]; tauto.
Qed.
Notation export := (export_openmvs enumO export_only isfile abspath image_file mask_file).
(** A reconstruction: names are unique and the camera of every shot is one of the cameras *)
Definition consistent (cameras : list (string * camera)) (shots : list (string * (string * camera * pose))) : Prop :=
  NoDup (cameras.*1) /\ NoDup (shots.*1) /\ forall sh, sh ∈ shots -> (sh.2.1.1, sh.2.1.2) ∈ cameras.
Lemma export_spec cameras shots points tracks e : consistent cameras shots -> export cameras shots points tracks = Ok e ->
  exists e1, shots_inv export_only isfile abspath image_file mask_file cameras shots e1 /\ ex_platforms e = ex_platforms e1 /\ ex_images e = ex_images e1 /\
    (forall pt, pt ∈ points -> exists os, tm_track_obs tracks pt.1 = Ok os) /\
    ex_vertices e = omap (vertex_of enumO export_only (ex_image_ids e1) tracks) points.
Proof.
  intros (HN & HS & HC) H. unfold export_openmvs in H. destruct (foldE openmvs_camera cameras new_exporter) as [e0|] eqn:E0; [|done]. cbn [res_bind] in H.
  destruct (foldE _ shots e0) as [e1|] eqn:E1; [|done]. cbn [res_bind] in H.
  apply (cams_spec cameras []) in E0; [|done|]. 2:{ split; [constructor|]. split; [|done]. intros k n. cbn. rewrite lookup_empty, lookup_nil. split; done. }
  destruct E0 as (F1 & F2 & F3 & F4 & F5). cbn [app] in *.
  apply (shots_spec _ _ _ _ _ cameras shots []) in E1; [|done|done|done|].
  2:{ split; [eapply Forall2_impl; [exact F1|]; intros ic pl (K & H1 & ->); by exists K, []|]. split; [done|]. rewrite F4. split; [constructor|].
      split; [|done]. intros k n. rewrite F3. cbn. rewrite lookup_empty, lookup_nil. split; done. }
  cbn [app] in E1. apply points_spec in H as (P1 & P2 & P3 & P4 & P5). exists e1. split; [done|]. destruct E1 as (_ & _ & _ & _ & EV). rewrite EV in P5. done.
Qed.

(** One image per written shot, in order, with the file of its undistorted image; the camera and the pose it refers to see every point
    at the pixel where the reconstruction sees it (the cameras of an undistorted reconstruction have no distortion). *)
Theorem C75_openmvs_images cameras shots points tracks e : consistent cameras shots -> export cameras shots points tracks = Ok e ->
  exists listed, (forall sh, sh ∈ listed <-> sh ∈ shots /\ is_written sh) /\ sublist listed shots /\
  Forall2 (fun sh im => mi_name im = abspath (image_file sh.1) /\ exists pl Rm C, ex_platforms e !! mi_platform im = Some pl /\ pl_poses pl !! mi_pose im = Some (Rm, C) /\
    pl_name pl = sh.2.1.1 /\ pl_width pl = cam_width sh.2.1.2 /\ pl_height pl = cam_height sh.2.1.2 /\ (rotation (w_rot sh.2.2) -> rotation Rm) /\
    forall X, valid sh.2.2 -> made sh.2.1.2 -> undistorted sh.2.1.2 -> vz (transform sh.2.2 X) <> 0 ->
      vz (mvec Rm (vsub X C)) = vz (transform sh.2.2 X) /\
      exists q, Project sh.2.1.2 (transform sh.2.2 X) = Some q /\ openmvs_sees (pl_K pl) Rm C X = centre_pixel (cam_width sh.2.1.2) (cam_height sh.2.1.2) q)
    listed (ex_images e).
Proof.
  intros Hc H. destruct (export_spec _ _ _ _ _ Hc H) as (e1 & (HF & Hid & HI & Himg & _) & EP & EI & _). destruct Hc as (HN & HS & HC).
  exists (written export_only shots). split; [apply written_spec|]. split; [apply filter_sub|]. rewrite EI, EP.
  apply Forall2_same_length_lookup. split; [by eapply Forall2_length|]. intros i [id [[cid c] p]] im Hsh Him.
  destruct (Forall2_lookup_lr _ _ _ _ _ _ HI Hsh Him) as (n & pl & H1 & H2 & H3 & H4 & H5 & H6). cbn [fst snd] in *. split; [done|]. subst n.
  exists pl, (w_rot p), (get_origin p). split; [done|]. split; [done|].
  apply list_lookup_fmap_inv in H4 as ([cid' c'] & -> & H4). destruct (Forall2_lookup_lr _ _ _ _ _ _ HF H4 H5) as (K & poses & HK & ->). cbn [fst snd pl_name pl_width pl_height pl_K] in *.
  assert (c' = c) as ->.
  { apply elem_of_list_lookup_2, elem_of_list_filter in H4 as [_ H4]. apply elem_of_list_lookup_2, written_spec in Hsh as [Hsh _]. apply HC in Hsh. cbn in Hsh.
    apply elem_of_list_lookup in H4 as [a Ha], Hsh as [b Hb]. assert (a = b) as ->; [|by rewrite Ha in Hb; injection Hb].
    eapply NoDup_lookup; [exact HN| |]; rewrite list_lookup_fmap; [rewrite Ha|rewrite Hb]; done. }
  split; [done|]. split; [done|]. split; [done|]. split; [done|]. intros X HV Hm Hu Hz.
  assert (ET : mvec (w_rot p) (vsub X (get_origin p)) = transform p X).
  { by apply about_origin. }
  rewrite ET. split; [done|]. apply elem_of_list_lookup_2, written_spec in Hsh as [_ [_ Ht]]. cbn in Ht.
  destruct (C46_projection_matrix c (transform p X) Hm ltac:(by rewrite Ht) Hu Hz) as [Ez EPj]. rewrite EPj. eexists. split; [done|].
  unfold openmvs_sees. rewrite ET. unfold openmvs_K in HK. destruct (get_param c Focal) as [f|] eqn:Ef; [|done]. cbn in HK. injection HK as <-.
  unfold over_z, centre_pixel, GetProjectionMatrix, mvec. cbn [vx vy vz m11 m12 m13 m21 m22 m23 m31 m32 m33 fst snd].
  rewrite !(param_or_default c AspectRatio), !(param_or_default c Cx), !(param_or_default c Cy) by first [done|cbn; auto 10]. unfold param_or. rewrite Ef.
  assert (EM : Rmax (IZR (cam_width c)) (IZR (cam_height c)) = IZR (Z.max (cam_width c) (cam_height c))).
  { destruct (Z.max_spec (cam_width c) (cam_height c)) as [[Hl ->]|[Hl ->]]; [apply Rmax_right; left; by apply IZR_lt|apply Rmax_left; by apply IZR_le]. }
  rewrite EM. f_equal; field; lra.
Qed.

(** The vertices are the points observed by at least one image of the list, in order; the views of a vertex are the images that observe
    it, when all of those were written ... *)
Theorem C75_openmvs_points cameras shots points tracks e : enumerates enumO -> consistent cameras shots -> export cameras shots points tracks = Ok e ->
  exists kept, sublist kept points /\
  (forall pt, pt ∈ kept <-> pt ∈ points /\ exists os k, tm_track_obs tracks pt.1 = Ok os /\ is_Some (os !! k) /\ match export_only with None => True | Some l => k ∈ l end) /\
  Forall2 (fun pt ve => ve_X ve = pt.2.1 /\ forall os, tm_track_obs tracks pt.1 = Ok os ->
    length (ve_views ve) = length (filter (fun k => exported export_only k = true) ((map_to_list os).*1)) /\
    ((forall k, is_Some (os !! k) -> match export_only with None => True | Some l => k ∈ l end -> exists sh, sh ∈ shots /\ sh.1 = k /\ is_written sh) ->
     NoDup (ve_views ve) /\
     forall n, n ∈ ve_views ve <-> exists k, is_Some (os !! k) /\ match export_only with None => True | Some l => k ∈ l end /\
       (written export_only shots).*1 !! n = Some k)) kept (ex_vertices e).
Proof.
  intros HE Hc H. destruct (export_spec _ _ _ _ _ Hc H) as (e1 & (HF & Hid & HI & Himg & _) & EP & EI & HT & ->). destruct Hc as (HN & HS & HC).
  set (ids := ex_image_ids e1) in *.
  assert (Hsel : forall k, exported export_only k = true <-> match export_only with None => True | Some l => k ∈ l end).
  { intros k. unfold exported. destruct export_only; [by rewrite bool_decide_eq_true|done]. }
  assert (Hobs : forall os k, k ∈ filter (fun k => exported export_only k = true) ((enumO os).*1) <-> is_Some (os !! k) /\ exported export_only k = true).
  { intros os k. rewrite elem_of_list_filter, elem_of_list_fmap. split.
    - intros [H1 ([k' o] & -> & Ho)]. rewrite (HE os), elem_of_map_to_list in Ho. cbn. by rewrite Ho.
    - intros [[o Ho] H1]. split; [done|]. exists (k, o). split; [done|]. by rewrite (HE os), elem_of_map_to_list. }
  exists (filter (fun pt => is_Some (vertex_of enumO export_only ids tracks pt)) points). split; [apply filter_sub|]. split.
  - intros pt. rewrite elem_of_list_filter. unfold vertex_of. split.
    + intros [[v Hv] Hin]. split; [done|]. destruct (tm_track_obs tracks pt.1) as [os|]; [|done]. destruct (filter _ _) as [|k l] eqn:El; [done|].
      exists os, k. split; [done|]. rewrite <- Hsel. apply Hobs. rewrite El. by left.
    + intros [Hin (os & k & Ho & Hk)]. split; [|done]. rewrite Ho. rewrite <- Hsel in Hk. apply Hobs in Hk. destruct (filter _ _) as [|k' l] eqn:El; [by apply elem_of_nil in Hk|done].
  - clear H. induction points as [|pt points IH]; [constructor|]. rewrite filter_cons.
    specialize (IH ltac:(intros pt' H'; apply HT; by right)). cbn [omap list_omap]. destruct (vertex_of enumO export_only ids tracks pt) as [v|] eqn:Ev.
    2:{ rewrite decide_False by (intros [? ?]; done). apply IH. }
    rewrite decide_True by done. constructor; [|apply IH]. clear IH. unfold vertex_of in Ev.
    destruct (tm_track_obs tracks pt.1) as [os|] eqn:Eo; [|done]. destruct (filter _ (enumO os).*1) as [|k0 l0] eqn:El; [done|]. rewrite <- El in Ev. injection Ev as <-. cbn [ve_X ve_views].
    split; [done|]. intros os' [= <-]. split.
    { rewrite fmap_length. apply Permutation_length. by rewrite (HE os). }
    intros Hall.
    assert (Hlk : forall k, is_Some (os !! k) -> exported export_only k = true -> exists n, ids !! k = Some n /\ (written export_only shots).*1 !! n = Some k).
    { intros k Hk Hx. destruct (Hall k Hk ltac:(by apply Hsel)) as (sh & Hsh & <- & Hw). assert (Hin : sh.1 ∈ (written export_only shots).*1) by (apply elem_of_list_fmap_1, written_spec; done).
      apply elem_of_list_lookup in Hin as [n Hn]. exists n. split; [by apply Himg|done]. }
    assert (HNW : NoDup ((written export_only shots).*1)). { eapply sub_NoDup; [|exact HS]. apply sub_fmap, filter_sub. }
    split.
    + apply NoDup_fmap_2_strong.
      * intros k k' Hk Hk' E. apply Hobs in Hk as [Hk Hx], Hk' as [Hk' Hx']. destruct (Hlk k Hk Hx) as (n & E1 & E2), (Hlk k' Hk' Hx') as (n' & E1' & E2').
        unfold looked_up in E. rewrite E1, E1' in E. cbn in E. subst n'. rewrite E2 in E2'. by injection E2'.
      * apply NoDup_filter. assert (Hp : (enumO os).*1 ≡ₚ (map_to_list os).*1) by by rewrite (HE os). rewrite Hp. apply NoDup_fst_map_to_list.
    + intros n. rewrite elem_of_list_fmap. split.
      * intros (k & -> & Hk). apply Hobs in Hk as [Hk Hx]. destruct (Hlk k Hk Hx) as (n & E1 & E2). exists k. split; [done|]. split; [by apply Hsel|]. unfold looked_up. by rewrite E1.
      * intros (k & Hk & Hx & Hn). exists k. split; [|apply Hobs; split; [done|by apply Hsel]]. apply Himg in Hn. unfold looked_up. fold ids in Hn. by rewrite Hn.
Qed.
End OpenMVS.

(** ... but an observation by an image that was not written (not in the reconstruction, or with another kind of camera) becomes a view by
    the first image. *)
Theorem C75_openmvs_views_refuted : exists cameras shots points tracks e, consistent cameras shots /\
  export_openmvs map_to_list None (fun _ => false) (fun x => x) (fun x => x) (fun x => x) cameras shots points tracks = Ok e /\
  shots.*1 = ["a"] /\ (exists os, tm_track_obs tracks "p" = Ok os /\ os !! "a" = None) /\
  ve_views <$> ex_vertices e = [[0%nat]] /\ mi_name <$> ex_images e = ["a"].
Proof.
  set (tracks := @tm_add obs tm_empty "b" "p" (Obs 0 0 1 0 0 0 1 (-1) (-1) None)).
  assert (HT : tm_track_obs tracks "p" = Ok {["b" := Obs 0 0 1 0 0 0 1 (-1) (-1) None]}) by reflexivity.
  assert (exists K, openmvs_K (create_perspective 1 0 0) = Ok K) as [K HK] by (eexists; reflexivity).
  eexists [("c", create_perspective 1 0 0)], [("a", ("c", create_perspective 1 0 0, pose0))], [("p", (v0, (0, 0, 0)%Z))], tracks, _. split.
  { split; [apply NoDup_singleton|]. split; [apply NoDup_singleton|]. intros sh ->%elem_of_list_singleton. cbn. by left. }
  split.
  { unfold export_openmvs. cbn [foldE]. unfold openmvs_camera at 1. cbn [fst snd cam_type create_perspective new_camera]. rewrite decide_True by done.
    change (openmvs_K _) with (openmvs_K (create_perspective 1 0 0)). rewrite HK. cbn [res_bind]. unfold openmvs_shot at 1. cbn [exported cam_type create_perspective new_camera]. rewrite decide_True by done.
    unfold AddShot, AddCamera, brackets. cbn [new_exporter ex_platform_ids ex_platforms length]. rewrite lookup_insert. cbn [of_option res_bind lookup list_lookup app].
    unfold openmvs_point at 1. cbn [fst snd]. rewrite HT. cbn [res_bind]. rewrite map_to_list_singleton. reflexivity. }
  split; [done|]. split; [by eexists|]. split; done.
Qed.
(** An image without a mask is given the working directory as its mask: the empty name is made absolute. *)
Theorem C75_openmvs_mask enumO export_only isfile abspath image_file mask_file cameras shots points tracks e : consistent cameras shots ->
  export_openmvs enumO export_only isfile abspath image_file mask_file cameras shots points tracks = Ok e ->
  Forall2 (fun sh im => mi_mask im = abspath (if isfile (mask_file sh.1) then mask_file sh.1 else "")) (written export_only shots) (ex_images e).
Proof.
  intros Hc H. destruct (export_spec _ _ _ _ _ _ _ _ _ _ _ Hc H) as (e1 & (_ & _ & HI & _) & _ & -> & _). eapply Forall2_impl; [exact HI|]. intros sh im (n & pl & _ & H1 & _). done.
Qed.

(** PMVS: the matrix of an image sees every point where the (undistorted, perspective) camera does, in pixels of the resized image from
    its corner, whatever the size. *)
Theorem C75_pmvs_matrix c p w h X : made c -> perspective_like (cam_type c) -> undistorted c -> vz (transform p X) <> 0 ->
  exists q, Project c (transform p X) = Some q /\ pmvs_sees (pmvs_matrix c p w h) X = corner_pixel w h q /\
    vz (vadd (mvec (pmvs_matrix c p w h).1 X) (pmvs_matrix c p w h).2) = vz (transform p X).
Proof.
  intros Hm Ht Hu Hz. destruct (C46_projection_matrix c (transform p X) Hm Ht Hu Hz) as [Ez EPj]. rewrite EPj. eexists. split; [done|].
  unfold pmvs_sees, pmvs_matrix. cbn [fst snd]. rewrite mvec_mmul.
  assert (E : vadd (mvec (GetProjectionMatrixScaled c w h) (mvec (w_rot p) X)) (mvec (GetProjectionMatrixScaled c w h) (get_translation p)) = mvec (GetProjectionMatrixScaled c w h) (transform p X)).
  { unfold transform, get_translation. generalize (mvec (w_rot p) X) (w_tr p) (GetProjectionMatrixScaled c w h). vring. }
  rewrite E. clear EPj Ez E. revert Hz. generalize (transform p X). intros Y Hz. unfold over_z, corner_pixel, GetProjectionMatrixScaled, GetProjectionMatrix, mvec.
  cbn [vx vy vz m11 m12 m13 m21 m22 m23 m31 m32 m33 fst snd]. split; [|ring]. replace 0.5 with (/ 2) by lra. f_equal; field; lra.
Qed.
(** After the image is resized that is within half a pixel of the resized place, for the points in the image. *)
Theorem C75_pmvs_resized w h max_size q : (0 < w)%Z -> (0 < h)%Z -> (0 < max_size)%Z ->
  Rabs q.1 <= IZR w / 2 / IZR (Z.max w h) -> Rabs q.2 <= IZR h / 2 / IZR (Z.max w h) ->
  let '(rw, rh) := resized_size w h max_size in
  let a := corner_pixel rw rh q in let b := stretched w h rw rh (corner_pixel w h q) in
  Rabs (a.1 - b.1) <= 1 / 2 /\ Rabs (a.2 - b.2) <= 1 / 2.
Proof.
  intros Hw Hh Hm Hx Hy. unfold resized_size. destruct (decide (0 < max_size < Z.max w h)%Z) as [Hs|Hs].
  2:{ cbn zeta. unfold stretched, corner_pixel. cbn [fst snd]. apply IZR_lt in Hw, Hh.
      split; (match goal with |- Rabs ?x <= _ => replace x with 0 by (field; lra) end; rewrite Rabs_R0; lra). }
  assert (G : forall a b r, (0 < a)%Z -> (0 < b)%Z -> (b <= a)%Z -> (0 < r < a)%Z ->
    IZR r - IZR a * IZR (b * r / a) / IZR b < IZR a / IZR b /\ 0 <= IZR r - IZR a * IZR (b * r / a) / IZR b).
  { intros a b r Ha Hb Hba Hr. pose proof (Z.mul_div_le (b * r) a Ha) as H1. pose proof (Z.mul_succ_div_gt (b * r) a Ha) as H2.
    apply IZR_le in H1. apply IZR_lt in H2. rewrite !mult_IZR in H1, H2. rewrite succ_IZR in H2. apply IZR_lt in Ha, Hb.
    set (n := IZR (b * r / a)) in *. split.
    - apply (Rmult_lt_reg_r (IZR b)); [done|]. replace ((IZR r - IZR a * n / IZR b) * IZR b) with (IZR b * IZR r - IZR a * n) by (field; lra).
      replace (IZR a / IZR b * IZR b) with (IZR a) by (field; lra). lra.
    - apply (Rmult_le_reg_r (IZR b)); [done|]. replace ((IZR r - IZR a * n / IZR b) * IZR b) with (IZR b * IZR r - IZR a * n) by (field; lra). lra. }
  assert (B : forall a b r y, (0 < a)%Z -> (0 < b)%Z -> (b <= a)%Z -> (0 < r < a)%Z -> Rabs y <= IZR b / 2 / IZR a -> Rabs (y * (IZR r - IZR a * IZR (b * r / a) / IZR b)) <= 1 / 2).
  { intros a b r y Ha Hb Hba Hr Hyy. destruct (G a b r Ha Hb Hba Hr) as [G1 G2]. apply IZR_lt in Ha, Hb. rewrite Rabs_mult, (Rabs_pos_eq (IZR r - _)) by done.
    apply Rle_trans with (IZR b / 2 / IZR a * (IZR a / IZR b)); [|right; field; lra]. apply Rmult_le_compat; [apply Rabs_pos|done|done|lra]. }
  assert (EXT : forall a b r, (0 < a)%Z -> (b <= a)%Z -> (0 < b)%Z -> (0 < r)%Z -> Z.max (a * r / a) (b * r / a) = r).
  { intros a b r Ha Hba Hb Hr. rewrite (Z.mul_comm a r), Z.div_mul by lia. apply Z.max_l. apply Z.div_le_upper_bound; nia. }
  destruct (Z.max_spec w h) as [[Hl E]|[Hl E]]; rewrite E in *.
  - rewrite Z.max_comm in E. assert (EM := EXT h w max_size Hh ltac:(lia) Hw Hm). cbn zeta. unfold stretched, corner_pixel. cbn [fst snd]. rewrite (Z.max_comm (w * max_size / h)), EM.
    rewrite (Z.max_comm w h), E. rewrite (Z.mul_comm h max_size), Z.div_mul by lia. specialize (B h w max_size (q.1) Hh Hw ltac:(lia) Hs Hx). apply IZR_lt in Hw, Hh. split.
    + match goal with |- Rabs ?x <= _ => replace x with (q.1 * (IZR max_size - IZR h * IZR (w * max_size / h) / IZR w)) by (field; lra) end. done.
    + match goal with |- Rabs ?x <= _ => replace x with 0 by (field; lra) end. rewrite Rabs_R0. lra.
  - assert (EM := EXT w h max_size Hw ltac:(lia) Hh Hm). cbn zeta. unfold stretched, corner_pixel. cbn [fst snd]. rewrite EM, E.
    rewrite (Z.mul_comm w max_size), Z.div_mul by lia. specialize (B w h max_size (q.2) Hw Hh ltac:(lia) Hs Hy). apply IZR_lt in Hw, Hh. split.
    + match goal with |- Rabs ?x <= _ => replace x with 0 by (field; lra) end. rewrite Rabs_R0. lra.
    + match goal with |- Rabs ?x <= _ => replace x with (q.2 * (IZR max_size - IZR w * IZR (h * max_size / w) / IZR h)) by (field; lra) end. done.
Qed.
(** vis.dat: the count, then for each image, in order, the numbers of the images of the reconstruction it shares tracks with. *)
Theorem C75_pmvs_vis enumA graph shots n lines : enumerates enumA -> NoDup shots -> graph <> ∅ -> vis_data enumA graph shots = Ok (n, lines) ->
  n = length shots /\ length lines = length shots /\
  forall i image, shots !! i = Some image -> exists adj adjacent, lines !! i = Some (i, adj) /\ graph !! image = Some adjacent /\ NoDup adj /\
    forall j, j ∈ adj <-> exists other w, shots !! j = Some other /\ adjacent !! other = Some w /\ (0 < w)%Z.
Proof.
  intros HE HN HG. unfold vis_data. set (ix := enumerate_from 0 shots ∅). destruct (mapR _ _) as [ls|] eqn:El; [|done]. cbn [res_bind]. intros [= <- <-].
  assert (Hix : forall k m, ix !! k = Some m <-> shots !! m = Some k) by (intros; by apply enumerate_spec).
  assert (Hsz : size ix = length shots).
  { rewrite <- size_dom. assert (Hd : dom ix = list_to_set (C := gset string) shots).
    { apply set_eq. intros k. rewrite elem_of_dom, elem_of_list_to_set, elem_of_list_lookup. split; intros [m Hm]; exists m; by apply Hix. }
    rewrite Hd. by apply size_list_to_set. }
  apply mapR_ok in El.
  assert (HL : exists ls', ls = (fun x => [x]) <$> ls' /\ concat ls = ls').
  { clear -El HG. revert El. generalize (imap (fun i s => (i, s)) shots). intros l El. induction El as [|x y l ls Hxy El IH]; [by exists []|].
    destruct IH as (ls' & -> & Hc). unfold vis_line in Hxy. rewrite decide_False in Hxy by done. destruct (graph !! x.2); [|done]. cbn in Hxy. injection Hxy as <-.
    eexists (_ :: ls'). split; [done|]. cbn. by rewrite Hc. }
  destruct HL as (ls' & -> & ->). split; [done|]. assert (HLen : length ls' = length shots). { apply Forall2_length in El. rewrite fmap_length, imap_length in El. done. }
  split; [done|]. intros i image Hi. assert (Him : imap (fun i s => (i, s)) shots !! i = Some (i, image)) by by rewrite list_lookup_imap, Hi.
  destruct (Forall2_lookup_l _ _ _ _ _ El Him) as (l & Hl & Hv). apply list_lookup_fmap_inv in Hl as (ln & -> & Hl).
  unfold vis_line in Hv. rewrite decide_False in Hv by done. cbn [fst snd] in Hv. destruct (graph !! image) as [adjacent|] eqn:Eg; [|done]. cbn in Hv. injection Hv as <-.
  eexists _, adjacent. split; [done|]. split; [done|].
  assert (HEA := HE adjacent). split.
  - assert (HND : NoDup ((enumA adjacent).*1)) by (rewrite HEA; apply NoDup_fst_map_to_list). clear -HND Hix. induction (enumA adjacent) as [|[k w] l IH]; [constructor|].
    cbn in HND. apply NoDup_cons in HND as [Hk HND]. cbn. destruct (decide (0 < w)%Z); [|by apply IH]. destruct (ix !! k) as [m|] eqn:Em; [|by apply IH]. constructor; [|by apply IH].
    intros Hin. apply elem_of_list_omap in Hin as ([k' w'] & Hin & Hm). cbn in Hm. destruct (decide (0 < w')%Z); [|done]. apply Hix in Em, Hm. rewrite Em in Hm. injection Hm as <-.
    apply Hk. apply elem_of_list_fmap. by exists (k, w').
  - intros j. rewrite elem_of_list_omap. split.
    + intros ([k w] & Hin & Hm). cbn in Hm. destruct (decide (0 < w)%Z); [|done]. exists k, w. split; [by apply Hix|]. split; [|done]. by rewrite HEA, elem_of_map_to_list in Hin.
    + intros (k & w & Hj & Hw & Hp). exists (k, w). split; [by rewrite HEA, elem_of_map_to_list|]. cbn. rewrite decide_True by done. by apply Hix.
Qed.

(** Concrete cases *)
Example C75_concrete_export : exists e, consistent [("c", create_perspective 1 0 0)] [("a", ("c", create_perspective 1 0 0, pose0))] /\
  export_openmvs map_to_list None (fun _ => false) (fun x => x) (fun x => x) (fun x => x) [("c", create_perspective 1 0 0)] [("a", ("c", create_perspective 1 0 0, pose0))]
    [("p", (Vec 1 0 2, (0, 0, 0)%Z))] (@tm_add obs tm_empty "a" "p" (Obs 0 0 1 0 0 0 1 (-1) (-1) None)) = Ok e /\
  ve_views <$> ex_vertices e = [[0%nat]] /\ made (create_perspective 1 0 0) /\ valid pose0 /\ vz (transform pose0 (Vec 1 0 2)) <> 0.
Proof.
  set (tracks := tm_add _ _ _ _).
  assert (HT : tm_track_obs tracks "p" = Ok {["a" := Obs 0 0 1 0 0 0 1 (-1) (-1) None]}) by reflexivity.
  assert (exists K, openmvs_K (create_perspective 1 0 0) = Ok K) as [K HK] by (eexists; reflexivity).
  eexists. split.
  { split; [apply NoDup_singleton|]. split; [apply NoDup_singleton|]. intros sh ->%elem_of_list_singleton. cbn. by left. }
  split.
  { unfold export_openmvs. cbn [foldE]. unfold openmvs_camera at 1. cbn [fst snd cam_type create_perspective new_camera]. rewrite decide_True by done.
    change (openmvs_K _) with (openmvs_K (create_perspective 1 0 0)). rewrite HK. cbn [res_bind]. unfold openmvs_shot at 1. cbn [exported cam_type create_perspective new_camera]. rewrite decide_True by done.
    unfold AddShot, AddCamera, brackets. cbn [new_exporter ex_platform_ids ex_platforms length]. rewrite lookup_insert. cbn [of_option res_bind lookup list_lookup app].
    unfold openmvs_point at 1. cbn [fst snd]. rewrite HT. cbn [res_bind]. rewrite map_to_list_singleton. reflexivity. }
  split; [done|]. split; [constructor|]. split.
  { apply from_w2c_valid, rotation_I. }
  unfold transform. cbn. lra.
Qed.
Example C75_concrete_vis : vis_data map_to_list {["a" := {["b" := 3; "x" := 1]}; "b" := {["a" := 3]}]}%Z ["a"; "b"] = Ok (2%nat, [(0%nat, [1%nat]); (1%nat, [0%nat])]).
Proof. vm_compute. done. Qed.
Example C75_concrete_resized : resized_size 1000 333 640 = (640, 213)%Z.
Proof. by vm_compute. Qed.
Print Assumptions C75_openmvs_images. Print Assumptions C75_openmvs_points. Print Assumptions C75_openmvs_views_refuted. Print Assumptions C75_openmvs_mask.
Print Assumptions C75_pmvs_matrix. Print Assumptions C75_pmvs_resized. Print Assumptions C75_pmvs_vis.
