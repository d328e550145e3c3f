(** Proofs about MvsModel.v *)
From stdpp Require Import prelude gmap strings.
From Coq Require Import Reals Lra Psatz.
From Verif Require Import Base JsonModel CamModel ProjModel Lin RotModel TracksModel PoseModel PoseSpec PoseProofs CamSpec CameraSpec CameraProofs CameraProps BundlerModel BundlerProofs MvsModel MvsSpec.
Local Open Scope R_scope.

Definition perspectives (cameras : list (string * camera)) : list (string * camera) := filter (fun ic => cam_type ic.2 = PERSPECTIVE) cameras.
(** The cameras: one platform per perspective camera, in order *)
Definition cams_inv (seen : list (string * camera)) (e : exporter) : Prop :=
  Forall2 (fun ic pl => exists K, openmvs_K ic.2 = Ok K /\ pl = MvsPlatform ic.1 (cam_width ic.2) (cam_height ic.2) K []) (perspectives seen) (ex_platforms e) /\
  (forall k n, ex_platform_ids e !! k = Some n <-> (perspectives seen).*1 !! n = Some k) /\ ex_image_ids e = ∅ /\ ex_images e = [] /\ ex_vertices e = [].
Lemma cams_spec cameras : forall seen e e', NoDup ((seen ++ cameras).*1) -> cams_inv seen e -> foldE openmvs_camera cameras e = Ok e' -> cams_inv (seen ++ cameras) e'.
Proof.
  induction cameras as [|ic cameras IH]; intros seen e e' HN HI H.
  { cbn in H. injection H as <-. by rewrite app_nil_r. }
  cbn [foldE] in H. destruct (openmvs_camera e ic) as [e1|] eqn:E1; [|done]. cbn [res_bind] in H.
  replace (seen ++ ic :: cameras) with ((seen ++ [ic]) ++ cameras) in * by by rewrite <- app_assoc.
  apply (IH (seen ++ [ic]) e1); [done| |done]. clear IH H. destruct HI as (HF & Hid & H1 & H2 & H3).
  unfold openmvs_camera in E1. assert (EP : perspectives (seen ++ [ic]) = perspectives seen ++ (if decide (cam_type ic.2 = PERSPECTIVE) then [ic] else [])).
  { unfold perspectives. rewrite filter_app, filter_cons. by destruct (decide _). }
  unfold cams_inv. rewrite EP. destruct (decide (cam_type ic.2 = PERSPECTIVE)) as [Hp|Hp].
  - destruct (openmvs_K ic.2) as [K|] eqn:EK; [|done]. cbn in E1. injection E1 as <-. cbn. split; [|split; [|done]].
    + apply Forall2_app; [done|]. constructor; [|constructor]. by exists K.
    + intros k n. assert (Hl : length (ex_platforms e) = length (perspectives seen)) by (symmetry; by eapply Forall2_length). rewrite Hl.
      assert (Hni : ic.1 ∉ (perspectives seen).*1).
      { rewrite fmap_app in HN. apply NoDup_app in HN as (HN & _ & _). rewrite fmap_app in HN. apply NoDup_app in HN as (_ & HN & _). intros Hin.
        apply elem_of_list_fmap in Hin as (jc & Hj & Hin). apply elem_of_list_filter in Hin as [_ Hin]. apply (HN jc.1); [by apply elem_of_list_fmap_1|]. rewrite <- Hj. set_solver. }
      rewrite fmap_app. cbn. destruct (decide (k = ic.1)) as [->|Hk].
      * rewrite lookup_insert. split.
        -- intros [= <-]. rewrite lookup_app_r; rewrite fmap_length; [|done]. by rewrite Nat.sub_diag.
        -- intros Hn. apply lookup_app_Some in Hn as [Hn|[Hge Hn]]; [by apply elem_of_list_lookup_2 in Hn|]. rewrite fmap_length in Hge, Hn.
           destruct (n - length (perspectives seen))%nat eqn:Ed; [|done]. f_equal. lia.
      * rewrite lookup_insert_ne by done. rewrite Hid. split.
        -- intros Hn. by apply lookup_app_l_Some.
        -- intros Hn. apply lookup_app_Some in Hn as [Hn|[Hge Hn]]; [done|]. apply list_lookup_singleton_Some in Hn as [_ Hn]. done.
  - injection E1 as <-. by rewrite app_nil_r.
Qed.

Section Shots.
Variable enumO : gmap string obs -> list (string * obs).
Variable export_only : option (gset string).
Variables (isfile : string -> bool) (abspath : string -> string) (image_file mask_file : string -> string).
Definition written (shots : list (string * (string * camera * pose))) : list (string * (string * camera * pose)) :=
  filter (fun sh => exported export_only sh.1 = true /\ cam_type sh.2.1.2 = PERSPECTIVE) shots.
Definition shots_inv (cameras : list (string * camera)) (seen : list (string * (string * camera * pose))) (e : exporter) : Prop :=
  (** the platforms keep their cameras *)
  Forall2 (fun ic pl => exists K poses, openmvs_K ic.2 = Ok K /\ pl = MvsPlatform ic.1 (cam_width ic.2) (cam_height ic.2) K poses) (perspectives cameras) (ex_platforms e) /\
  (forall k n, ex_platform_ids e !! k = Some n <-> (perspectives cameras).*1 !! n = Some k) /\
  (** one image per shot *)
  Forall2 (fun sh im => exists n pl, mi_name im = abspath (image_file sh.1) /\ mi_mask im = abspath (if isfile (mask_file sh.1) then mask_file sh.1 else "") /\
      mi_platform im = n /\ (perspectives cameras).*1 !! n = Some sh.2.1.1 /\ ex_platforms e !! n = Some pl /\ pl_poses pl !! mi_pose im = Some (w_rot sh.2.2, get_origin sh.2.2))
    (written seen) (ex_images e) /\
  (forall k n, ex_image_ids e !! k = Some n <-> (written seen).*1 !! n = Some k) /\ ex_vertices e = [].
Notation step := (openmvs_shot export_only isfile abspath image_file mask_file).
Lemma shots_spec cameras shots : forall seen e e', NoDup ((seen ++ shots).*1) -> NoDup (cameras.*1) ->
  (forall sh, sh ∈ shots -> (sh.2.1.1, sh.2.1.2) ∈ cameras) -> shots_inv cameras seen e -> foldE step shots e = Ok e' -> shots_inv cameras (seen ++ shots) e'.
Proof.
  induction shots as [|sh shots IH]; intros seen e e' HN HC HIn HI H.
  { cbn in H. injection H as <-. by rewrite app_nil_r. }
  cbn [foldE] in H. destruct (step e sh) as [e1|] eqn:E1; [|done]. cbn [res_bind] in H.
  replace (seen ++ sh :: shots) with ((seen ++ [sh]) ++ shots) in * by by rewrite <- app_assoc.
  apply (IH (seen ++ [sh]) e1); [done|done|intros sh' Hs'; apply HIn; by right| |done]. clear IH H. destruct HI as (HF & Hid & HI & Himg & HV).
  assert (EP : written (seen ++ [sh]) = written seen ++ (if decide (exported export_only sh.1 = true /\ cam_type sh.2.1.2 = PERSPECTIVE) then [sh] else [])).
  { unfold written. rewrite filter_app, filter_cons. by destruct (decide _). }
  destruct sh as [id [[cid c] p]]. unfold openmvs_shot in E1. unfold shots_inv. rewrite EP. cbn [fst snd] in *. clear EP.
  specialize (HIn _ ltac:(by left)). cbn [fst snd] in HIn.
  destruct (exported export_only id) eqn:Ee.
  2:{ injection E1 as <-. rewrite decide_False by (intros [? _]; done). by rewrite app_nil_r. }
  destruct (decide (cam_type c = PERSPECTIVE)) as [Hp|Hp].
  2:{ injection E1 as <-. rewrite decide_False by (intros [_ ?]; done). by rewrite app_nil_r. }
  rewrite decide_True by done. unfold AddShot in E1.
  assert (Hin : cid ∈ (perspectives cameras).*1). { apply elem_of_list_fmap. exists (cid, c). split; [done|]. by apply elem_of_list_filter. }
  apply elem_of_list_lookup in Hin as [n Hn]. unfold brackets in E1. rewrite (proj2 (Hid cid n) Hn) in E1.
  destruct (ex_platforms e !! n) as [pl|] eqn:Epl; [|done]. cbn [of_option res_bind] in E1. injection E1 as <-. cbn [ex_platforms ex_platform_ids ex_images ex_image_ids ex_vertices].
  assert (Hlt : (n < length (ex_platforms e))%nat) by by eapply lookup_lt_Some.
  split; [|split; [done|split; [|split; [|done]]]].
  - apply Forall2_same_length_lookup. split; [rewrite insert_length; by eapply Forall2_length|]. intros i ic pl' Hi Hpl'.
    apply list_lookup_insert_Some in Hpl' as [(<- & <- & _)|[Hne Hpl']].
    + destruct (Forall2_lookup_lr _ _ _ _ _ _ HF Hi Epl) as (K & poses & EK & ->). cbn. by exists K, (poses ++ [(w_rot p, get_origin p)]).
    + by apply (Forall2_lookup_lr _ _ _ _ _ _ HF Hi Hpl').
  - apply Forall2_app.
    + eapply Forall2_impl; [exact HI|]. intros sh im (m & pl' & H1 & H2 & H3 & H4 & H5 & H6).
      destruct (decide (m = n)) as [->|Hne].
      * exists n. eexists. do 4 (split; [done|]). split; [by apply list_lookup_insert|]. cbn. rewrite Epl in H5. injection H5 as <-. by apply lookup_app_l_Some.
      * exists m, pl'. do 4 (split; [done|]). split; [by rewrite list_lookup_insert_ne|done].
    + constructor; [|constructor]. cbn. exists n. eexists. do 4 (split; [done|]). split; [by apply list_lookup_insert|]. cbn.
      rewrite lookup_app_r by done. by rewrite Nat.sub_diag.
  - intros k m. assert (Hl : length (ex_images e) = length (written seen)) by (symmetry; by eapply Forall2_length). rewrite Hl.
    assert (Hni : id ∉ (written seen).*1).
    { rewrite fmap_app in HN. apply NoDup_app in HN as (HN & _ & _). rewrite fmap_app in HN. apply NoDup_app in HN as (_ & HN & _). intros Hin.
      apply elem_of_list_fmap in Hin as (jc & Hj & Hin). apply elem_of_list_filter in Hin as [_ Hin]. apply (HN jc.1); [by apply elem_of_list_fmap_1|]. rewrite <- Hj. set_solver. }
    rewrite fmap_app. cbn. destruct (decide (k = id)) as [->|Hk].
    + rewrite lookup_insert. split.
      * intros [= <-]. rewrite lookup_app_r; rewrite fmap_length; [|done]. by rewrite Nat.sub_diag.
      * intros Hm. apply lookup_app_Some in Hm as [Hm|[Hge Hm]]; [by apply elem_of_list_lookup_2 in Hm|]. rewrite fmap_length in Hge, Hm.
        destruct (m - length (written seen))%nat eqn:Ed; [|done]. f_equal. lia.
    + rewrite lookup_insert_ne by done. rewrite Himg. split.
      * intros Hm. by apply lookup_app_l_Some.
      * intros Hm. apply lookup_app_Some in Hm as [Hm|[Hge Hm]]; [done|]. apply list_lookup_singleton_Some in Hm as [_ Hm]. done.
Qed.

(** The points *)
Definition looked_up (ids : gmap string nat) (k : string) : nat := default 0%nat (ids !! k).
Lemma add_views_spec l : forall ids ids' ns, add_views ids l = (ns, ids') -> ns = looked_up ids <$> l /\ (forall k, looked_up ids' k = looked_up ids k).
Proof.
  induction l as [|k l IH]; intros ids ids' ns H; cbn in H; [by injection H as <- <-|].
  destruct (brackets ids k) as [n ids1] eqn:Eb. destruct (add_views ids1 l) as [ns1 ids2] eqn:Ea. injection H as <- <-. apply IH in Ea as [-> Ha].
  assert (HB : n = looked_up ids k /\ forall j, looked_up ids1 j = looked_up ids j).
  { unfold brackets in Eb. unfold looked_up. destruct (ids !! k) as [m|] eqn:Ek; injection Eb as <- <-; [done|]. split; [done|]. intros j.
    destruct (decide (j = k)) as [->|Hj]; [by rewrite lookup_insert, Ek|]. by rewrite lookup_insert_ne. }
  destruct HB as [-> HB]. split.
  - cbn. f_equal. apply list_fmap_ext. intros i x _. apply HB.
  - intros j. by rewrite Ha.
Qed.
Notation shots_of os := (filter (fun k => exported export_only k = true) ((enumO os).*1)).
Definition vertex_of (ids : gmap string nat) (tracks : @tm obs) (pt : string * (vec * color)) : option mvs_vertex :=
  match tm_track_obs tracks pt.1 with
  | Ok os => match shots_of os with [] => None | l => Some (MvsVertex pt.2.1 (looked_up ids <$> l)) end
  | Err _ => None
  end.
Lemma vertex_of_ext ids ids' tracks pt : (forall k, looked_up ids k = looked_up ids' k) -> vertex_of ids tracks pt = vertex_of ids' tracks pt.
Proof.
  intros H. unfold vertex_of. destruct (tm_track_obs tracks pt.1) as [os|]; [|done]. destruct (shots_of os) eqn:Es; [done|]. f_equal. f_equal. apply list_fmap_ext. intros; apply H.
Qed.
Lemma omap_vertex_ext ids ids' tracks (pts : list (string * (vec * color))) : (forall k, looked_up ids k = looked_up ids' k) -> omap (vertex_of ids tracks) pts = omap (vertex_of ids' tracks) pts.
Proof. intros H. induction pts as [|pt pts IH]; [done|]. cbn. rewrite (vertex_of_ext ids ids') by done. destruct (vertex_of ids' tracks pt); [f_equal|]; apply IH. Qed.
Lemma points_spec tracks points : forall e e', foldE (openmvs_point enumO export_only tracks) points e = Ok e' ->
  ex_platforms e' = ex_platforms e /\ ex_images e' = ex_images e /\ (forall k, looked_up (ex_image_ids e') k = looked_up (ex_image_ids e) k) /\
  (forall pt, pt ∈ points -> exists os, tm_track_obs tracks pt.1 = Ok os) /\
  ex_vertices e' = ex_vertices e ++ omap (vertex_of (ex_image_ids e) tracks) points.
Proof.
  induction points as [|pt points IH]; intros e e' H; cbn [foldE] in H.
  { injection H as <-. cbn. rewrite app_nil_r. do 3 (split; [done|]). split; [intros pt Hpt; by apply elem_of_nil in Hpt|done]. }
  unfold openmvs_point at 1 in H. destruct (tm_track_obs tracks pt.1) as [os|] eqn:Eo; [|done]. cbn [res_bind] in H.
  assert (HE : let e1 := match shots_of os with [] => e | _ => AddPoint e pt.2.1 (shots_of os) end in
     ex_platforms e1 = ex_platforms e /\ ex_images e1 = ex_images e /\ (forall k, looked_up (ex_image_ids e1) k = looked_up (ex_image_ids e) k) /\
     ex_vertices e1 = ex_vertices e ++ option_list (vertex_of (ex_image_ids e) tracks pt)).
  { cbn zeta. unfold vertex_of. rewrite Eo. destruct (shots_of os) as [|a sel'] eqn:Es; [by rewrite app_nil_r|]. unfold AddPoint.
    destruct (add_views (ex_image_ids e) (a :: sel')) as [ns ids] eqn:Ea. apply add_views_spec in Ea as [-> Ha]. done. }
  cbn zeta in HE. set (e1 := match shots_of os with [] => e | _ => AddPoint e pt.2.1 (shots_of os) end) in *. clearbody e1.
  apply IH in H as (H1 & H2 & H3 & H4 & H5). destruct HE as (G1 & G2 & G3 & G4). rewrite G1 in H1. rewrite G2 in H2.
  split; [done|]. split; [done|]. split; [intros k; by rewrite H3|]. split.
  { intros pt' [->|Hpt]%elem_of_cons; [by exists os|by apply H4]. }
  rewrite H5, G4, <- app_assoc. f_equal. rewrite (omap_vertex_ext _ _ _ _ G3). cbn. by destruct (vertex_of (ex_image_ids e) tracks pt).
Qed.
End Shots.
