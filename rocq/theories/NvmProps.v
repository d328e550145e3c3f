(** C73: the NVM file written by the export describes the cameras and points of the reconstruction. *)
From stdpp Require Import prelude gmap strings.
From Coq Require Import Reals Lra Psatz.
From Verif Require Import Base JsonModel CamModel ProjModel Lin RotModel RotProofs TracksModel PoseModel PoseSpec CamSpec CameraSpec CameraProps
  BundlerModel NvmModel NvmSpec NvmProofs.
Local Open Scope R_scope.

(** The quaternion computed from a rotation matrix is the one of that rotation: it turns every vector like the matrix, has length 1, and its
    scalar part is not negative. *)
Theorem C73_quaternion eigh M : rotation M -> diagonalises eigh (davenport M) ->
  exists q, quaternion_from_matrix eigh M = Ok q /\ unit4 q /\ 0 <= q0 q /\ forall x, turn q x = mvec M x.
Proof.
  intros HM HD. unfold quaternion_from_matrix.
  destruct (argmax (eigh (davenport M))) as [e|] eqn:Ea.
  - destruct (davenport_top M eigh e HM HD Ea) as (w & v & Hq & Hu & He). cbn [of_option res_bind]. rewrite He. cbn [q0 q1 q2 q3].
    assert (U : forall s, s * s = 1 -> unit4 (Vec4 (s * w) (s * vx v) (s * vy v) (s * vz v))).
    { intros s Hs. unfold unit4. cbn [q0 q1 q2 q3]. transitivity (s * s * (w * w + dot v v)); [unfold dot; ring|]. rewrite Hs, Hu. ring. }
    destruct (Rlt_dec w 0) as [Hw|Hw].
    + exists (Vec4 (- w) (- vx v) (- vy v) (- vz v)). split; [done|].
      assert (U1 : unit4 (Vec4 (- w) (- vx v) (- vy v) (- vz v))).
      { replace (- w) with (-1 * w) by ring. replace (- vx v) with (-1 * vx v) by ring. replace (- vy v) with (-1 * vy v) by ring. replace (- vz v) with (-1 * vz v) by ring. apply U. ring. }
      split; [done|]. split; [cbn; lra|]. intros x. rewrite (turn_qmat (- w) (vopp v)); [|done|done]. f_equal. rewrite <- Hq. destruct v. unfold qmat, vopp. cbn. f_equal; ring.
    + exists (Vec4 w (vx v) (vy v) (vz v)). split; [done|]. 
      assert (U1 : unit4 (Vec4 w (vx v) (vy v) (vz v))).
      { replace w with (1 * w) by ring. replace (vx v) with (1 * vx v) by ring. replace (vy v) with (1 * vy v) by ring. replace (vz v) with (1 * vz v) by ring. apply U. ring. }
      split; [done|]. split; [cbn; lra|]. intros x. rewrite (turn_qmat w v); [|done|done]. by rewrite Hq.
  - exfalso. destruct (davenport_eigen M HM) as (v & Hv & Hp).
    destruct HD as [_ HD]. specialize (HD 1 _ Hv Hp).
    destruct (eigh (davenport M)) as [|e l] eqn:El; [by apply elem_of_nil in HD|].
    destruct (argmax_spec (e :: l) ltac:(done)) as (e' & He' & _). congruence.
Qed.

Section Export.
Variable eigh : lower4 -> list (R * vec4).
Variable enumO : gmap string obs -> list (string * obs).
Variables (shots : list (string * (camera * pose))) (image_size : string -> Z * Z) (export_only : option (gset string)).
(** The images asked for: all of them, or those of the list *)
Definition wanted (id : string) : Prop := match export_only with None => True | Some l => id ∈ l end.
Lemma wanted_selected id : selected export_only id = true <-> wanted id.
Proof. unfold selected, wanted. destruct export_only; [apply bool_decide_eq_true|done]. Qed.

(** The cameras of the file are the wanted shots, in order, and their number is the one announced. Each has the name, the centre and the
    orientation of its shot: it places every point in the camera frame where the shot does. *)
Theorem C73_cameras tracks points wp f : NoDup (shots.*1) -> (forall M, rotation M -> diagonalises eigh (davenport M)) ->
  export_nvm eigh enumO shots image_size export_only tracks points wp = Ok f ->
  nf_num_cameras f = Z.of_nat (length (nf_cameras f)) /\
  (forall id, id ∈ (nc_name <$> nf_cameras f) <-> id ∈ shots.*1 /\ wanted id) /\
  forall i nc, nf_cameras f !! i = Some nc -> exists c p, (nc_name nc, (c, p)) ∈ shots /\ wanted (nc_name nc) /\
    (valid p -> unit4 (nc_q nc) /\ forall X, turn (nc_q nc) (vsub X (nc_origin nc)) = transform p X) /\
    get_param c Focal = Ok (value_of c Focal) /\
    nc_focal nc = value_of c Focal * IZR (Z.max (image_size (nc_name nc)).1 (image_size (nc_name nc)).2).
Proof.
  intros HN HD Hf. unfold export_nvm in Hf. destruct (nvm_shots _ _ _ _ shots) as [[[[lines i] cache] sk]|] eqn:Es; [|done]. cbn [res_bind] in Hf.
  apply nvm_shots_spec in Es as ((new & -> & Hnew) & Hsk & _ & _); [|done]. rewrite app_nil_l in Hf.
  assert (nf_num_cameras f = (Z.of_nat (length shots) - sk)%Z /\ nf_cameras f = new) as [-> ->].
  { destruct wp; [destruct (nvm_points _ _ _ _ _ _) as [ps|]; [|done]; cbn in Hf|]; by injection Hf as <-. }
  split; [|split].
  - rewrite <- (Forall2_length _ _ _ Hnew). lia.
  - intros id. assert (E : nc_name <$> new = (chosen export_only shots).*1).
    { clear -Hnew. induction Hnew as [|sh nc l l' (H & _) _ IH]; [done|]. cbn. by rewrite H, IH. }
    rewrite E. split.
    + intros (sh & -> & Hin)%elem_of_list_fmap. apply elem_of_list_filter in Hin as [Hs Hin]. split; [by apply elem_of_list_fmap_1|by apply wanted_selected].
    + intros [(sh & -> & Hin)%elem_of_list_fmap Hw]. apply elem_of_list_fmap_1, elem_of_list_filter. split; [by apply wanted_selected|done].
  - intros j nc Hj. destruct (Forall2_lookup_r _ _ _ _ _ Hnew Hj) as ([id [c p]] & Hsh & Hname & Ho & Hq & fo & Hfo & Hfoc). cbn [fst snd] in *.
    apply elem_of_list_lookup_2, elem_of_list_filter in Hsh as [Hsel Hin]. cbn in Hsel. rewrite Hname. exists c, p. split; [done|]. split; [by apply wanted_selected|]. split.
    + intros (HR & Hc & Ht). destruct (C73_quaternion eigh (w_rot p) HR (HD _ HR)) as (q & Hq' & Hu & _ & Hturn). rewrite Hq in Hq'. injection Hq' as ->.
      split; [done|]. intros X. rewrite Hturn, Ho. unfold get_origin, transform. rewrite Ht.
      assert (E : forall a b, mvec (w_rot p) (vsub a (vopp b)) = vadd (mvec (w_rot p) a) (mvec (w_rot p) b)).
      { intros [] []. unfold mvec, vsub, vopp, vadd. cbn. f_equal; ring. }
      rewrite E. f_equal. rewrite <- mvec_mmul. destruct HR as [HR1 HR2]. rewrite (rotation_r (w_rot p)) by done. apply mvec_I.
    + unfold value_of. unfold nvm_focal in Hfo. destruct (cam_type c); try done; rewrite Hfo; split; try done; by rewrite Hfoc.
Qed.

(** A point is kept when two of the wanted images of the reconstruction observe its track. *)
Definition observed_in (tracks : @tm obs) (id image : string) (o : obs) : Prop := exists l, tm_track_obs tracks id = Ok l /\ l !! image = Some o.
Definition seen_twice (tracks : @tm obs) (id : string) : Prop := exists a b, a <> b /\
  (wanted a /\ a ∈ shots.*1 /\ exists o, observed_in tracks id a o) /\ (wanted b /\ b ∈ shots.*1 /\ exists o, observed_in tracks id b o).

Lemma NoDup_fst_filter {A B} (P : A * B -> Prop) `{forall x, Decision (P x)} (l : list (A * B)) : NoDup (l.*1) -> NoDup ((filter P l).*1).
Proof.
  induction l as [|a l IH]; intros HN; [done|]. cbn in HN. apply NoDup_cons in HN as [Ha HN]. rewrite filter_cons. destruct (decide (P a)); [|by apply IH].
  cbn. constructor; [|by apply IH]. intros (b & Hb & Hin)%elem_of_list_fmap. apply elem_of_list_filter in Hin as [_ Hin]. apply Ha. rewrite Hb. by apply elem_of_list_fmap_1.
Qed.
Lemma two_elements {A} (l : list A) : NoDup l -> (1 < length l)%nat <-> exists a b, a <> b /\ a ∈ l /\ b ∈ l.
Proof.
  intros HN. split.
  - destruct l as [|a [|b l]]; cbn; try lia. intros _. exists a, b. apply NoDup_cons in HN as [Ha _]. split; [intros ->; apply Ha; by left|]. split; [by left|by right; left].
  - intros (a & b & Hab & Ha & Hb). destruct l as [|x [|y l]]; cbn; [by apply elem_of_nil in Ha| |lia].
    apply elem_of_list_singleton in Ha, Hb. congruence.
Qed.

(** The points of the file are exactly those, in order and with their positions and colours, and their number is the one announced. The views
    of a point are its observations by the wanted images: the index designates the camera of the file with the name of the image, and each
    image is listed once. The coordinates are fractions of the width and of the height of the image. *)
Theorem C73_points tracks points f : NoDup (shots.*1) -> enumerates enumO ->
  export_nvm eigh enumO shots image_size export_only tracks points true = Ok f ->
  nf_num_points f = Z.of_nat (length (nf_points f)) /\
  exists kept, kept `sublist_of` points /\ (forall pt, pt ∈ points -> pt ∈ kept <-> seen_twice tracks pt.1) /\
  Forall2 (fun pt np => (np_position np, np_color np) = pt.2 /\ NoDup (nv_camera <$> np_views np) /\
    forall v, v ∈ np_views np <-> exists image nc o, nf_cameras f !! nv_camera v = Some nc /\ nc_name nc = image /\ observed_in tracks pt.1 image o /\
      nv_feature v = o_feature o /\ nv_x v = IZR (image_size image).2 * (o_x o + 1 / 2) /\ nv_y v = IZR (image_size image).1 * (o_y o + 1 / 2)) kept (nf_points f).
Proof.
  intros HN HE Hf. unfold export_nvm in Hf. destruct (nvm_shots _ _ _ _ shots) as [[[[lines i] cache] sk]|] eqn:Es; [|done]. cbn [res_bind] in Hf.
  apply nvm_shots_spec in Es as ((new & -> & Hnew) & Hsk & Hc1 & Hc2); [|done]. rewrite app_nil_l in Hf.
  destruct (nvm_points _ _ _ _ _ _) as [[ps skp]|] eqn:Ep; [|done]. cbn [res_bind] in Hf. injection Hf as <-. cbn [nf_num_points nf_points nf_cameras fst snd].
  assert (Hshown : forall k, shown shots export_only k = true <-> wanted k /\ k ∈ shots.*1).
  { intros k. unfold shown. rewrite andb_true_iff, bool_decide_eq_true, wanted_selected. done. }
  assert (Hcache : forall k size n, cache !! k = Some (size, n) <-> size = image_size k /\ exists nc, new !! n = Some nc /\ nc_name nc = k).
  { intros k size n. split.
    - intros Hk. destruct (decide (k ∈ (chosen export_only shots).*1)) as [Hin|Hnin]; [|by rewrite Hc1 in Hk].
      apply elem_of_list_fmap in Hin as (sh & -> & Hin). apply elem_of_list_lookup in Hin as [m Hm]. rewrite (Hc2 _ _ Hm) in Hk. injection Hk as <- <-. split; [done|].
      destruct (Forall2_lookup_l _ _ _ _ _ Hnew Hm) as (nc & Hnc & Hname & _). by exists nc.
    - intros (-> & nc & Hn & <-). destruct (Forall2_lookup_r _ _ _ _ _ Hnew Hn) as (sh & Hsh & Hname & _). rewrite Hname. by rewrite (Hc2 _ _ Hsh). }
  assert (Hhas : forall k, shown shots export_only k = true -> is_Some (cache !! k)).
  { intros k Hk. apply Hshown in Hk as [Hw Hin]. apply elem_of_list_fmap in Hin as (sh & -> & Hin).
    assert (Hin' : sh ∈ chosen export_only shots) by (apply elem_of_list_filter; split; [by apply wanted_selected|done]).
    apply elem_of_list_lookup in Hin' as [m Hm]. rewrite (Hc2 _ _ Hm). by eexists. }
  assert (HN2 : forall l, NoDup (nv_camera <$> omap (view_of shots export_only cache) (enumO l))).
  { intros l. assert (HND : NoDup ((enumO l).*1)) by (rewrite (HE l); apply NoDup_fst_map_to_list). revert HND. generalize (enumO l). clear l. induction l as [|so l IH]; intros HND; [constructor|].
    cbn in HND. apply NoDup_cons in HND as [Hnin HND]. specialize (IH HND).
    change (omap (view_of shots export_only cache) (so :: l)) with (match view_of shots export_only cache so with Some y => y :: omap (view_of shots export_only cache) l | None => omap (view_of shots export_only cache) l end).
    destruct (view_of shots export_only cache so) as [v|] eqn:Ev; [|done]. cbn. constructor; [|done].
    intros Hin. apply elem_of_list_fmap in Hin as (v' & Hv & Hin). apply elem_of_list_omap in Hin as (so' & Hso' & Hm).
    assert (Hname : forall so v, view_of shots export_only cache so = Some v -> exists nc, new !! nv_camera v = Some nc /\ nc_name nc = so.1).
    { clear -Hcache. intros so v Hv. unfold view_of in Hv. destruct (shown _ _ so.1); [|done]. destruct (cache !! so.1) as [[size n]|] eqn:E; [|done]. injection Hv as <-. cbn. by apply Hcache in E as [_ ?]. }
    destruct (Hname _ _ Ev) as (nc & H1 & H2). destruct (Hname _ _ Hm) as (nc' & H3 & H4). rewrite <- Hv, H1 in H3. injection H3 as <-. apply Hnin. rewrite <- H2, H4. by apply elem_of_list_fmap_1. }
  assert (G : forall l acc sk0 ps skp, foldl (fun r pt => try acc := r in try os := tm_track_obs tracks pt.1 in
      try vs := nvm_views shots export_only cache (enumO os) in
      if (1 <? length vs)%nat then Ok (acc.1 ++ [NvmPoint pt.2.1 pt.2.2 vs], acc.2) else Ok (acc.1, (acc.2 + 1)%Z)) (Ok (acc, sk0)) l = Ok (ps, skp) ->
    exists kept nps, ps = acc ++ nps /\ kept `sublist_of` l /\ (skp = sk0 + Z.of_nat (length l) - Z.of_nat (length nps))%Z /\
      (forall pt, pt ∈ l -> pt ∈ kept <-> exists os, tm_track_obs tracks pt.1 = Ok os /\ (1 < length (omap (view_of shots export_only cache) (enumO os)))%nat) /\
      Forall2 (fun pt np => exists os, tm_track_obs tracks pt.1 = Ok os /\ np = NvmPoint pt.2.1 pt.2.2 (omap (view_of shots export_only cache) (enumO os))) kept nps).
  { clear -Hhas. induction l as [|pt l IH]; intros acc sk0 ps skp H; cbn [foldl] in H.
    - injection H as <- <-. exists [], []. rewrite app_nil_r. split; [done|]. split; [done|]. split; [cbn; lia|]. split; [|constructor]. intros pt Hpt. by apply elem_of_nil in Hpt.
    - cbn [res_bind fst snd] in H. 
      assert (Herr : forall (F : res (list nvm_point * Z) -> string * (vec * color) -> res (list nvm_point * Z)) e l, (forall e pt, F (Err e) pt = Err e) -> foldl F (Err e) l = Err e).
      { clear. intros F e l HF. induction l as [|a l IH]; [done|]. cbn. by rewrite HF. }
      destruct (tm_track_obs tracks pt.1) as [os|] eqn:Eo; [|cbn [res_bind] in H; rewrite Herr in H; done]. cbn [res_bind] in H. rewrite nvm_views_spec in H by done. cbn [res_bind] in H.
      destruct (1 <? length (omap (view_of shots export_only cache) (enumO os)))%nat eqn:El.
      + apply IH in H as (kept & nps & -> & Hsub & -> & Hk & HF). exists (pt :: kept), (NvmPoint pt.2.1 pt.2.2 (omap (view_of shots export_only cache) (enumO os)) :: nps).
        split; [by rewrite <- app_assoc|]. split; [by constructor|]. split; [cbn [length]; lia|]. split.
        * intros pt' Hpt'. rewrite elem_of_cons. apply elem_of_cons in Hpt' as [->|Hpt'].
          -- split; [|by left]. intros _. exists os. split; [done|]. by apply Nat.ltb_lt.
          -- rewrite (Hk pt' Hpt'). split; [|by right]. intros [->|H]; [|done]. exists os. split; [done|]. by apply Nat.ltb_lt.
        * constructor; [by exists os|done].
      + apply IH in H as (kept & nps & -> & Hsub & -> & Hk & HF). exists kept, nps. split; [done|]. split; [by constructor|]. split; [cbn [length]; lia|]. split; [|done].
        intros pt' Hpt'. apply elem_of_cons in Hpt' as [->|Hpt']; [|by apply Hk].
        split.
        * intros Hin. apply Hk; [|done]. by eapply elem_of_submseteq; [exact Hin|apply sublist_submseteq].
        * intros (os' & Hos' & Hl). rewrite Eo in Hos'. injection Hos' as <-. apply Nat.ltb_ge in El. lia. }
  apply G in Ep as (kept & nps & -> & Hsub & -> & Hk & HF). rewrite app_nil_l. split; [lia|]. exists kept. split; [done|]. split.
  - intros pt Hpt. rewrite (Hk pt Hpt). unfold seen_twice. split.
    + intros (os & Hos & Hl). rewrite view_of_length in Hl by done.
      rewrite <- (fmap_length fst) in Hl. apply two_elements in Hl as (a & b & Hab & Ha & Hb).
      * exists a, b. split; [done|].
        assert (Hx : forall k, k ∈ (filter (fun so => shown shots export_only so.1 = true) (enumO os)).*1 -> wanted k /\ k ∈ shots.*1 /\ exists o, observed_in tracks pt.1 k o).
        { intros k Hk'. apply elem_of_list_fmap in Hk' as ([k' o] & -> & Hin). apply elem_of_list_filter in Hin as [Hs Hin]. apply Hshown in Hs as [Hw Hi]. cbn in Hw, Hi |- *.
          split; [done|]. split; [done|]. exists o, os. split; [done|]. rewrite (HE os) in Hin. by apply elem_of_map_to_list. }
        split; by apply Hx.
      * apply NoDup_fst_filter. rewrite (HE os). apply NoDup_fst_map_to_list.
    + intros (a & b & Hab & (Hwa & Hia & oa & os & Hos & Hoa) & (Hwb & Hib & ob & os' & Hos' & Hob)). rewrite Hos in Hos'. injection Hos' as <-. exists os. split; [done|].
      rewrite view_of_length by done. rewrite <- (fmap_length fst). apply two_elements.
      * apply NoDup_fst_filter. rewrite (HE os). apply NoDup_fst_map_to_list.
      * exists a, b. split; [done|].
        assert (Hx : forall k o, wanted k -> k ∈ shots.*1 -> os !! k = Some o -> k ∈ (filter (fun so => shown shots export_only so.1 = true) (enumO os)).*1).
        { intros k o Hw Hi Ho. apply elem_of_list_fmap. exists (k, o). split; [done|]. apply elem_of_list_filter. split; [by apply Hshown|]. rewrite (HE os). by apply elem_of_map_to_list. }
        split; [by apply (Hx a oa)|by apply (Hx b ob)].
  - eapply Forall2_impl; [exact HF|]. intros [id [X col]] np (os & Hos & ->). cbn [fst snd np_position np_color np_views] in *. split; [done|]. split; [apply HN2|].
    intros v. rewrite elem_of_list_omap. split.
    + intros ([k o] & Hko & Hv). unfold view_of in Hv. cbn [fst snd] in Hv. destruct (shown shots export_only k) eqn:Esh; [|done].
      destruct (cache !! k) as [[size n]|] eqn:Ec; [|done]. apply Hcache in Ec as (-> & nc & Hn & Hname). injection Hv as <-. cbn. exists k, nc, o.
      split; [done|]. split; [done|]. split; [exists os; split; [done|]; rewrite (HE os) in Hko; by apply elem_of_map_to_list|]. split; [done|]. split; lra.
    + intros (image & nc & o & Hn & Hname & (os' & Hos' & Ho) & Hfe & Hx & Hy). rewrite Hos in Hos'. injection Hos' as <-. exists (image, o). split; [rewrite (HE os); by apply elem_of_map_to_list|].
      unfold view_of. cbn [fst snd].
      assert (Hsh : shown shots export_only image = true).
      { apply Hshown. destruct (Forall2_lookup_r _ _ _ _ _ Hnew Hn) as (sh & Hsh & Hname' & _). apply elem_of_list_lookup_2, elem_of_list_filter in Hsh as [Hs Hin].
        rewrite <- Hname, Hname'. split; [by apply wanted_selected|by apply elem_of_list_fmap_1]. }
      rewrite Hsh. assert (Ec : cache !! image = Some (image_size image, nv_camera v)) by (apply Hcache; split; [done|by exists nc]). rewrite Ec. f_equal. destruct v. cbn in *. subst. f_equal; lra.
Qed.
End Export.

(** The export succeeds as soon as no wanted camera is a brown or a spherical one, poses are rotations and every point has a track. *)
Theorem C73_succeeds eigh enumO shots image_size export_only tracks points wp : NoDup (shots.*1) -> (forall M, rotation M -> diagonalises eigh (davenport M)) ->
  (forall id c p, (id, (c, p)) ∈ shots -> made c /\ cam_type c <> BROWN /\ cam_type c <> SPHERICAL /\ valid p) ->
  (forall pt, pt ∈ points -> exists l, tm_track_obs tracks pt.1 = Ok l) ->
  exists f, export_nvm eigh enumO shots image_size export_only tracks points wp = Ok f.
Proof.
  intros HN HD HC HP. unfold export_nvm.
  destruct (nvm_shots_ok eigh image_size export_only shots ([], 0%nat, ∅, 0%Z)) as [[[[lines i] cache] sk] Es].
  { intros [id [c p]] Hin _. cbn [fst snd]. destruct (HC _ _ _ Hin) as (Hm & Hb & Hsp & HR & _). split.
    - destruct (C73_quaternion eigh (w_rot p) HR (HD _ HR)) as (q & Hq & _). by exists q.
    - apply CamProofs.made_shape in Hm. destruct (proj2 (CamProofs.has_param c Focal Hm)) as [f Hf].
      { destruct Hm as (-> & _). destruct (cam_type c); try done; cbn; repeat first [apply elem_of_list_here | apply elem_of_list_further]. }
      exists f. unfold nvm_focal. by destruct (cam_type c). }
  rewrite Es. cbn [res_bind]. destruct wp; [|by eexists].
  apply nvm_shots_spec in Es as (_ & _ & _ & Hc2); [|done].
  assert (Hhas : forall k, shown shots export_only k = true -> is_Some (cache !! k)).
  { intros k Hk. unfold shown in Hk. apply andb_true_iff in Hk as [Hw Hin]. apply bool_decide_eq_true in Hin. apply elem_of_list_fmap in Hin as (sh & -> & Hin).
    assert (Hin' : sh ∈ chosen export_only shots) by (by apply elem_of_list_filter).
    apply elem_of_list_lookup in Hin' as [m Hm]. rewrite (Hc2 _ _ Hm). by eexists. }
  unfold nvm_points. generalize (Z.of_nat (length points)) as n. intros n. generalize (([], 0%Z) : list nvm_point * Z). induction points as [|pt points IH]; intros acc; [by eexists|]. cbn [foldl res_bind].
  destruct (HP pt) as [l Hl]; [by left|]. rewrite Hl. cbn [res_bind]. rewrite nvm_views_spec by done. cbn [res_bind].
  destruct (1 <? _)%nat; apply IH; intros pt' H'; apply HP; by right.
Qed.

(** Read as pixels from the corner of the image, the coordinates written for a view are the ones of the observation only if the image is
    square: OpenSfM's coordinates are divided by the longest side, the export multiplies by each side. *)
Definition pixel_of (size : Z * Z) (x y : R) : R * R :=
  (IZR (Z.max size.1 size.2) * x + IZR size.2 / 2, IZR (Z.max size.1 size.2) * y + IZR size.1 / 2).
Theorem C73_square (n : Z) x y : (IZR n * (x + 1 / 2), IZR n * (y + 1 / 2)) = pixel_of (n, n) x y.
Proof. unfold pixel_of. cbn [fst snd]. rewrite Z.max_id. f_equal; field. Qed.
Theorem C73_not_square_refuted height width x y : (0 < height < width)%Z -> y <> 0 ->
  (IZR width * (x + 1 / 2), IZR height * (y + 1 / 2)) <> pixel_of (height, width) x y.
Proof.
  intros H Hy E. unfold pixel_of in E. cbn [fst snd] in E. rewrite Z.max_r in E by lia. injection E as _ E.
  assert (E2 : (IZR width - IZR height) * y = 0) by lra. apply Rmult_integral in E2 as [E2|E2]; [|done]. destruct H as [_ H]. apply IZR_lt in H. lra.
Qed.
(** A wanted brown camera makes the export fail. *)
Theorem C73_brown_refuted eigh enumO shots image_size tracks points wp id c p : (id, (c, p)) ∈ shots -> cam_type c = BROWN ->
  exists e, export_nvm eigh enumO shots image_size None tracks points wp = Err e.
Proof.
  intros Hin Ht. unfold export_nvm. generalize (([], 0%nat, ∅, 0%Z) : list nvm_camera * nat * gmap string (Z * Z * nat) * Z).
  assert (G : forall l st, (id, (c, p)) ∈ l -> exists e, nvm_shots eigh image_size None st l = Err e).
  { clear Hin. induction l as [|[id' [c' p']] l IH]; intros [[[lines i] cache] sk] Hin; [by apply elem_of_nil in Hin|]. cbn [nvm_shots]. unfold nvm_shot_step.
    cbn [selected]. apply elem_of_cons in Hin as [[= <- <- <-]|Hin].
    - destruct (quaternion_from_matrix eigh (w_rot p)); cbn [res_bind]; [|by eexists]. unfold nvm_focal. rewrite Ht. by eexists.
    - destruct (quaternion_from_matrix eigh (w_rot p')); cbn [res_bind]; [|by eexists]. destruct (nvm_focal c'); cbn [res_bind]; [|by eexists]. by apply IH. }
  intros st. destruct (G shots st Hin) as [e ->]. by exists e.
Qed.

(** A concrete case: the quaternion of the identity, from a diagonalisation of its matrix diag(-1, -1, -1, 3) / 3. *)
Definition eigh_I (k : lower4) : list (R * vec4) :=
  [(-1 / 3, Vec4 1 0 0 0); (-1 / 3, Vec4 0 1 0 0); (-1 / 3, Vec4 0 0 1 0); (1, Vec4 0 0 0 (-1))].
Example C73_concrete : rotation mI /\ diagonalises eigh_I (davenport mI) /\ quaternion_from_matrix eigh_I mI = Ok (Vec4 (- -1) (- 0) (- 0) (- 0)).
Proof.
  split; [apply rotation_I|]. split.
  - assert (HK : davenport mI = Lower4 (-1 / 3) 0 (-1 / 3) 0 0 (-1 / 3) 0 0 0 1) by (unfold davenport, mI; cbn; f_equal; field).
    rewrite HK. split.
    + intros w v Hin. unfold eigh_I in Hin. unfold unit4, eigenpair, sym_apply.
      repeat (apply elem_of_cons in Hin as [[= -> ->]|Hin]; [cbn; split; [ring|f_equal; ring]|]). by apply elem_of_nil in Hin.
    + intros w [a b c d] Hu Hv. unfold unit4, eigenpair, sym_apply in *. cbn in *. injection Hv as V1 V2 V3 V4.
      destruct (Req_EM_T w 1) as [->|Hw]; [set_solver|]. destruct (Req_EM_T w (-1 / 3)) as [->|Hw']; [set_solver|]. exfalso.
      assert (a = 0) by nra. assert (b = 0) by nra. assert (c = 0) by nra. assert (d = 0) by nra. subst. lra.
  - unfold quaternion_from_matrix, argmax, eigh_I. cbn [foldl fst snd].
    repeat (match goal with |- context [Rlt_dec ?a ?b] => destruct (Rlt_dec a b); try lra end; cbn [fst snd of_option res_bind q0 q1 q2 q3]). done.
Qed.
Definition cam_a : camera := create_perspective 1 0 0.
Example C73_concrete_file : exists f, export_nvm eigh_I map_to_list [("a", (cam_a, pose0)); ("b", (cam_a, pose0)); ("c", (cam_a, pose0))] (fun _ => (10, 20)%Z) (Some {["a"; "b"]})
    (tm_add (tm_add tm_empty "a" "p" (Obs 0 0 1 0 0 0 5 (-1) (-1) None)) "b" "p" (Obs 0 0 1 0 0 0 6 (-1) (-1) None)) [("p", (Vec 0 0 2, (1, 2, 3)%Z))] true = Ok f /\
  nf_num_cameras f = 2%Z /\ nf_num_points f = 1%Z.
Proof.
  unfold export_nvm. set (only := Some _).
  assert (Sa : selected only "a" = true) by (vm_compute; reflexivity). assert (Sb : selected only "b" = true) by (vm_compute; reflexivity).
  assert (Sc : selected only "c" = false) by (vm_compute; reflexivity).
  cbn [nvm_shots]. unfold nvm_shot_step. rewrite Sa. change (w_rot pose0) with mI. destruct C73_concrete as (_ & _ & Hq). rewrite Hq. cbn [res_bind].
  change (nvm_focal cam_a) with (Ok 1). cbn [res_bind]. rewrite Sb, Sc. cbn [res_bind app].
  unfold nvm_points. cbn [foldl res_bind fst snd].
  match goal with |- context [tm_track_obs ?t ?k] => let x := eval vm_compute in (tm_track_obs t k) in change (tm_track_obs t k) with x end. cbn [res_bind].
  match goal with |- context [map_to_list ?t] => let x := eval vm_compute in (map_to_list t) in change (map_to_list t) with x end.
  cbn [nvm_views foldr res_bind fst snd]. rewrite Sa, Sb. 
  match goal with |- context [bool_decide (?x ∈ ?l)] => replace (bool_decide (x ∈ l)) with true by (vm_compute; reflexivity) end.
  match goal with |- context [bool_decide (?x ∈ ?l)] => replace (bool_decide (x ∈ l)) with true by (vm_compute; reflexivity) end.
  eexists. split; [vm_compute; reflexivity|]. split; reflexivity.
Qed.
Print Assumptions C73_quaternion. Print Assumptions C73_cameras. Print Assumptions C73_points. Print Assumptions C73_succeeds.
Print Assumptions C73_square. Print Assumptions C73_not_square_refuted. Print Assumptions C73_brown_refuted.
