(** Properties of the calibration of rigs. *)
From stdpp Require Import prelude strings gmap.
From Coq Require Import Reals Lra Lia.
From Verif Require Import Base Lin RotModel RotProofs PoseModel PoseSpec PoseProofs RigModel RigSpec RigProofs RigCalModel RigCalSpec RigCalProofs.
Local Open Scope R_scope.

(** Calibrated from one instance, the rig cameras describe it *)
Theorem C98_one_instance : forall instance, proper instance -> describes (compute_relative_pose [instance]) instance.
Proof.
  intros i [Hn Hv]. set (m := list_to_map ((fun s => (s.2, s.1)) <$> i) : gmap string pose). set (rel := fun c => relative_to (default pose0 (m !! c)) (instance_frame i.*1)).
  assert (forall p c, (p, c) ∈ i -> relative_to p (instance_frame i.*1) = rel c) as Hrel by (intros p c Hp; unfold rel, m; by rewrite (lookup_pose i p c Hn Hp)).
  eapply (describes_same rel _ i (instance_frame i.*1)); [apply frame_valid|]. intros p c Hp. split; [by eapply Hv|]. split; [by apply Hrel|].
  eapply (compute_same rel); [|left|exact Hp]. intros j q d ->%elem_of_list_singleton Hq. split; [|by apply Hrel]. rewrite <- (Hrel q d Hq). apply valid_relative; [by eapply Hv|apply frame_valid].
Qed.
(** The rig cameras are centred *)
Lemma relative_origin p f : valid p -> valid f -> get_origin (relative_to p f) = mvec (w_rot f) (vadd (get_origin p) (vopp (get_origin f))).
Proof.
  intros Hp Hf. pose proof (valid_relative p f Hp Hf) as Hr. destruct Hr as (Hrot & _ & E). unfold get_origin at 1. rewrite E. unfold relative_to. cbn [w_rot w_tr from_world_to_cam]. rewrite (w_tr_origin p Hp).
  destruct Hf as (Hf & Ef & _). destruct Hp as (Hp & _). rewrite Ef, mT_mmul. assert (forall m, mT (mT m) = m) as -> by (intros []; done). fold (get_origin f). rewrite mvec_mmul.
  assert (forall a b, vadd (mvec (w_rot p) a) (vopp (mvec (w_rot p) b)) = mvec (w_rot p) (vadd a (vopp b))) as E1 by (generalize (w_rot p); clear; vring). rewrite E1.
  rewrite <- (mvec_mmul (mT (w_rot p))), (rotation_l _ Hp), mvec_I. generalize (get_origin p), (get_origin f), (w_rot f). clear. vring.
Qed.
Theorem C98_centred : forall instance, proper instance -> instance <> [] -> vsum ((fun c => get_origin (default pose0 (compute_relative_pose [instance] !! c))) <$> instance.*2) = v0.
Proof.
  intros i [Hn Hv] Hne. set (m := list_to_map ((fun s => (s.2, s.1)) <$> i) : gmap string pose). set (rel := fun c => relative_to (default pose0 (m !! c)) (instance_frame i.*1)).
  assert (forall p c, (p, c) ∈ i -> relative_to p (instance_frame i.*1) = rel c) as Hrel by (intros p c Hp; unfold rel, m; by rewrite (lookup_pose i p c Hn Hp)).
  assert (forall p c, (p, c) ∈ i -> compute_relative_pose [i] !! c = Some (relative_to p (instance_frame i.*1))) as Hc.
  { intros p c Hp. rewrite (Hrel p c Hp). eapply (compute_same rel); [|left|exact Hp]. intros j q d ->%elem_of_list_singleton Hq. split; [|by apply Hrel]. rewrite <- (Hrel q d Hq). apply valid_relative; [by eapply Hv|apply frame_valid]. }
  assert ((fun c => get_origin (default pose0 (compute_relative_pose [i] !! c))) <$> i.*2 = (fun s => mvec (w_rot (instance_frame i.*1)) (vadd (get_origin s.1) (vopp (get_origin (instance_frame i.*1))))) <$> i) as ->.
  { rewrite <- list_fmap_compose. apply map_ext_in. intros [p c] Hp%elem_of_list_In. change (get_origin (default pose0 (compute_relative_pose [i] !! c)) = mvec (w_rot (instance_frame i.*1)) (vadd (get_origin p) (vopp (get_origin (instance_frame i.*1))))). rewrite (Hc p c Hp). cbn [default from_option Datatypes.id]. apply relative_origin; [by eapply Hv|apply frame_valid]. }
  assert (forall R o (l : list (pose * string)), vsum ((fun s => mvec R (vadd (get_origin s.1) (vopp o))) <$> l) = mvec R (vadd (vsum (get_origin <$> l.*1)) (vopp (vscale (INR (length l)) o)))) as ->.
  { clear. intros R o l. induction l as [|s l IH]; [cbn; revert R o; vring|]. cbn [fmap list_fmap length]. rewrite !vsum_cons, IH, vscale_S. generalize (vsum (get_origin <$> l.*1)), (vscale (INR (length l)) o), (get_origin s.1). clear. revert R o; vring. }
  assert (get_origin (instance_frame i.*1) = vscale (/ INR (length i.*1)) (vsum (get_origin <$> i.*1))) as -> by (unfold instance_frame; cbn zeta; apply set_origin_spec, vector_valid).
  rewrite fmap_length. assert (INR (length i) <> 0) as Hl by (apply not_0_INR; destruct i; [done|cbn; lia]). generalize (vsum (get_origin <$> i.*1)), (w_rot (instance_frame i.*1)). intros [x y z] R. 
  assert (vadd (Vec x y z) (vopp (vscale (INR (length i)) (vscale (/ INR (length i)) (Vec x y z)))) = v0) as -> by (unfold vadd, vopp, vscale, v0; cbn [vx vy vz]; f_equal; field; done). revert R. clear. vring.
Qed.
(** and so they do all instances of a rig that moves without turning *)
Theorem C98_moving_rig : forall instances reference, proper reference -> reference <> [] ->
  (forall i, i ∈ instances -> (forall p c, (p, c) ∈ i -> valid p) /\ exists d, moved d reference i) ->
  forall i, i ∈ instances -> describes (compute_relative_pose instances) i.
Proof.
  intros instances ref [Hn Hv] Hne Hall. set (m := list_to_map ((fun s => (s.2, s.1)) <$> ref) : gmap string pose). set (rel := fun c => relative_to (default pose0 (m !! c)) (instance_frame ref.*1)).
  assert (forall i q c, i ∈ instances -> (q, c) ∈ i -> valid q /\ relative_to q (instance_frame i.*1) = rel c /\ valid (rel c)) as Hrel.
  { intros i q c Hi Hq. destruct (Hall i Hi) as (Hvi & d & Hm). split; [by eapply Hvi|]. pose proof Hq as Hq'. apply elem_of_list_lookup in Hq' as [k Hk]. destruct (Forall2_lookup_r _ _ _ _ _ Hm Hk) as ([p e] & Hp & E1 & E2 & E3). cbn in E1, E2, E3. subst e. apply elem_of_list_lookup_2 in Hp.
    assert (relative_to q (instance_frame i.*1) = rel c) as E by (unfold rel, m; rewrite (lookup_pose ref p c Hn Hp); cbn; eapply (moved_relative d ref i p q); try done; [by eapply Hv|by eapply Hvi]).
    split; [done|]. rewrite <- E. apply valid_relative; [by eapply Hvi|apply frame_valid]. }
  intros i Hi. eapply (describes_same rel _ i (instance_frame i.*1)); [apply frame_valid|]. intros p c Hp. destruct (Hrel i p c Hi Hp) as (H1 & H2 & H3). split; [done|]. split; [done|].
  eapply (compute_same rel); [|exact Hi|exact Hp]. intros j q d Hj Hq. destruct (Hrel j q d Hj Hq) as (G1 & G2 & G3). done.
Qed.

(** but not those of a rig that turns: two cameras that turn together about the vertical, without any error *)
Definition turned : list (list (pose * string)) := [[(zpose 0, "left"); (zpose (PI / 2), "right")]; [(zpose (3 * PI / 4), "left"); (zpose (- (3 * PI / 4)), "right")]].
Lemma turned_result : compute_relative_pose turned !! "left" = Some (zpose (PI / 4)) /\ compute_relative_pose turned !! "right" = Some (zpose (- (PI / 4))).
Proof.
  pose proof PI_RGT_0 as Hpi. assert (centered <$> turned = [[(zpose (- (PI / 4)), "left"); (zpose (PI / 4), "right")]; [(zpose (3 * PI / 4), "left"); (zpose (- (3 * PI / 4)), "right")]]) as E.
  { assert (forall a b c d, - PI < a < PI -> - PI < b < PI -> centered [(zpose a, c); (zpose b, d)] = [(zpose ((a - b) / 2), c); (zpose ((b - a) / 2), d)]) as H.
    { intros a b c d Ha Hb. assert (instance_frame [zpose a; zpose b] = zpose ((a + b) / 2)) as Ef.
      { unfold instance_frame. cbn [fmap list_fmap length]. rewrite !z_origin, !z_rotation by done. unfold vsum. cbn [foldl]. 
        assert (vscale (/ INR 2) (vadd (vadd v0 v0) v0) = v0) as -> by vring. assert (vscale (/ INR 2) (vadd (vadd v0 (Vec 0 0 a)) (Vec 0 0 b)) = Vec 0 0 ((a + b) / 2)) as -> by (unfold vscale, vadd, v0; cbn; f_equal; field). apply z_frame. }
      unfold centered. cbn [fmap list_fmap fst snd]. rewrite Ef, !z_relative. by replace (a - (a + b) / 2) with ((a - b) / 2) by field; replace (b - (a + b) / 2) with ((b - a) / 2) by field. }
    unfold turned. cbn [fmap list_fmap]. rewrite !H by lra.
    replace ((0 - PI / 2) / 2) with (- (PI / 4)) by field. replace ((PI / 2 - 0) / 2) with (PI / 4) by field. replace ((3 * PI / 4 - - (3 * PI / 4)) / 2) with (3 * PI / 4) by field. by replace ((- (3 * PI / 4) - 3 * PI / 4) / 2) with (- (3 * PI / 4)) by field. }
  unfold compute_relative_pose. rewrite E, !lookup_fmap. cbn [foldl]. unfold add_pose. cbn [fst snd]. rewrite !z_origin, !z_rotation by lra.
  rewrite lookup_empty. cbn [default from_option]. rewrite lookup_insert_ne, lookup_empty by done. cbn [default from_option]. rewrite lookup_insert_ne, lookup_insert by done. cbn [default from_option Datatypes.id]. rewrite lookup_insert_ne, lookup_insert by done. cbn [default from_option Datatypes.id].
  rewrite lookup_insert, lookup_insert_ne, lookup_insert by done. cbn [fmap option_fmap option_map mean_pose].
  assert (forall a b, set_origin (pose_of_vector (vscale (/ INR 2) (vadd (vadd v0 (Vec 0 0 a)) (Vec 0 0 b))) v0) (vscale (/ INR 2) (vadd (vadd v0 v0) v0)) = zpose ((a + b) / 2)) as H.
  { intros a b. assert (vscale (/ INR 2) (vadd (vadd v0 v0) v0) = v0) as -> by vring. assert (vscale (/ INR 2) (vadd (vadd v0 (Vec 0 0 a)) (Vec 0 0 b)) = Vec 0 0 ((a + b) / 2)) as -> by (unfold vscale, vadd, v0; cbn; f_equal; field). apply z_frame. }
  rewrite !H. split; do 2 f_equal; field.
Qed.
Theorem C98_turning_rig_refuted : exists i1 i2 : list (pose * string), proper i1 /\ proper i2 /\ i1.*2 = i2.*2 /\
  (forall p1 p2 q1 q2 c1 c2, (p1, c1) ∈ i1 -> (p2, c2) ∈ i1 -> (q1, c1) ∈ i2 -> (q2, c2) ∈ i2 -> relative_to p1 p2 = relative_to q1 q2) /\
  ~ describes (compute_relative_pose [i1; i2]) i1 /\ ~ describes (compute_relative_pose [i1; i2]) i2.
Proof.
  pose proof PI_RGT_0 as Hpi. exists [(zpose 0, "left"); (zpose (PI / 2), "right")], [(zpose (3 * PI / 4), "left"); (zpose (- (3 * PI / 4)), "right")].
  assert (forall a b, proper [(zpose a, "left"); (zpose b, "right")]) as Hp.
  { intros a b. split; [cbn; repeat constructor; set_solver|]. intros p c. rewrite !elem_of_cons, elem_of_nil. intros [[= -> ->]|[[= -> ->]|[]]]; apply vector_valid. }
  assert (forall a b, w_rot (zpose a) = w_rot (zpose b) -> cos a = cos b /\ sin a = sin b) as Hw.
  { intros a b. unfold zpose, pose_of_vector. cbn [w_rot from_world_to_cam]. rewrite !about_z. unfold rotation_about_z. intros [=]. done. }
  assert (forall a b, cos a = cos b -> sin a = sin b -> zpose a = zpose b) as Hz.
  { intros a b E1 E2. unfold zpose, pose_of_vector. rewrite !about_z. unfold rotation_about_z. by rewrite E1, E2. }
  assert (zpose (3 * PI / 4 - - (3 * PI / 4)) = zpose (0 - PI / 2)) as E1.
  { apply Hz; replace (3 * PI / 4 - - (3 * PI / 4)) with (0 - PI / 2 + 2 * PI) by field; [by rewrite cos_2PI_add || (rewrite cos_plus, cos_2PI, sin_2PI; ring)|rewrite sin_plus, cos_2PI, sin_2PI; ring]. }
  assert (zpose (- (3 * PI / 4) - 3 * PI / 4) = zpose (PI / 2 - 0)) as E2.
  { apply Hz; replace (- (3 * PI / 4) - 3 * PI / 4) with (PI / 2 - 0 - 2 * PI) by field; [rewrite cos_minus, cos_2PI, sin_2PI; ring|rewrite sin_minus, cos_2PI, sin_2PI; ring]. }
  assert (forall a b, relative_to (zpose (PI / 4)) (zpose (- (PI / 4))) <> relative_to (zpose a) (zpose b) \/ cos (a - b) <> 0 \/ sin (a - b) <> -1) as Hd.
  { intros a b. destruct (Req_EM_T (sin (a - b)) (-1)) as [Hs|Hs]; [left|by right; right]. rewrite !z_relative. intros E. apply (f_equal w_rot), Hw in E as [_ E]. replace (PI / 4 - - (PI / 4)) with (PI / 2) in E by field. rewrite sin_PI2 in E. lra. }
  destruct turned_result as [R1 R2]. fold turned.
  assert (forall a b, cos (a - b) = 0 -> sin (a - b) = -1 -> ~ describes (compute_relative_pose turned) [(zpose a, "left"); (zpose b, "right")]) as Hnot.
  { intros a b Hc Hs H. destruct (H (zpose a) "left" (zpose b) "right") as (q1 & q2 & G1 & G2 & _ & _ & G); [left|right; left|]. rewrite R1 in G1. rewrite R2 in G2. apply (stdpp.base.inj Some) in G1 as <-. apply (stdpp.base.inj Some) in G2 as <-. destruct (Hd a b) as [Hd'|[Hd'|Hd']]; done. }
  split; [apply Hp|]. split; [apply Hp|]. split; [done|]. split; [|split].
  - intros p1 p2 q1 q2 c1 c2. rewrite !elem_of_cons, !elem_of_nil. intros [[= -> ->]|[[= -> ->]|[]]] [[= -> ->]|[[= -> ->]|[]]] [[= ->]|[[= ->]|[]]] [[= ->]|[[= ->]|[]]]; rewrite !z_relative; try done; f_equal; ring.
  - apply Hnot; replace (0 - PI / 2) with (- (PI / 2)) by ring; rewrite ?cos_neg, ?sin_neg, ?cos_PI2, ?sin_PI2; ring.
  - apply Hnot; replace (3 * PI / 4 - - (3 * PI / 4)) with (- (PI / 2) + 2 * PI) by field; rewrite ?cos_plus, ?sin_plus, cos_2PI, sin_2PI, cos_neg, sin_neg, cos_PI2, sin_PI2; ring.
Qed.

(** The rig cameras of a reconstruction: those with an instance all of whose shots are reconstructed. Each is calibrated from one group of instances with the same rig cameras, the largest *)
Theorem C98_cameras : forall shots instances c, is_Some (create_rig_cameras_from_reconstruction shots instances !! c) <-> exists i s, i ∈ instances /\ complete shots i /\ (s, c) ∈ i.
Proof. exact cameras_dom. Qed.
Theorem C98_largest_group : forall shots instances c q, create_rig_cameras_from_reconstruction shots instances !! c = Some q ->
  exists k groups, Forall2 (poses_of shots) (filter (Forall (fun s => is_Some (shots !! s.1))) (with_key k instances)) groups /\ compute_relative_pose groups !! c = Some q /\
    forall j s, j ∈ instances -> complete shots j -> (s, c) ∈ j -> (length (with_key (group_key j) instances) <= length (with_key k instances))%nat.
Proof.
  intros shots instances c q (k & Hq & Hk)%cameras_found. exists k, (omap (instance_poses shots) (with_key k instances)). split; [|done].
  generalize (with_key k instances). intros l. induction l as [|i l IH]; [constructor|]. rewrite filter_cons. cbn [omap list_omap].
  destruct (instance_poses shots i) as [p|] eqn:E.
  - rewrite decide_True; [constructor; [by apply poses_some|exact IH]|]. assert (complete shots i) as Hc by (apply poses_complete; by exists p). apply Forall_forall. intros [s' c'] Hs. by apply (Hc s' c').
  - rewrite decide_False; [exact IH|]. intros Hc. assert (is_Some (instance_poses shots i)) as [x Hx]; [|by rewrite Hx in E]. apply poses_complete. intros s c' Hs. by apply (proj1 (Forall_forall _ _) Hc (s, c')).
Qed.
Print Assumptions C98_turning_rig_refuted.

(** A rig that moves without turning is calibrated from its instances, if no other group has its rig cameras *)
Theorem C98_calibrated : forall shots instances k reference, proper reference -> reference <> [] ->
  (forall i p, i ∈ instances -> group_key i = k -> poses_of shots i p -> (forall q c, (q, c) ∈ p -> valid q) /\ exists d, moved d reference p) ->
  (forall i j s t c, i ∈ instances -> j ∈ instances -> (s, c) ∈ i -> (t, c) ∈ j -> group_key i = k -> group_key j = k) ->
  forall i p, i ∈ instances -> group_key i = k -> poses_of shots i p -> describes (create_rig_cameras_from_reconstruction shots instances) p.
Proof.
  intros shots instances k ref Hp Hne Hm Hk i p Hi Hki Hpi. set (group := omap (instance_poses shots) (with_key k instances)).
  assert (forall x, x ∈ group -> exists j, j ∈ instances /\ group_key j = k /\ poses_of shots j x) as Hg.
  { intros x Hx. unfold group in Hx. apply elem_of_list_omap in Hx as (j & Hj & E). apply elem_of_list_filter in Hj as [Hj1 Hj2]. exists j. split; [done|]. split; [done|]. by apply poses_some. }
  assert (p ∈ group) as Hpg by (apply elem_of_list_omap; exists i; split; [by apply elem_of_list_filter|by apply poses_some]).
  assert (describes (compute_relative_pose group) p) as Hd.
  { apply (C98_moving_rig group ref Hp Hne); [|done]. intros x Hx. destruct (Hg x Hx) as (j & Hj & Hkj & Hpj). by apply (Hm j x). }
  assert (forall q c, (q, c) ∈ p -> create_rig_cameras_from_reconstruction shots instances !! c = compute_relative_pose group !! c) as Hc.
  { intros q c Hq. destruct (poses_elem_r _ _ _ _ _ Hpi Hq) as (s & Hs & _). assert (complete shots i) as Hci by (apply poses_complete; exists p; by apply poses_some).
    assert (is_Some (create_rig_cameras_from_reconstruction shots instances !! c)) as [y Hy] by (apply cameras_dom; by exists i, s). rewrite Hy. apply cameras_found in Hy as (k' & Hy & _). rewrite <- Hy. unfold group. 
    assert (is_Some (compute_relative_pose (omap (instance_poses shots) (with_key k' instances)) !! c)) as H by by rewrite Hy.
    apply group_cameras in H as (j & t & Hj & _ & Ht). apply elem_of_list_filter in Hj as [Hj1 Hj2]. by rewrite <- (Hk i j s t c Hi Hj2 Hs Ht Hki), Hj1. }
  intros p1 c1 p2 c2 H1 H2. destruct (Hd p1 c1 p2 c2 H1 H2) as (q1 & q2 & L1 & L2 & H). exists q1, q2. by rewrite (Hc p1 c1 H1), (Hc p2 c2 H2).
Qed.

(** The rounds: the rig cameras saved are those of the first round, of at most max_rounds + 1, that calibrates all rig cameras and reconstructs enough of its instances *)
Lemma try_round_spec instances completeness r : proper_round r ->
  exists o, try_round instances completeness r = Ok o /\ (forall c, o = Some c <-> accepted instances completeness r c).
Proof.
  intros [Hn Hs]. unfold try_round, accepted. destruct (decide (length (r_images r) = 0%nat)) as [E|E].
  { exists None. split; [done|]. intros c. split; [done|]. intros [H _]. by destruct (r_images r). }
  assert (r_images r <> []) as Him by (intros E'; by rewrite E' in E). destruct (r_reconstructions r) as [|shots rest] eqn:Er.
  { exists None. split; [done|]. intros c. split; [done|]. intros (_ & ? & ? & ? & _). done. }
  assert (dom (create_rig_cameras_from_reconstruction shots instances) = (list_to_set (concat instances).*2 : gset string) <-> forall i s c, i ∈ instances -> (s, c) ∈ i -> exists j t, j ∈ instances /\ complete shots j /\ (t, c) ∈ j) as Hdom.
  { rewrite set_eq. split.
    - intros H i s c Hi Hc. apply cameras_dom. apply elem_of_dom. apply H. apply elem_of_list_to_set, elem_of_list_fmap. exists (s, c). split; [done|]. apply elem_of_concat. by exists i.
    - intros H c. rewrite elem_of_dom, cameras_dom, elem_of_list_to_set, elem_of_list_fmap. split.
      + intros (i & s & Hi & _ & Hc). exists (s, c). split; [done|]. apply elem_of_concat. by exists i.
      + intros ([s c'] & -> & (i & Hc & Hi)%elem_of_concat). by apply (H i s). }
  assert (count_reconstructed_instances (r_instances r) (elements (dom shots)) = Ok (Z.of_nat (length (filter (Forall (fun s => is_Some (shots !! s.1))) (r_instances r))))) as Hcount.
  { assert (mjoin (r_instances r) = concat (r_instances r)) as Ej by (generalize (r_instances r); intros l; induction l as [|x l IH]; [done|]; cbn; by rewrite <- IH).
    rewrite count_spec; [|by rewrite Ej|apply NoDup_elements]. rewrite decide_True.
    - do 3 f_equal. apply list_filter_iff. intros x. unfold fully_reconstructed. rewrite Forall_forall. split; intros H.
      + intros [s c] Hx. cbn [fst]. apply elem_of_dom, elem_of_elements. by apply (H s c).
      + intros s c Hx. apply elem_of_elements, elem_of_dom. by apply (H (s, c)).
    - apply Forall_forall. intros s Hx. rewrite Ej. apply (Hs shots); [left|]. by apply elem_of_dom, elem_of_elements. }
  cbv zeta. destruct (decide (dom _ = _)) as [Ed|Ed].
  - rewrite Hcount. cbn [res_bind]. rewrite <- INR_IZR_INZ. destruct (Rlt_dec _ _) as [Hl|Hl].
    + exists None. split; [done|]. intros c. split; [done|]. intros (_ & sh & re & [= <- <-] & _ & _ & H). lra.
    + exists (Some (create_rig_cameras_from_reconstruction shots instances)). split; [done|]. intros c. split.
      * intros [= <-]. split; [done|]. exists shots, rest. split; [done|]. split; [done|]. split; [by apply Hdom|lra].
      * intros (_ & sh & re & [= <- <-] & -> & _). done.
  - exists None. split; [done|]. intros c. split; [done|]. intros (_ & sh & re & [= <- <-] & _ & H & _). destruct Ed. by apply Hdom.
Qed.
Lemma run_spec instances completeness rounds : (forall n, proper_round (rounds n)) -> forall todo count,
  exists o, run_rounds instances completeness rounds count todo = Ok o /\
    match o with
    | Some c => exists n, (count <= n < count + todo)%nat /\ accepted instances completeness (rounds n) c /\ forall m, (count <= m < n)%nat -> forall c', ~ accepted instances completeness (rounds m) c'
    | None => forall m, (count <= m < count + todo)%nat -> forall c', ~ accepted instances completeness (rounds m) c'
    end.
Proof.
  intros Hr todo. induction todo as [|todo IH]; intros count; cbn [run_rounds]; [exists None; split; [done|]; lia|].
  destruct (try_round_spec instances completeness (rounds count) (Hr count)) as (o & -> & Ho). destruct o as [c|].
  - exists (Some c). split; [done|]. exists count. split; [lia|]. split; [by apply Ho|lia].
  - assert (forall c, ~ accepted instances completeness (rounds count) c) as Hno by (intros c H; by apply Ho in H). destruct (IH (S count)) as (o & -> & H). exists o. split; [done|]. destruct o as [c|].
    + destruct H as (n & Hn & Ha & Hm). exists n. split; [lia|]. split; [done|]. intros m Hm'. destruct (decide (m = count)) as [-> |]; [done|]. apply Hm. lia.
    + intros m Hm'. destruct (decide (m = count)) as [-> |]; [done|]. apply H. lia.
Qed.
Theorem C98_rounds : forall instances completeness max_rounds rounds, (exists i, i ∈ instances /\ i <> []) -> (forall n, proper_round (rounds n)) ->
  exists o, create_rigs instances completeness max_rounds rounds = Ok o /\
    match o with
    | Some c => exists n, (n <= max_rounds)%nat /\ accepted instances completeness (rounds n) c /\ forall m, (m < n)%nat -> forall c', ~ accepted instances completeness (rounds m) c'
    | None => forall m, (m <= max_rounds)%nat -> forall c', ~ accepted instances completeness (rounds m) c'
    end.
Proof.
  intros instances completeness max rounds (i & Hi & Hne) Hr. unfold create_rigs. destruct (run_spec instances completeness rounds Hr (max + 1) 0) as (o & -> & H). destruct o as [c|].
  - destruct H as (n & Hn & Ha & Hm). assert (c <> ∅) as Hc.
    { destruct Ha as (_ & shots & rest & _ & -> & Hall & _). destruct i as [|[s d] i]; [done|]. destruct (Hall ((s, d) :: i) s d Hi) as (j & t & Hj); [left|]. intros E. assert (is_Some (create_rig_cameras_from_reconstruction shots instances !! d)) as [x Hx] by (apply cameras_dom; by exists j, t). by rewrite E, lookup_empty in Hx. }
    exists (Some c). cbn [res_bind]. rewrite decide_False by done. split; [done|]. exists n. split; [lia|]. split; [done|]. intros m Hm'. apply Hm. lia.
  - exists None. split; [done|]. intros m Hm. apply H. lia.
Qed.
Print Assumptions C98_rounds.

(** Non-vacuity: two cameras, of which one looks back, at two places *)
Definition forward : pose := pose0.
Definition backward : pose := pose_of_vector (Vec 0 0 2) (Vec 1 0 0).
Definition place1 : list (pose * string) := [(forward, "front"); (backward, "back")].
Definition place2 : list (pose * string) := (fun s => (set_origin s.1 (vadd (get_origin s.1) (Vec 5 0 0)), s.2)) <$> place1.
Lemma places_valid p c : (p, c) ∈ place1 \/ (p, c) ∈ place2 -> valid p.
Proof.
  assert (valid forward /\ valid backward) as [H1 H2] by (split; apply built_valid; constructor). unfold place2, place1. cbn [fmap list_fmap fst snd]. rewrite !elem_of_cons, !elem_of_nil. intros [[[= -> ->]|[[= -> ->]|[]]]|[[= -> ->]|[[= -> ->]|[]]]]; try done; by apply set_origin_valid.
Qed.
Lemma places_moved : moved (Vec 5 0 0) place1 place2.
Proof.
  unfold place2. apply Forall2_fmap_r, Forall_Forall2_diag, Forall_forall. intros [p c] Hp. cbn [fst snd]. assert (valid p) as Hv by (eapply places_valid; by left). destruct (set_origin_spec p (vadd (get_origin p) (Vec 5 0 0)) Hv) as (H1 & H2 & _). done.
Qed.
Definition pictures : gmap string pose := {["f1" := forward]} ∪ {["b1" := backward]} ∪ {["f2" := set_origin forward (vadd (get_origin forward) (Vec 5 0 0))]} ∪ {["b2" := set_origin backward (vadd (get_origin backward) (Vec 5 0 0))]}.
Definition two_instances : list rig_instance := [[("f1", "front"); ("b1", "back")]; [("f2", "front"); ("b2", "back")]; [("f3", "front"); ("b3", "back")]].
Example C98_case : proper place1 /\ (forall i, i ∈ [place1; place2] -> (forall p c, (p, c) ∈ i -> valid p) /\ exists d, moved d place1 i) /\
  describes (compute_relative_pose [place1; place2]) place2 /\ relative_to backward forward <> pose0.
Proof.
  assert (proper place1) as Hp by (split; [cbn; repeat constructor; set_solver|]; intros p c H; eapply places_valid; by left).
  assert (forall i, i ∈ [place1; place2] -> (forall p c, (p, c) ∈ i -> valid p) /\ exists d, moved d place1 i) as Ha.
  { intros i. rewrite !elem_of_cons, elem_of_nil. intros [-> |[-> |[]]]; (split; [intros p c H; eapply places_valid; eauto|]).
    - exists v0. apply Forall_Forall2_diag, Forall_forall. intros [p c] _. split; [done|]. split; [done|]. by rewrite vadd_0_r.
    - exists (Vec 5 0 0). apply places_moved. }
  split; [done|]. split; [done|]. split; [apply (C98_moving_rig _ place1 Hp); [done|done|right; left]|]. intros H. apply (f_equal w_tr) in H. unfold relative_to, backward, forward, pose0, pose_of_vector in H. cbn [w_tr w_rot c_tr from_world_to_cam] in H.
  assert (inv_tr mI v0 = v0) as E by (unfold inv_tr; vring). rewrite E in H. assert (forall m, mvec m v0 = v0) as E' by (intros m; vring). rewrite E' in H. apply (f_equal vx) in H. cbn in H. lra.
Qed.
Example C98_case_rounds : let r := Round ["f1"; "b1"; "f2"; "b2"; "f3"; "b3"] two_instances [pictures] in proper_round r /\
  accepted two_instances (/ 2) r (create_rig_cameras_from_reconstruction pictures two_instances) /\ ~ accepted two_instances (9 / 10) r (create_rig_cameras_from_reconstruction pictures two_instances) /\
  exists c, create_rigs two_instances (/ 2) 2 (fun n => if decide (n = 1%nat) then r else Round [] [] []) = Ok (Some c).
Proof.
  intros r. assert (proper_round r) as Hr.
  { split; [apply (bool_decide_unpack _); by vm_compute|]. intros shots s Hs. cbn in Hs. apply elem_of_list_singleton in Hs as ->. rewrite <- elem_of_dom. unfold pictures. rewrite !dom_union_L, !dom_singleton_L. cbn. set_solver. }
  assert (forall s, s ∈ ["f1"; "b1"; "f2"; "b2"] -> is_Some (pictures !! s)) as Hin by (intros s; rewrite <- elem_of_dom; unfold pictures; rewrite !dom_union_L, !dom_singleton_L; set_solver).
  assert (forall s, s ∈ ["f3"; "b3"] -> ~ is_Some (pictures !! s)) as Hout by (intros s; rewrite <- elem_of_dom; unfold pictures; rewrite !dom_union_L, !dom_singleton_L; set_solver).
  assert (filter (Forall (fun s => is_Some (pictures !! s.1))) (r_instances r) = [[("f1", "front"); ("b1", "back")]; [("f2", "front"); ("b2", "back")]]) as Ef.
  { cbn [r r_instances two_instances]. unfold two_instances. rewrite !filter_cons. rewrite decide_True by (repeat constructor; apply Hin; set_solver). rewrite decide_True by (repeat constructor; apply Hin; set_solver). rewrite decide_False; [done|]. intros H. apply Forall_cons in H as [H _]. by eapply Hout, H; left. }
  assert (accepted two_instances (/ 2) r (create_rig_cameras_from_reconstruction pictures two_instances)) as Ha.
  { split; [done|]. exists pictures, []. split; [done|]. split; [done|]. split.
    - intros i s c Hi Hc. assert (c = "front" \/ c = "back") as Hfb by (unfold two_instances in Hi; rewrite !elem_of_cons, elem_of_nil in Hi; destruct Hi as [-> |[-> |[-> |[]]]]; rewrite !elem_of_cons, elem_of_nil in Hc; destruct Hc as [[= -> ->]|[[= -> ->]|[]]]; auto).
      exists [("f1", "front"); ("b1", "back")]. assert (complete pictures [("f1", "front"); ("b1", "back")]) as Hcomp by (intros x d; rewrite !elem_of_cons, elem_of_nil; intros [[= -> ->]|[[= -> ->]|[]]]; apply Hin; set_solver).
      destruct Hfb as [-> | ->]; [exists "f1"|exists "b1"]; (split; [left|]); (split; [exact Hcomp|]); [left|right; left].
    - rewrite Ef. cbn. lra. }
  split; [done|]. split; [done|]. split.
  - intros (_ & sh & re & [= <- <-] & _ & _ & H). rewrite Ef in H. cbn in H. lra.
  - destruct (C98_rounds two_instances (/ 2) 2 (fun n => if decide (n = 1%nat) then r else Round [] [] [])) as (o & E & H).
    + exists [("f1", "front"); ("b1", "back")]. split; [left|done].
    + intros n. case_decide; [done|]. split; [constructor|]. by intros ? ? ?%elem_of_nil.
    + destruct o as [c|]; [by exists c|]. exfalso. apply (H 1%nat ltac:(lia) (create_rig_cameras_from_reconstruction pictures two_instances)). by rewrite decide_True.
Qed.
