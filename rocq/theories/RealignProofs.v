(** Proofs about the realignment of maps. *)
From stdpp Require Import prelude gmap strings.
From Coq Require Import Reals Lra.
From Verif Require Import Base Lin RotModel RotProofs PoseModel PoseSpec PoseProofs GeoModel TriangModel TriangProofs BundleModel BundleProofs CullModel MapModel MapSpec MapProofs RealignModel RealignSpec.
Local Open Scope R_scope.

(** ** Geometry *)
Lemma shifted_set_origin p off : valid p -> shifted p off (set_origin p (vadd (get_origin p) off)).
Proof.
  intros Hp. destruct (set_origin_spec p (vadd (get_origin p) off) Hp) as (E1 & E2 & _). split; [|by split].
  destruct Hp as (HR & Hc & _). by apply valid_translation.
Qed.
Lemma transform_origin p x : valid p -> transform p x = mvec (w_rot p) (vsub x (get_origin p)).
Proof.
  intros (HR & Hc & Ht). unfold transform, get_origin. rewrite Ht. rewrite vsub_add, vopp_opp.
  assert (forall A u v, mvec A (vadd u v) = vadd (mvec A u) (mvec A v)) as H. { intros A u v. destruct A, u, v; unfold mvec, vadd; simpl; f_equal; ring. }
  rewrite H, <- mvec_mmul. by rewrite (rotation_r _ HR), mvec_I.
Qed.
Lemma seen_as_transform pf' pt sc x : valid pf' -> valid pt ->
  let R := mmul (c_rot pf') (w_rot pt) in
  transform pf' (sim_transform (similarity_of_matrix R (vadd (mvec (mscale (- sc) R) (get_origin pt)) (get_origin pf')) sc) x) =
  vscale sc (transform pt x).
Proof.
  intros Hf Ht R. rewrite (transform_origin pf') by done. rewrite (transform_origin pt) by done.
  unfold sim_transform, similarity_of_matrix, sim_rotation_matrix, sim_translation; cbn [sim_pose sim_scale pose_of_matrix from_world_to_cam w_rot w_tr].
  replace (vsub _ (get_origin pf')) with (vscale sc (mvec R (vsub x (get_origin pt)))).
  2: { generalize (get_origin pf') (get_origin pt) R. intros [a b c] [d e f] [r1 r2 r3 r4 r5 r6 r7 r8 r9]. destruct x; unfold vsub, vscale, mvec, mscale, vadd; simpl. f_equal; ring. }
  unfold R. rewrite mvec_mmul. destruct Hf as (HR & -> & _).
  assert (forall A s v, mvec A (vscale s v) = vscale s (mvec A v)) as H. { intros [] s []; unfold mvec, vscale; simpl; f_equal; ring. }
  rewrite H, <- (mvec_mmul (w_rot pf')). by rewrite (rotation_r _ HR), mvec_I.
Qed.
Lemma shifted_compose rc p off p' : valid rc -> valid p -> shifted p off p' -> shifted (compose rc p) off (compose rc p').
Proof.
  intros Hr Hp (Hp' & E1 & E2). split; [by apply valid_compose|]. split; [cbn; by rewrite E1|].
  assert (forall q, valid q -> get_origin (compose rc q) = transform_inverse q (get_origin rc)) as H.
  { intros q Hq. pose proof (valid_compose _ _ Hr Hq) as Hc.
    assert (get_origin (compose rc q) = transform_inverse (compose rc q) v0) as ->.
    { unfold transform_inverse. rewrite mvec_0, vadd_0_l. done. }
    rewrite <- (origin_zero rc Hr). rewrite <- (transform_cancel' q (get_origin rc) Hq) at 1.
    rewrite <- transform_compose. by rewrite transform_cancel. }
  rewrite !H by done. unfold transform_inverse. fold (get_origin p) (get_origin p'). rewrite E2. destruct Hp as (_ & -> & _), Hp' as (_ & -> & _). rewrite E1.
  generalize (mvec (mT (w_rot p)) (get_origin rc)) (get_origin p). intros [] []. destruct off. unfold vadd; simpl. f_equal; ring.
Qed.

(** ** Structure *)
Section Payload.
Context {C B P V D X O Rf : Type}.
Variable feature_of : O -> Z.
Notation map := (@map C B P V D X O Rf).
(** the same structure: only the contents of cameras, positions, poses and data differ *)
Definition links (s : shot D X O) := (sh_camera s, sh_rig_camera s, sh_instance s, sh_obs s, sh_feat s).
Record alike (m m' : map) : Prop := {
  al_shots : forall k, links <$> m_shots m' !! k = links <$> m_shots m !! k;
  al_landmarks : forall l, lm_obs <$> m_landmarks m' !! l = lm_obs <$> m_landmarks m !! l;
  al_instances : forall i, in_members <$> m_instances m' !! i = in_members <$> m_instances m !! i;
  al_cameras : forall c, is_Some (m_cameras m' !! c) <-> is_Some (m_cameras m !! c);
  al_bias : forall c, is_Some (m_bias m' !! c) <-> is_Some (m_bias m !! c);
  al_rigs : forall c, is_Some (m_rig_cameras m' !! c) <-> is_Some (m_rig_cameras m !! c) }.
Lemma alike_refl m : alike m m. Proof. by split. Qed.
Lemma alike_trans a b c : alike a b -> alike b c -> alike a c.
Proof.
  intros [] []. split; intros; try (by etrans; [eauto|eauto]).
Qed.
Lemma alike_shot m m' k s' : alike m m' -> m_shots m' !! k = Some s' -> exists s, m_shots m !! k = Some s /\ links s = links s'.
Proof. intros H E. pose proof (al_shots _ _ H k) as Hk. rewrite E in Hk. destruct (m_shots m !! k) as [s|]; [|done]. exists s. cbn in Hk. split; congruence. Qed.
Lemma alike_inst m m' k i' : alike m m' -> m_instances m' !! k = Some i' -> exists i, m_instances m !! k = Some i /\ in_members i = in_members i'.
Proof. intros H E. pose proof (al_instances _ _ H k) as Hk. rewrite E in Hk. destruct (m_instances m !! k) as [s|]; [|done]. exists s. cbn in Hk. split; congruence. Qed.
Lemma alike_sym m m' : alike m m' -> alike m' m.
Proof. intros []. split; intros; symmetry; eauto. Qed.
Lemma inv_alike m m' : alike m m' -> inv feature_of m -> inv feature_of m'.
Proof.
  intros H [HF HS [R1 R2 R3 R4 R5]]. pose proof (alike_sym _ _ H) as H'.
  assert (forall k lm, O_of (m_shots m') k lm = O_of (m_shots m) k lm) as EO.
  { intros k lm. unfold O_of. pose proof (al_shots _ _ H k) as Hk. destruct (m_shots m' !! k), (m_shots m !! k); cbn in *; [|done..]. injection Hk. by intros _ -> _ _ _. }
  assert (forall k f, F_of (m_shots m') k f = F_of (m_shots m) k f) as EF.
  { intros k lm. unfold F_of. pose proof (al_shots _ _ H k) as Hk. destruct (m_shots m' !! k), (m_shots m !! k); cbn in *; [|done..]. injection Hk. by intros -> _ _ _ _. }
  assert (forall l s, L_of (m_landmarks m') l s = L_of (m_landmarks m) l s) as EL.
  { intros k lm. unfold L_of. pose proof (al_landmarks _ _ H k) as Hk. destruct (m_landmarks m' !! k), (m_landmarks m !! k); cbn in *; [|done..]. congruence. }
  split; [| |split].
  - intros k f lm. rewrite EF. setoid_rewrite EO. apply HF.
  - intros l s b f. rewrite EL. setoid_rewrite EO. apply HS.
  - intros k s' Hs'. destruct (alike_shot _ _ _ _ H Hs') as (s & Hs & El). destruct (R1 _ _ Hs) as (i & Hi & Hmem). destruct (alike_inst _ _ _ _ H' Hi) as (i' & Hi' & Ei).
    injection El. intros _ _ E3 E2 E1. exists i'. rewrite <- E3. split; [done|]. by rewrite Ei, <- E2.
  - intros id i' s k rc Hi' Hmem. destruct (alike_inst _ _ _ _ H Hi') as (i & Hi & Ei). rewrite <- Ei in Hmem. destruct (R2 _ _ _ _ _ Hi Hmem) as (x & Hx & <- & <-).
    destruct (alike_shot _ _ _ _ H' Hx) as (x' & Hx' & El). injection El. intros _ _ E3 E2 E1. exists x'. split; [done|]. split; congruence.
  - intros k s' Hs'. destruct (alike_shot _ _ _ _ H Hs') as (s & Hs & El). injection El. intros _ _ E3 E2 E1. destruct (R3 _ _ Hs) as [Ra Rb]. rewrite (al_cameras _ _ H), (al_rigs _ _ H). split; congruence.
  - intros id i' s1 s2 k1 k2 rc Hi' M1 M2. destruct (alike_inst _ _ _ _ H Hi') as (i & Hi & Ei). rewrite <- Ei in M1, M2. eauto.
  - intros id. rewrite (al_cameras _ _ H), (al_bias _ _ H). apply R5.
Qed.

(** the removal of shots *)
Record thinned (m : map) (ids : list string) (m' : map) : Prop := {
  th_shots : forall k, m_shots m' !! k = if decide (k.1 = false /\ k.2 ∈ ids) then None else m_shots m !! k;
  th_instances : forall id, match m_instances m !! id, m_instances m' !! id with
      | Some i, Some i' => in_pose i' = in_pose i /\ forall s e, in_members i' !! s = Some e <-> in_members i !! s = Some e /\ ~ (e.1 = false /\ s ∈ ids)
      | None, None => True | _, _ => False end;
  th_landmarks : forall id, match m_landmarks m !! id, m_landmarks m' !! id with
      | Some l, Some l' => lm_pos l' = lm_pos l /\ lm_color l' = lm_color l /\ forall s e, lm_obs l' !! s = Some e <-> lm_obs l !! s = Some e /\ ~ (e.1 = false /\ s ∈ ids)
      | None, None => True | _, _ => False end;
  th_rest : m_cameras m' = m_cameras m /\ m_bias m' = m_bias m /\ m_rig_cameras m' = m_rig_cameras m /\ m_reference m' = m_reference m }.
Lemma thinned_nil m : thinned m [] m.
Proof.
  split; [| | |done].
  - intros k. case_decide; [|done]. set_solver.
  - intros id. destruct (m_instances m !! id); [|done]. split; [done|]. intros. set_solver.
  - intros id. destruct (m_landmarks m !! id); [|done]. split_and!; [done|done|]. intros. set_solver.
Qed.
Variable enumO : gmap string O -> list (string * O).
Hypothesis HO : enumerates enumO.
Lemma thinned_step m pre m' sid : inv feature_of m' -> thinned m pre m' -> is_Some (m_shots m' !! (false, sid)) ->
  exists m'', remove_shot enumO m' (false, sid) = Ok m'' /\ inv feature_of m'' /\ thinned m (pre ++ [sid]) m''.
Proof using HO.
  intros Hinv [TS TI TL TR] [s Hs]. destruct (remove_shot_ok feature_of m' enumO (false, sid) s HO Hinv Hs) as (m'' & i & Hr & Hinv' & Es & Hi & Ei & El & Em).
  exists m''. split; [done|]. split; [done|]. destruct Hinv as [HF HS [R1 R2 R3 R4 R5]]. cbn [fst snd] in *.
  assert (forall x, x ∈ pre ++ [sid] <-> x ∈ pre \/ x = sid) as Hin. { intros x. by rewrite elem_of_app, elem_of_list_singleton. }
  split.
  - intros k. rewrite Es. destruct (decide (k = (false, sid))) as [->|Hk].
    + rewrite lookup_delete. rewrite decide_True; [done|]. cbn. split; [done|]. rewrite Hin. by right.
    + rewrite lookup_delete_ne by done. rewrite TS. destruct k as [b x]. cbn [fst snd]. apply decide_ext. rewrite Hin. split; [naive_solver|]. intros [-> [? | ->]]; [done|by destruct Hk].
  - intros id. specialize (TI id). rewrite Ei. destruct (decide (sh_instance s = id)) as [<-|Hid].
    + rewrite lookup_insert. rewrite Hi in TI. destruct (m_instances m !! sh_instance s) as [i0|]; [|done]. destruct TI as [Ep Em']. split; [done|]. cbn [in_members]. intros x e. destruct (decide (sid = x)) as [<-|Hx].
      * rewrite lookup_delete. split; [done|]. intros [H1 H2]. destruct (R1 _ _ Hs) as (i1 & Hi1 & Hmem). rewrite Hi in Hi1. injection Hi1 as <-. cbn in Hmem.
        apply Em' in Hmem as [Hmem _]. rewrite Hmem in H1. injection H1 as <-. destruct H2. rewrite Hin. cbn. split; [done|]. by right.
      * rewrite lookup_delete_ne by done. rewrite Em'. rewrite Hin. naive_solver.
    + rewrite lookup_insert_ne by done. destruct (m_instances m !! id) as [i0|], (m_instances m' !! id) as [i1|] eqn:Ei1; try done. destruct TI as [Ep Em']. split; [done|]. intros x e. rewrite Em', Hin. split; [|naive_solver].
      intros [H1 H2]. split; [done|]. intros [H3 [H4 | ->]]; [by apply H2|]. destruct e as [b rc]; cbn in H3; subst b.
      assert (in_members i1 !! sid = Some (false, rc)) as H5. { apply Em'. by split. }
      destruct (R2 _ _ _ _ _ Ei1 H5) as (x & Hx & <- & _). rewrite Hs in Hx. by injection Hx as <-.
  - intros id. specialize (TL id). rewrite El. case_decide as Hd.
    + destruct (m_landmarks m !! id) as [l0|], (m_landmarks m' !! id) as [l1|] eqn:El1; try done. cbn. destruct TL as (Ep & Ec & Eo). split_and!; [done..|]. intros x e. destruct (decide (sid = x)) as [<-|Hx].
      * rewrite lookup_delete. split; [done|]. intros [H1 H2]. destruct Hd as [o Ho].
        assert (L_of (m_landmarks m') id sid = Some (false, feature_of o)) as HL. { apply HS. exists o. split; [|done]. apply O_some. by exists s. }
        unfold L_of in HL. rewrite El1 in HL. cbn in HL. apply Eo in HL as [HL _]. rewrite HL in H1. injection H1 as <-. destruct H2. rewrite Hin. cbn. split; [done|]. by right.
      * rewrite lookup_delete_ne by done. rewrite Eo, Hin. naive_solver.
    + destruct (m_landmarks m !! id) as [l0|], (m_landmarks m' !! id) as [l1|] eqn:El1; try done. cbn. destruct TL as (Ep & Ec & Eo). split_and!; [done..|]. intros x e. rewrite Eo, Hin. split; [|naive_solver].
      intros [H1 H2]. split; [done|]. intros [H3 [H4 | ->]]; [by apply H2|]. destruct e as [b f]; cbn in H3; subst b.
      assert (lm_obs l1 !! sid = Some (false, f)) as H5. { apply Eo. by split. }
      assert (L_of (m_landmarks m') id sid = Some (false, f)) as HL. { unfold L_of. rewrite El1. done. }
      apply HS in HL as (o & Ho & _). apply O_some in Ho as (s1 & Hs1 & Ho). rewrite Hs in Hs1. injection Hs1 as <-. destruct Hd. by exists o.
  - rewrite Em. exact TR.
Qed.
Lemma remove_shots_ok m ids : inv feature_of m -> NoDup ids -> (forall id, id ∈ ids -> is_Some (m_shots m !! (false, id))) ->
  exists m', foldM (fun m id => remove_shot enumO m (false, id)) m ids = Ok m' /\ inv feature_of m' /\ thinned m ids m'.
Proof using HO.
  intros Hinv Hn Hids. destruct (foldM_inv (fun m id => remove_shot enumO m (false, id)) ids (fun pre m' => inv feature_of m' /\ thinned m pre m') m) as (m' & E & H).
  - split; [done|apply thinned_nil].
  - intros pre x a Hx [post Epost] [Ha Ht]. apply (thinned_step m pre a x Ha Ht). rewrite (th_shots _ _ _ Ht). rewrite decide_False; [by apply Hids|].
    cbn. intros [_ H]. rewrite Epost in Hn. apply NoDup_app in Hn as (_ & Hn & _). apply (Hn x H). set_solver.
  - by exists m'.
Qed.
End Payload.

Section Realign.
Context {T B M X O : Type}.
Variable feature_of : O -> Z.
Notation map := (@map (camera T) B pose vec (metadata M) X O vec).
Notation shot := (shot (metadata M) X O). Notation landmark := (landmark vec).
Variable enumF : gmap string (bool * Z) -> list (string * (bool * Z)).
Variable enumI : gmap string (bool * string) -> list (string * (bool * string)).
Variable enumO : gmap string O -> list (string * O).
Variable enumS : gmap shot_key shot -> list (shot_key * shot).
Variable enumT : gset string -> list string.
Hypothesis HF : enumerates enumF. Hypothesis HI : enumerates enumI. Hypothesis HO : enumerates enumO. Hypothesis HS : enumerates enumS.
Hypothesis HT : forall s, enumT s ≡ₚ elements s.
Implicit Types from to : map.

Lemma get_pose_valid from k p : poses_valid from -> get_pose from k = Some p -> valid p.
Proof using Type.
  intros [V1 V2]. unfold get_pose. destruct (m_shots from !! k) as [s|]; cbn; [|done]. destruct (m_instances from !! _) as [i|] eqn:Ei; cbn; [|done].
  destruct (m_rig_cameras from !! _) as [rc|] eqn:Er; cbn; [|done]. intros [= <-]. unfold shot_get_pose. apply V1 in Er. apply V2 in Ei. destruct (_ && _); [done|by apply valid_compose].
Qed.
Lemma get_pose_some from k s : inv feature_of from -> m_shots from !! k = Some s -> is_Some (get_pose from k).
Proof using Type.
  intros [_ _ [R1 _ R3 _ _]] Hs. destruct (R1 _ _ Hs) as (i & Hi & _), (R3 _ _ Hs) as [_ [rc Hrc]]. unfold get_pose. rewrite Hs; cbn. rewrite Hi; cbn. rewrite Hrc; cbn. eauto.
Qed.

(** the nearest observer *)
Lemma closer_spec from to l es : (forall s e, (s, e) ∈ es -> lm_obs l !! s = Some e) ->
  match foldl (closer_shot from to (lm_pos l)) None es with
  | None => forall id b f p, (id, (b, f)) ∈ es -> known from id -> get_pose to (b, id) = Some p -> False
  | Some (d, id) => exists p, observer from to l id p /\ d = dist2 (lm_pos l) (get_origin p) /\
      forall id' b f p', (id', (b, f)) ∈ es -> known from id' -> get_pose to (b, id') = Some p' -> d <= dist2 (lm_pos l) (get_origin p')
  end.
Proof using Type.
  clear HF HI HO HS HT. clear enumF enumI enumO enumS enumT. induction es as [|[x [b f]] es IH] using rev_ind; intros Hes; [cbn; set_solver|]. rewrite foldl_app. cbn [foldl].
  specialize (IH ltac:(set_solver)). set (acc := foldl (closer_shot from to (lm_pos l)) None es) in *. clearbody acc.
  unfold closer_shot. cbn [fst snd].
  assert (forall id' b' f', (id', (b', f')) ∈ es ++ [(x, (b, f))] <-> (id', (b', f')) ∈ es \/ (id' = x /\ b' = b /\ f' = f)) as Hin.
  { intros. rewrite elem_of_app, elem_of_list_singleton. naive_solver. }
  destruct (m_shots from !! (false, x)) as [sf|] eqn:Ef.
  2: { assert (~ known from x) as Hk by (unfold known; rewrite Ef; by intros [? ?]).
       destruct acc as [[d id]|].
       - destruct IH as (p & Ho & Ed & Hm). exists p. split; [done|]. split; [done|]. intros id' b' f' p' H1 H2 H3. apply Hin in H1 as [H1|(-> & -> & ->)]; [eauto|done].
       - intros id' b' f' p' H1 H2 H3. apply Hin in H1 as [H1|(-> & -> & ->)]; [eauto|done]. }
  assert (known from x) as Hk by (unfold known; by rewrite Ef).
  destruct (get_pose to (b, x)) as [p|] eqn:Ep.
  2: { destruct acc as [[d id]|].
       - destruct IH as (p & Ho & Ed & Hm). exists p. split; [done|]. split; [done|]. intros id' b' f' p' H1 H2 H3. apply Hin in H1 as [H1|(-> & -> & ->)]; [eauto|congruence].
       - intros id' b' f' p' H1 H2 H3. apply Hin in H1 as [H1|(-> & -> & ->)]; [eauto|congruence]. }
  assert (observer from to l x p) as Hx. { exists b, f. split_and!; [|done|done]. apply Hes. set_solver. }
  destruct acc as [[d id]|].
  - destruct IH as (q & Ho & Ed & Hm). destruct (Rlt_dec _ d) as [Hlt|Hge].
    + exists p. split; [done|]. split; [done|]. intros id' b' f' p' H1 H2 H3. apply Hin in H1 as [H1|(-> & -> & ->)]; [|right; congruence]. specialize (Hm _ _ _ _ H1 H2 H3). lra.
    + exists q. split; [done|]. split; [done|]. intros id' b' f' p' H1 H2 H3. apply Hin in H1 as [H1|(-> & -> & ->)]; [eauto|]. rewrite Ep in H3. injection H3 as <-. lra.
  - exists p. split; [done|]. split; [done|]. intros id' b' f' p' H1 H2 H3. apply Hin in H1 as [H1|(-> & -> & ->)]; [by destruct (IH _ _ _ _ H1 H2 H3)|right; congruence].
Qed.
Lemma moved_point_ok from to l : inv feature_of from -> poses_valid from -> poses_valid to ->
  (moved_point enumF from to l = lm_pos l /\ forall id p, ~ observer from to l id p) \/
  (exists id, nearest_observer from to l id /\
     (seen_as from to (from_to_offset from to) id (lm_pos l) (moved_point enumF from to l) \/
      (moved_point enumF from to l = lm_pos l /\ get_pose to (false, id) = None))).
Proof using HF.
  intros If Vf Vt. pose proof (closer_spec from to l (enumF (lm_obs l))) as H. unfold moved_point, best_shot.
  assert (forall s e, (s, e) ∈ enumF (lm_obs l) <-> lm_obs l !! s = Some e) as He. { intros s e. rewrite (HF (lm_obs l)). apply elem_of_map_to_list. }
  specialize (H ltac:(intros; by apply He)). destruct (foldl _ _ _) as [[d id]|].
  - destruct H as (p & Ho & -> & Hm). right. exists id. split.
    { exists p. split; [done|]. intros id' p' (b & f & H1 & H2 & H3). apply He in H1. specialize (Hm _ _ _ _ H1 H2 H3). unfold norm. by apply sqrt_le_1_alt. }
    destruct Ho as (b & f & H1 & [sf Hsf] & H3). unfold from_to_transform. rewrite Hsf. cbn [mbind option_bind].
    destruct (get_pose_some _ _ _ If Hsf) as [pf Hpf]. rewrite Hpf. cbn [mbind option_bind].
    destruct (get_pose to (false, id)) as [pt|] eqn:Ept; cbn [mbind option_bind]; [|by right].
    left. pose proof (get_pose_valid _ _ _ Vf Hpf) as Vpf. pose proof (get_pose_valid _ _ _ Vt Ept) as Vpt.
    pose proof (shifted_set_origin pf (from_to_offset from to) Vpf) as Hsh.
    exists sf, pf, (set_origin pf (vadd (get_origin pf) (from_to_offset from to))), pt. split_and!; [done..|].
    rewrite seen_as_transform; [|by destruct Hsh|done]. f_equal. unfold scale_from. destruct (Req_EM_T _ _); [lra|done].
  - left. split; [done|]. intros id p (b & f & H1 & H2 & H3). apply He in H1. eauto.
Qed.

(** the shots *)
Definition shot_updated (from : map) (id : string) (s : shot) : shot :=
  match m_shots from !! (false, id) with
  | None => s
  | Some sf => Shot (sh_camera s) (sh_rig_camera s) (sh_instance s) (Metadata (d_merge_cc (sh_data sf)) (d_scale (sh_data sf)) (d_rest (sh_data s))) (sh_mesh s) (sh_obs s) (sh_feat s)
  end.
Definition camera_so_far (from : map) (pre : list (shot_key * shot)) (id : string) (c c' : camera T) : Prop :=
  c_kind c' = c_kind c /\
  ((c_values c' = c_values c /\ forall x s, ((false, x), s) ∈ pre -> sh_camera s = id -> ~ known from x) \/
   exists x s sf cf, ((false, x), s) ∈ pre /\ sh_camera s = id /\ m_shots from !! (false, x) = Some sf /\
     m_cameras from !! sh_camera sf = Some cf /\ c_values c' = c_values cf).
Record shots_mapped (from m : map) (pre : list (shot_key * shot)) (acc : map * gset string) : Prop := {
  sm_shots : forall k, m_shots acc.1 !! k = if decide (k.1 = false /\ k ∈ pre.*1) then shot_updated from k.2 <$> m_shots m !! k else m_shots m !! k;
  sm_cameras : forall id, match m_cameras m !! id, m_cameras acc.1 !! id with
     | Some c, Some c' => camera_so_far from pre id c c' | None, None => True | _, _ => False end;
  sm_delete : forall id, id ∈ acc.2 <-> exists s, ((false, id), s) ∈ pre /\ ~ known from id;
  sm_rest : m_bias acc.1 = m_bias m /\ m_rig_cameras acc.1 = m_rig_cameras m /\ m_instances acc.1 = m_instances m /\ m_landmarks acc.1 = m_landmarks m /\ m_reference acc.1 = m_reference m }.
Lemma shots_mapped_step from m pre acc k s : inv feature_of from -> inv feature_of m -> shots_mapped from m pre acc -> m_shots m !! k = Some s ->
  exists acc', map_shot from acc (k, s) = Ok acc' /\ shots_mapped from m (pre ++ [(k, s)]) acc'.
Proof using Type.
  clear HF HI HO HS HT. clear enumF enumI enumO enumS enumT. intros If Im [S1 S2 S3 S4] Hs. destruct acc as [a del]. cbn [fst snd] in *. destruct k as [pano id]. unfold map_shot.
  assert (forall k' s', (k', s') ∈ pre ++ [((pano, id), s)] <-> (k', s') ∈ pre \/ (k' = (pano, id) /\ s' = s)) as Hin.
  { intros. rewrite elem_of_app, elem_of_list_singleton. naive_solver. }
  assert (forall k', k' ∈ (pre ++ [((pano, id), s)]).*1 <-> k' ∈ pre.*1 \/ k' = (pano, id)) as Hin1.
  { intros. rewrite fmap_app, elem_of_app. cbn [fmap list_fmap fst]. by rewrite elem_of_list_singleton. }
  destruct pano.
  { exists (a, del). split; [done|]. split; cbn [fst snd].
    - intros k. rewrite S1. apply decide_ext. rewrite Hin1. destruct k; naive_solver.
    - intros c. specialize (S2 c). destruct (m_cameras m !! c), (m_cameras a !! c); try done. destruct S2 as [Ek H]. split; [done|]. destruct H as [[E H]|(x & s' & sf & cf & H1 & H2)].
      + left. split; [done|]. intros x s' H1 H2. apply Hin in H1 as [H1|[H1 _]]; [eauto|done].
      + right. exists x, s', sf, cf. rewrite Hin. naive_solver.
    - intros x. rewrite S3. setoid_rewrite Hin. naive_solver.
    - done. }
  destruct (m_shots from !! (false, id)) as [sf|] eqn:Ef.
  - assert (known from id) as Hk by (unfold known; by rewrite Ef).
    destruct If as [_ _ [_ _ R3 _ _]]. destruct (R3 _ _ Ef) as [[cf Hcf] _]. rewrite Hcf. cbn [of_option res_bind].
    destruct Im as [_ _ [_ _ R3' _ _]]. destruct (R3' _ _ Hs) as [[c0 Hc0] _]. pose proof (S2 (sh_camera s)) as S2c. rewrite Hc0 in S2c. destruct (m_cameras a !! sh_camera s) as [ct|] eqn:Ect; [|done].
    cbn [of_option res_bind]. eexists. split; [reflexivity|]. split; cbn [fst snd set_shots set_cameras m_shots m_cameras m_bias m_rig_cameras m_instances m_landmarks m_reference].
    + intros k. destruct (decide (k = (false, id))) as [->|Hne].
      * rewrite lookup_insert. rewrite decide_True by (rewrite Hin1; cbn; auto). rewrite Hs. cbn. unfold shot_updated. by rewrite Ef.
      * rewrite lookup_insert_ne by done. rewrite S1. apply decide_ext. rewrite Hin1. naive_solver.
    + intros c. specialize (S2 c). destruct (decide (sh_camera s = c)) as [<-|Hne].
      * rewrite lookup_insert, Hc0. split; [cbn; by destruct S2c|]. right. exists id, s, sf, cf. rewrite Hin. split_and!; [by right|done..].
      * rewrite lookup_insert_ne by done. destruct (m_cameras m !! c), (m_cameras a !! c); try done. destruct S2 as [Ek H]. split; [done|]. destruct H as [[E H]|(x & s' & sf' & cf' & H1 & H2)].
        -- left. split; [done|]. intros x s' H1 H2. apply Hin in H1 as [H1|[H1 ->]]; [eauto|done].
        -- right. exists x, s', sf', cf'. rewrite Hin. naive_solver.
    + intros x. rewrite S3. setoid_rewrite Hin. split; [naive_solver|]. intros (s' & [H1|[[= ->] ->]] & H2); [eauto|done].
    + done.
  - assert (~ known from id) as Hk by (unfold known; rewrite Ef; by intros [? ?]).
    eexists. split; [reflexivity|]. split; cbn [fst snd].
    + intros k. rewrite S1. destruct (decide (k = (false, id))) as [->|Hne].
      * rewrite Hs. cbn. unfold shot_updated. rewrite Ef. by destruct (decide _), (decide _).
      * apply decide_ext. rewrite Hin1. naive_solver.
    + intros c. specialize (S2 c). destruct (m_cameras m !! c), (m_cameras a !! c); try done. destruct S2 as [Ek H]. split; [done|]. destruct H as [[E H]|(x & s' & sf & cf & H1 & H2)].
      * left. split; [done|]. intros x s' H1 H2. apply Hin in H1 as [H1|[[= ->] ->]]; [eauto|done].
      * right. exists x, s', sf, cf. rewrite Hin. naive_solver.
    + intros x. rewrite elem_of_union, elem_of_singleton, S3. setoid_rewrite Hin. naive_solver.
    + done.
Qed.
Lemma shots_mapped_all from m : inv feature_of from -> inv feature_of m ->
  exists acc, foldM (map_shot from) (m, ∅) (enumS (m_shots m)) = Ok acc /\ shots_mapped from m (enumS (m_shots m)) acc.
Proof using HS.
  clear HF HI HO HT. clear enumF enumI enumO enumT. intros If Im. apply foldM_inv.
  - split; cbn.
    + intros k. rewrite decide_False; [done|]. set_solver.
    + intros id. destruct (m_cameras m !! id); [|done]. split; [done|]. left. split; [done|]. set_solver.
    + intros id. set_solver.
    + done.
  - intros pre [k s] acc Hx _ Hacc. apply (shots_mapped_step from m pre acc k s If Im Hacc). rewrite (HS (m_shots m)) in Hx. by apply elem_of_map_to_list in Hx.
Qed.

(** the instances *)
Lemma first_known_spec from members :
  match first_known from members with
  | Some sf => exists id e, (id, e) ∈ members /\ m_shots from !! (false, id) = Some sf
  | None => forall id e, (id, e) ∈ members -> ~ known from id
  end.
Proof using Type.
  clear HF HI HO HS HT. clear enumF enumI enumO enumS enumT. induction members as [|[id e] members IH]; cbn; [set_solver|]. destruct (m_shots from !! (false, id)) as [sf|] eqn:E.
  - exists id, e. split; [left|done].
  - destruct (first_known from members) as [sf|].
    + destruct IH as (id' & e' & H1 & H2). exists id', e'. split; [by right|done].
    + intros id' e' H. apply elem_of_cons in H as [[= -> ->]|H]; [|eauto]. unfold known. rewrite E. by intros [? ?].
Qed.
Lemma map_instance_ok from to i : inv feature_of from -> poses_valid from ->
  in_members (map_instance enumI from to i) = in_members i /\
  ((in_pose (map_instance enumI from to i) = in_pose i /\ forall s, is_Some (in_members i !! s) -> ~ known from s) \/
   exists s sf i_f, is_Some (in_members i !! s) /\ m_shots from !! (false, s) = Some sf /\ m_instances from !! sh_instance sf = Some i_f /\
     shifted (in_pose i_f) (from_to_offset from to) (in_pose (map_instance enumI from to i))).
Proof using HI.
  intros If Vf. unfold map_instance. pose proof (first_known_spec from (enumI (in_members i))) as H.
  assert (forall s e, (s, e) ∈ enumI (in_members i) <-> in_members i !! s = Some e) as He. { intros s e. rewrite (HI (in_members i)). apply elem_of_map_to_list. }
  destruct (first_known _ _) as [sf|]; cbn [mbind option_bind].
  - destruct H as (id & e & H1 & H2). destruct If as [_ _ [R1 _ _ _ _]]. destruct (R1 _ _ H2) as (i_f & Hi & _). rewrite Hi. split; [done|]. right. exists id, sf, i_f. apply He in H1.
    split_and!; [eauto|done|done|]. cbn [in_pose]. apply shifted_set_origin. destruct Vf as [_ V]. eauto.
  - split; [done|]. left. split; [done|]. intros s [e Hs]. apply He in Hs. eauto.
Qed.

Theorem realign_ok from to up : inv feature_of from -> poses_valid from -> inv feature_of to -> poses_valid to ->
  exists to', realign_maps enumF enumI enumO enumS enumT from to up = Ok to' /\ inv feature_of to' /\ poses_valid to' /\
    realigned from to up (from_to_offset from to) to'.
Proof using HF HI HO HS HT.
  intros If Vf It Vt. unfold realign_maps. set (m1 := if up then move_points enumF from to else to).
  assert (alike to m1) as A1.
  { unfold m1. destruct up; [|apply alike_refl]. split; try done. intros l. unfold move_points; cbn. rewrite lookup_fmap. by destruct (m_landmarks to !! l). }
  assert (inv feature_of m1) as I1 by by eapply inv_alike.
  assert (m_shots m1 = m_shots to /\ m_cameras m1 = m_cameras to /\ m_bias m1 = m_bias to /\ m_rig_cameras m1 = m_rig_cameras to /\ m_instances m1 = m_instances to /\ m_reference m1 = m_reference to) as (Es & Ec & Eb & Er & Ei & Ef) by (unfold m1; by destruct up).
  destruct (shots_mapped_all from m1 If I1) as ([m2 del] & E2 & S2). rewrite E2. cbn [res_bind]. destruct S2 as [S1 S2 S3 (S4 & S5 & S6 & S7 & S8)]. cbn [fst snd] in *.
  assert (forall k, k ∈ (enumS (m_shots m1)).*1 <-> is_Some (m_shots m1 !! k)) as Hk1.
  { intros k. rewrite (HS (m_shots m1)). rewrite elem_of_list_fmap. split; [intros ([k' s] & -> & H); apply elem_of_map_to_list in H; eauto|]. intros [s H]. exists (k, s). split; [done|]. by apply elem_of_map_to_list. }
  assert (forall k s, (k, s) ∈ enumS (m_shots m1) <-> m_shots to !! k = Some s) as Hk2.
  { intros k s. rewrite (HS (m_shots m1)), elem_of_map_to_list. by rewrite Es. }
  assert (forall k : shot_key, m_shots m2 !! k = if k.1 then m_shots to !! k else shot_updated from k.2 <$> m_shots to !! k) as S1'.
  { intros k. rewrite S1. rewrite Es. destruct k as [b x]. cbn [fst snd]. destruct b; [by rewrite decide_False by naive_solver|]. case_decide as Hd; [done|].
    destruct (m_shots to !! (false, x)) eqn:E; [|done]. destruct Hd. split; [done|]. rewrite <- Es. apply Hk1. rewrite Es, E. eauto. }
  set (m3 := map_instances enumI from m2).
  assert (alike to m3) as A3.
  { split.
    - intros k. cbn. rewrite S1'. destruct k.1; [done|]. destruct (m_shots to !! k) as [s|]; [|done]. cbn. unfold shot_updated. by destruct (m_shots from !! _).
    - intros l. cbn. rewrite S7. apply (al_landmarks _ _ A1).
    - intros i. cbn. rewrite lookup_fmap, S6, Ei. destruct (m_instances to !! i) as [x|]; [|done]. cbn. f_equal. by apply map_instance_ok.
    - intros c. cbn. specialize (S2 c). rewrite Ec in S2. destruct (m_cameras to !! c), (m_cameras m2 !! c); try done; split; eauto.
    - intros c. cbn. by rewrite S4, Eb.
    - intros c. cbn. by rewrite S5, Er. }
  assert (inv feature_of m3) as I3 by by eapply inv_alike.
  assert (from_to_offset from m2 = from_to_offset from to) as Eoff. { unfold from_to_offset, reference_of. by rewrite S8, Ef. }
  assert (forall id, id ∈ del <-> is_Some (m_shots to !! (false, id)) /\ ~ known from id) as Hdel.
  { intros id. rewrite S3. setoid_rewrite Hk2. unfold is_Some. naive_solver. }
  assert (forall id, id ∈ enumT del <-> id ∈ del) as HdT. { intros id. by rewrite (HT del), elem_of_elements. }
  destruct (remove_shots_ok feature_of enumO HO m3 (enumT del) I3) as (m4 & E4 & I4 & T4).
  { rewrite (HT del). apply NoDup_elements. }
  { intros id Hid. apply HdT, Hdel in Hid as [[s H] _]. cbn. rewrite S1'. cbn. rewrite H. eauto. }
  unfold remove_shots. rewrite E4. exists m4. split; [done|]. split; [done|].
  assert (forall (k : shot_key) s, m_shots to !! k = Some s -> (is_Some (m_shots m4 !! k) <-> k.1 = true \/ known from k.2)) as Hkept.
  { intros [b x] s Hs. rewrite (th_shots _ _ _ T4). cbn [fst snd]. destruct b.
    - rewrite decide_False by naive_solver. cbn. rewrite S1'. cbn. rewrite Hs. split; eauto.
    - destruct (decide (known from x)) as [Hd|Hd].
      + rewrite decide_False; [|intros [_ H]; apply HdT, Hdel in H; naive_solver]. cbn. rewrite S1'. cbn. rewrite Hs. split; eauto.
      + rewrite decide_True; [|split; [done|]; apply HdT, Hdel; split; eauto]. split; [by intros [? ?]|naive_solver]. }
  assert (forall b x, is_Some (m_shots to !! (b, x)) -> (is_Some (m_shots m4 !! (b, x)) <-> ~ (b = false /\ x ∈ enumT del))) as Hkept'.
  { intros b x [s Hs]. rewrite (Hkept _ _ Hs). cbn. rewrite HdT, Hdel. split.
    - intros [->|Hk] [? [? ?]]; [done|done].
    - intros H. destruct b; [by left|]. right. destruct (decide (known from x)); [done|]. destruct H. split; [done|]. split; eauto. }
  split.
  { split.
    - intros id p. destruct (th_rest _ _ _ T4) as (_ & _ & -> & _). cbn. rewrite S5, Er. apply Vt.
    - intros id i' Hi'. pose proof (th_instances _ _ _ T4 id) as H. rewrite Hi' in H. cbn in H. rewrite lookup_fmap, S6, Ei in H. destruct (m_instances to !! id) as [i|] eqn:Eio; [|done]. cbn in H. destruct H as [-> _].
      destruct (map_instance_ok from m2 i If Vf) as [_ [[-> _]|(? & ? & ? & _ & _ & _ & [H _])]]; [|done]. destruct Vt as [_ V]. eauto. }
  split.
  - intros k s' Hs'. rewrite (th_shots _ _ _ T4) in Hs'. case_decide as Hd; [done|]. cbn in Hs'. rewrite S1' in Hs'. destruct k as [b x]. cbn [fst snd] in *. destruct b.
    + exists s'. by repeat split.
    + destruct (m_shots to !! (false, x)) as [s|] eqn:Eto; [|done]. cbn in Hs'. injection Hs' as <-. exists s. split; [done|]. unfold shot_updated, shot_realigned.
      destruct (m_shots from !! (false, x)) as [sf|] eqn:Esf; [|exfalso; apply Hd; split; [done|]; apply HdT, Hdel; rewrite Eto; split; [eauto|unfold known; rewrite Esf; by intros [? ?]]].
      cbn. split_and!; try done. by exists sf.
  - done.
  - intros id. destruct (th_rest _ _ _ T4) as (-> & _). cbn. specialize (S2 id). rewrite Ec in S2. destruct (m_cameras to !! id), (m_cameras m2 !! id); try done. destruct S2 as [Ek H]. split; [done|].
    destruct H as [[E H]|(x & s & sf & cf & H1 & H2)]; [left|right].
    + split; [done|]. intros x s Hs. apply H. by apply Hk2.
    + exists x, s, sf, cf. split; [by apply Hk2|done].
  - intros id. pose proof (th_instances _ _ _ T4 id) as H. cbn in H. rewrite lookup_fmap, S6, Ei in H. destruct (m_instances to !! id) as [i|] eqn:Eti, (m_instances m4 !! id) as [i'|]; try done. cbn in H.
    destruct H as [Hp Hm]. destruct (map_instance_ok from m2 i If Vf) as [Em Hcase]. split.
    + intros s e. rewrite Hm, Em. split; intros [H1 H2]; (split; [done|]); destruct e as [b rc]; cbn [fst snd] in *; assert (is_Some (m_shots to !! (b, s))) as Hex by (destruct It as [_ _ [_ R2 _ _ _]]; destruct (R2 _ _ _ _ _ Eti H1) as (? & ? & _); eauto); by apply (Hkept' _ _ Hex).
    + rewrite Hp. rewrite Eoff in Hcase. exact Hcase.
  - intros id. pose proof (th_landmarks _ _ _ T4 id) as H. cbn in H. rewrite S7 in H. unfold landmark_realigned.
    assert (forall l, m_landmarks to !! id = Some l -> forall s b f, lm_obs l !! s = Some (b, f) -> is_Some (m_shots to !! (b, s))) as Hobs.
    { intros l Hl s b f Hf. destruct It as [_ HSy _]. assert (L_of (m_landmarks to) id s = Some (b, f)) as HL by (unfold L_of; rewrite Hl; done). apply HSy in HL as (o & Ho & _). apply O_some in Ho as (? & ? & _). eauto. }
    unfold m1 in H. destruct up.
    + cbn in H. rewrite lookup_fmap in H. destruct (m_landmarks to !! id) as [l|] eqn:Etl, (m_landmarks m4 !! id) as [l'|]; try done. cbn in H. destruct H as (Hp & Hc & Ho). split_and!; [done| |].
      * intros s e. rewrite Ho. split; intros [H1 H2]; (split; [done|]); destruct e as [b f]; cbn [fst snd] in *; apply (Hkept' _ _ (Hobs _ eq_refl _ _ _ H1)); done.
      * rewrite Hp. destruct (moved_point_ok from to l If Vf Vt) as [H|(nid & Hn & [H|[H Hg]])]; [by left|right; exists nid; split; [done|by left]|right; exists nid; split; [done|right; split; [done|]]].
        destruct (m_shots to !! (false, nid)) as [s|] eqn:Esn; [|done]. destruct (get_pose_some _ _ _ It Esn) as [? Hsome]. congruence.
    + destruct (m_landmarks to !! id) as [l|] eqn:Etl, (m_landmarks m4 !! id) as [l'|]; try done. destruct H as (Hp & Hc & Ho). split_and!; [done| |done].
      intros s e. rewrite Ho. split; intros [H1 H2]; (split; [done|]); destruct e as [b f]; cbn [fst snd] in *; apply (Hkept' _ _ (Hobs _ eq_refl _ _ _ H1)); done.
  - destruct (th_rest _ _ _ T4) as (_ & -> & -> & ->). cbn. by rewrite S4, S5, S8, Eb, Er, Ef.
Qed.
End Realign.
