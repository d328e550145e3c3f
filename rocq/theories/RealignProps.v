(** C54: the realignment of a map onto another one. *)
From stdpp Require Import prelude gmap strings.
From Coq Require Import Reals Lra.
From Verif Require Import Base Lin RotModel RotProofs PoseModel PoseSpec PoseProofs PoseProps GeoModel GeoProofs GeoProps TriangModel BundleModel CullModel MapModel MapSpec MapProofs MapProps RealignModel RealignSpec RealignProofs.
Local Open Scope R_scope.

Section Props.
Context {T B M X O : Type}.
Variable feature_of : O -> Z.
Variable bias0 : B. Variable data0 : metadata M. Variable mesh0 : X.
Notation map := (@map (camera T) B pose vec (metadata M) X O vec).
Notation shot := (shot (metadata M) X O).
Variable enumL : gmap string (landmark vec) -> list (string * landmark vec).
Variable enumF : gmap string (bool * Z) -> list (string * (bool * Z)).
Variable enumI : gmap string (bool * string) -> list (string * (bool * string)).
Variable enumO : gmap string O -> list (string * O).
Variable enumS : gmap shot_key shot -> list (shot_key * shot).
Variable enumT : gset string -> list string.
Hypothesis HL : enumerates enumL. Hypothesis HF : enumerates enumF. Hypothesis HI : enumerates enumI.
Hypothesis HO : enumerates enumO. Hypothesis HS : enumerates enumS. Hypothesis HT : forall s, enumT s ≡ₚ elements s.
Notation posed := (posed feature_of bias0 data0 mesh0 enumL enumF enumO).
Notation realign_maps := (realign_maps enumF enumI enumO enumS enumT).
Implicit Types from to m : map.

Lemma posed_ok m : posed m -> inv feature_of m /\ poses_valid m.
Proof using HL HF HO. by apply posed_inv. Qed.

(** realign_maps always succeeds. Its effect: shots that [from] does not know are removed, with their observations and memberships; the
    others take the scale and merge_cc of [from]; cameras, rig instances and points change as RealignSpec.v says; nothing else changes;
    no reference is left dangling and shots and landmarks still agree. *)
Theorem C54_realign : forall from to update_points, posed from -> posed to ->
  exists to', realign_maps from to update_points = Ok to' /\
    realigned from to update_points (from_to_offset from to) to' /\
    no_dangling to' /\ (forall k l f, landmark_lists to' l k f <-> exists o, shot_sees to' k l o /\ feature_of o = f) /\ poses_valid to'.
Proof using HF HI HL HO HS HT.
  intros from to up Hf Ht. destruct (posed_ok _ Hf) as [If Vf], (posed_ok _ Ht) as [It Vt].
  destruct (realign_ok feature_of enumF enumI enumO enumS enumT HF HI HO HS HT from to up If Vf It Vt) as (to' & E & I' & V' & H).
  exists to'. split; [done|]. split; [done|].
  assert (forall k l f, landmark_lists to' l k f <-> exists o, shot_sees to' k l o /\ feature_of o = f) as Hsym.
  { intros k l f. destruct I' as [_ HSy _]. rewrite lists_L. rewrite (HSy l k.2 k.1 f). destruct k. split; intros (o & H' & Eo); exists o; (split; [by apply sees_O|done]). }
  split_and!; [|done|done]. destruct I' as [_ _ [R1 R2 R3 R4 R5]]. split.
  - intros k s Hs. destruct (R3 _ _ Hs). split_and!; try done. by apply R1.
  - exact R2.
  - intros k l o Hs. assert (landmark_lists to' l k (feature_of o)) as (x & Hx & _) by (apply Hsym; eauto). eauto.
  - intros k l f Hl. apply Hsym in Hl as (o & (s & Hs & _) & _). eauto.
Qed.

(** The vector added is where the reference of [from] is in the local frame of [to]. *)
Theorem C54_offset : forall from to, on_earth (reference_of to) (from_to_offset from to) = on_earth (reference_of from) v0.
Proof using Type.
  intros from to. unfold on_earth, from_to_offset. rewrite (proj1 (C32_topocentric_lossless _ _ _)). symmetry. apply C32_frame_rigid.
Qed.

(** A shot of both maps with one rig camera ends where [from] has it, moved by that vector, provided that the members of its instance that
    [from] knows are all in one instance there. *)
Lemma regular_pose (m : map) k s i rc : m_shots m !! k = Some s -> m_instances m !! sh_instance s = Some i -> m_rig_cameras m !! sh_rig_camera s = Some rc ->
  regular rc -> valid (in_pose i) -> get_pose m k = Some (compose rc (in_pose i)).
Proof using Type.
  intros Hs Hi Hrc Hreg Hv. unfold get_pose. rewrite Hs; cbn. rewrite Hi; cbn. rewrite Hrc; cbn. f_equal. unfold shot_get_pose.
  destruct Hreg as [->| ->]; [|done]. destruct (_ && _); [by rewrite compose_0_l|done].
Qed.
Definition same_rig (from to : map) (id : string) : Prop :=
  exists s sf rc i, m_shots to !! (false, id) = Some s /\ m_shots from !! (false, id) = Some sf /\
    m_rig_cameras to !! sh_rig_camera s = Some rc /\ m_rig_cameras from !! sh_rig_camera sf = Some rc /\ regular rc /\
    m_instances to !! sh_instance s = Some i /\
    forall x xf, is_Some (in_members i !! x) -> m_shots from !! (false, x) = Some xf -> sh_instance xf = sh_instance sf.
Theorem C54_poses : forall from to update_points to' id, posed from -> posed to -> realign_maps from to update_points = Ok to' ->
  same_rig from to id ->
  exists p p', get_pose from (false, id) = Some p /\ get_pose to' (false, id) = Some p' /\ shifted p (from_to_offset from to) p'.
Proof using HF HI HL HO HS HT.
  intros from to up to' id Hf Ht E (s & sf & rc & i & Hs & Hsf & Hrc & Hrcf & Hreg & Hi & Hall).
  destruct (C54_realign from to up Hf Ht) as (to'' & E' & [A1 A2 A3 A4 A5 (_ & A6 & _)] & _ & _ & _ & V'). rewrite E in E'. injection E' as <-.
  destruct (posed_ok _ Hf) as [If [Vf1 Vf2]], (posed_ok _ Ht) as [It Vt].
  destruct (rig_shot _ (inv_rig _ _ If) _ _ Hsf) as (i_f & Hif & _).
  assert (valid (in_pose i_f)) as Vif by eauto. assert (valid rc) as Vrc by eauto.
  exists (compose rc (in_pose i_f)). assert (is_Some (m_shots to' !! (false, id))) as [s' Hs'] by (apply (A2 _ _ Hs); right; exists sf; done).
  destruct (A1 _ _ Hs') as (s0 & Hs0 & (_ & R2 & R3 & _)). rewrite Hs in Hs0. injection Hs0 as <-.
  specialize (A4 (sh_instance s)). rewrite Hi in A4. destruct (m_instances to' !! sh_instance s) as [i'|] eqn:Hi'; [|done]. destruct A4 as [_ A4].
  assert (is_Some (in_members i !! id)) as Hmem.
  { destruct (rig_shot _ (inv_rig _ _ It) _ _ Hs) as (i0 & Hi0 & Hm). rewrite Hi in Hi0. injection Hi0 as <-. eauto. }
  destruct A4 as [[_ A4]|(x & xf & ix & Hx & Hxf & Hix & Hsh)]; [by destruct (A4 id Hmem); exists sf|].
  rewrite (Hall x xf Hx Hxf) in Hix. rewrite Hif in Hix. injection Hix as <-.
  exists (compose rc (in_pose i')). split; [by eapply regular_pose|]. split; [|by apply shifted_compose].
  eapply regular_pose; [done|by rewrite R3|by rewrite R2, A6|done|]. by destruct Hsh.
Qed.

(** A moved point is seen from the nearest common shot, in its new place, as it was seen before in its old place; distances are divided
    by the scale of the shot. In particular its image does not move. *)
Theorem C54_points : forall from to to' lm l id pt sf, posed from -> posed to -> realign_maps from to true = Ok to' ->
  m_landmarks to !! lm = Some l ->
  same_rig from to id ->
  get_pose to (false, id) = Some pt -> nearest_observer from to l id ->
  (forall id', nearest_observer from to l id' -> id' = id) ->
  m_shots from !! (false, id) = Some sf ->
  exists l' p', m_landmarks to' !! lm = Some l' /\ get_pose to' (false, id) = Some p' /\
    transform p' (lm_pos l') = vscale (1 / scale_from sf) (transform pt (lm_pos l)) /\
    (forall (I : Type) (project : vec -> I), directional project -> 0 <= d_scale (sh_data sf) ->
       project (transform p' (lm_pos l')) = project (transform pt (lm_pos l))).
Proof using HF HI HL HO HS HT.
  intros from to to' lm l id pt sf Hf Ht E Hl Hsr Hpt Hn Huniq Hsf.
  destruct (C54_realign from to true Hf Ht) as (to'' & E' & [A1 A2 A3 A4 A5 (_ & A6 & _)] & _). rewrite E in E'. injection E' as <-.
  specialize (A5 lm). rewrite Hl in A5. destruct (m_landmarks to' !! lm) as [l'|] eqn:Hl'; [|done]. destruct A5 as (_ & _ & A5).
  destruct A5 as [[_ A5]|(id' & Hn' & A5)]; [destruct Hn as (p & Hp & _); by destruct (A5 _ _ Hp)|]. rewrite (Huniq _ Hn') in A5.
  destruct A5 as [(sf' & pf & pf' & pt' & Esf & Epf & Ept & Hsh & Htr)|[_ A5]].
  2: { unfold get_pose in Hpt. rewrite A5 in Hpt. done. }
  rewrite Hsf in Esf. injection Esf as <-. rewrite Hpt in Ept. injection Ept as <-.
  destruct (C54_poses from to true to' id Hf Ht E Hsr) as (p & p' & Hp & Hp' & Hsh'). rewrite Epf in Hp. injection Hp as <-.
  assert (pf' = p') as <-.
  { destruct Hsh as (V1 & W1 & O1), Hsh' as (V2 & W2 & O2). apply valid_ext; [done|done|congruence|].
    pose proof (origin_zero _ V1) as Z1. pose proof (origin_zero _ V2) as Z2. rewrite O1 in Z1. rewrite O2 in Z2. unfold transform in Z1, Z2. rewrite W1 in Z1. rewrite W2 in Z2. rewrite <- Z2 in Z1.
    revert Z1. generalize (mvec (w_rot pf) (vadd (get_origin pf) (from_to_offset from to))). intros [a b c]. destruct (w_tr pf'), (w_tr p'). unfold vadd; simpl. intros [= ? ? ?]. f_equal; lra. }
  exists l', pf'. split_and!; [done|done|done|]. intros I project Hd Hs. rewrite Htr. apply Hd. unfold scale_from. destruct (Req_EM_T _ _); [lra|]. apply Rdiv_lt_0_compat; lra.
Qed.

(** The shots keep their place on Earth when the two references have the same latitude and longitude... *)
Theorem C54_geodetic : forall from to x, vx (reference_of from) = vx (reference_of to) -> vy (reference_of from) = vy (reference_of to) ->
  on_earth (reference_of to) (vadd x (from_to_offset from to)) = on_earth (reference_of from) x.
Proof using Type.
  intros from to x E1 E2. pose proof (C54_offset from to) as H. revert H. unfold on_earth, affine_apply. cbn [af_mat af_vec ecef_from_topocentric_transform]. rewrite E1, E2.
  match goal with |- vadd (mvec ?A _) ?t = vadd (mvec ?A _) ?t' -> _ => generalize A t t' end. generalize (from_to_offset from to).
  intros [] [] [] []. destruct x. unfold v0, vadd, mvec; simpl. intros [= H1 H2 H3]. f_equal; lra.
Qed.

(** Realigning a map onto itself moves nothing: without pano shots, with scales 0 or 1 and rig cameras whose poses are exact. *)
Theorem C54_itself : forall m update_points m', posed m ->
  (forall id, m_shots m !! (true, id) = None) ->
  (forall k s, m_shots m !! k = Some s -> d_scale (sh_data s) = 0 \/ d_scale (sh_data s) = 1) ->
  realign_maps m m update_points = Ok m' ->
  (forall k, get_pose m' k = get_pose m k) /\ (forall l, lm_pos <$> m_landmarks m' !! l = lm_pos <$> m_landmarks m !! l) /\
  (forall k, m_shots m' !! k = m_shots m !! k).
Proof using HF HI HL HO HS HT.
  intros m up m' Hm Hpano Hscale E. destruct (C54_realign m m up Hm Hm) as (m'' & E' & [A1 A2 A3 A4 A5 (_ & A6 & _)] & _). rewrite E in E'. injection E' as <-.
  destruct (posed_ok _ Hm) as [Im [V1 V2]].
  assert (from_to_offset m m = v0) as Eo. { unfold from_to_offset. apply C32_frame_rigid. }
  rewrite Eo in A4, A5.
  assert (forall k s, m_shots m !! k = Some s -> is_Some (m_shots m' !! k)) as Hkept.
  { intros [b x] s Hs. destruct b; [by rewrite Hpano in Hs|]. apply (A2 _ _ Hs). right. cbn. exists s. done. }
  assert (forall k, m_shots m' !! k = m_shots m !! k) as Hshots.
  { intros k. destruct (m_shots m !! k) as [s|] eqn:Hs.
    - destruct (Hkept _ _ Hs) as [s' Hs']. destruct (A1 _ _ Hs') as (s0 & Hs0 & (Ea & Eb & Ec & Ed & Ee & Ef & Eg)). rewrite Hs in Hs0. injection Hs0 as <-. rewrite Hs'. f_equal.
      destruct k as [[] x]; [by rewrite Hpano in Hs|]. cbn in Eg. destruct Eg as (sf & Hsf & Eg). rewrite Hs in Hsf. injection Hsf as <-. destruct s, s'; cbn in *. subst. f_equal. by destruct sh_data.
    - destruct (m_shots m' !! k) eqn:Hs'; [|done]. destruct (A1 _ _ Hs') as (s0 & Hs0 & _). congruence. }
  assert (forall p p', valid p -> shifted p v0 p' -> p' = p) as Hsh.
  { intros p p' Vp (Vp' & W & Or). apply valid_ext; [done|done|done|].
    pose proof (origin_zero _ Vp) as Z1. pose proof (origin_zero _ Vp') as Z2. assert (get_origin p' = get_origin p) as Eor. { rewrite Or. destruct (get_origin p); unfold vadd, v0; simpl; f_equal; lra. }
    rewrite Eor in Z2. unfold transform in Z1, Z2. rewrite W in Z2. rewrite <- Z1 in Z2.
    revert Z2. generalize (mvec (w_rot p) (get_origin p)). intros [a b c]. destruct (w_tr p'), (w_tr p). unfold vadd; simpl. intros [= ? ? ?]. f_equal; lra. }
  assert (forall id, in_pose <$> m_instances m' !! id = in_pose <$> m_instances m !! id) as Hinst.
  { intros id. specialize (A4 id). destruct (m_instances m !! id) as [i|] eqn:Hi, (m_instances m' !! id) as [i'|]; try done. cbn. f_equal. destruct A4 as [_ [[A4 _]|(x & xf & ix & [[b rc] Hx] & Hxf & Hix & Hs)]]; [done|].
    destruct (rig_inst _ (inv_rig _ _ Im) _ _ _ _ _ Hi Hx) as (y & Hy & Ey & _). destruct b; [by rewrite Hpano in Hy|]. rewrite Hxf in Hy. injection Hy as <-. rewrite Ey, Hi in Hix. injection Hix as <-.
    apply Hsh; [eauto|done]. }
  assert (forall id, in_members <$> m_instances m' !! id = in_members <$> m_instances m !! id) as Hmem.
  { intros id. specialize (A4 id). destruct (m_instances m !! id) as [i|] eqn:Hi, (m_instances m' !! id) as [i'|]; try done. cbn. f_equal. destruct A4 as [A4 _]. apply map_eq. intros x. apply option_eq. intros e. rewrite A4.
    split; [naive_solver|]. intros He. split; [done|]. destruct e as [b rc]. destruct (rig_inst _ (inv_rig _ _ Im) _ _ _ _ _ Hi He) as (y & Hy & _). eauto. }
  split_and!; [| |done].
  - intros k. unfold get_pose. rewrite Hshots, A6. destruct (m_shots m !! k) as [s|]; cbn; [|done]. specialize (Hinst (sh_instance s)). specialize (Hmem (sh_instance s)).
    destruct (m_instances m !! sh_instance s) as [i|], (m_instances m' !! sh_instance s) as [i'|]; try done. cbn in *. injection Hinst as ->. injection Hmem as ->. done.
  - intros l. specialize (A5 l). destruct (m_landmarks m !! l) as [x|] eqn:Hl, (m_landmarks m' !! l) as [x'|]; try done. cbn. f_equal. destruct A5 as (_ & _ & A5). destruct up; [|done].
    destruct A5 as [[A5 _]|(id & _ & [(sf & pf & pf' & pt & Hsf & Hpf & Hpt & Hs & Htr)|[A5 _]])]; [done| |done].
    rewrite Hpf in Hpt. injection Hpt as <-. pose proof (get_pose_valid m _ _ (conj V1 V2) Hpf) as Vpf. rewrite (Hsh _ _ Vpf Hs) in Htr.
    assert (scale_from sf = 1) as Esc. { unfold scale_from. destruct (Req_EM_T _ _); [done|]. by destruct (Hscale _ _ Hsf). }
    rewrite Esc in Htr. replace (1 / 1) with 1 in Htr by lra.
    assert (vscale 1 (transform pf (lm_pos x)) = transform pf (lm_pos x)) as E1. { destruct (transform pf (lm_pos x)); unfold vscale; simpl; f_equal; lra. }
    rewrite E1 in Htr. rewrite <- (transform_cancel pf (lm_pos x') Vpf), Htr. by apply transform_cancel.
Qed.
End Props.

(** ... but not in general: only a translation is applied, although the axes of the two local frames differ. *)
Theorem C54_geodetic_refuted : exists from to : @map (camera unit) unit pose vec (metadata unit) unit Z vec, exists x,
  on_earth (reference_of to) (vadd x (from_to_offset from to)) <> on_earth (reference_of from) x.
Proof.
  exists (set_reference map_empty (Some (Vec 0 0 0))), (set_reference map_empty (Some (Vec 0 90 0))), (Vec 1 0 0).
  set (from := set_reference map_empty (Some (Vec 0 0 0))). set (to := set_reference map_empty (Some (Vec 0 90 0))).
  intros E. pose proof (C54_offset from to) as H. revert E H. generalize (from_to_offset from to). intros off.
  unfold on_earth, affine_apply. change (reference_of to) with (Vec 0 90 0). change (reference_of from) with (Vec 0 0 0).
  cbn [vx vy vz af_mat af_vec ecef_from_topocentric_transform]. generalize (ecef_from_lla 0 90 0) (ecef_from_lla 0 0 0). intros [] [].
  replace (radians 90) with (PI / 2) by (unfold radians; field). replace (radians 0) with 0 by (unfold radians; lra).
  rewrite sin_PI2, cos_PI2, sin_0, cos_0. destruct off. unfold vadd, mvec, v0; simpl. intros [= E1 E2 E3] [= H1 H2 H3]. lra.
Qed.

(** Two maps that meet the hypotheses of C54_points: [from] knows the shot a, with another pose and scale 2; [to] also has the shot b; both see
    the point l. *)
Section Example.
Context {P V D : Type} (pose0 q r : P) (d0 d : D) (x : V) (pc : P -> P -> P) (pi : P -> P).
Notation op := (@map_op (camera unit) unit P V D unit Z vec).
Definition ex_from_ops : list op :=
  [MCamera "cam" (Camera [1] tt); MRigCamera "rc" pose0; MInstance "i"; MShot (false, "a") "cam" "rc" "i" None; MInstancePose "i" q; MAssign (false, "a") d].
Definition ex_to_ops : list op :=
  [MCamera "cam" (Camera [2] tt); MRigCamera "rc" pose0; MInstance "i"; MInstance "j"; MShot (false, "a") "cam" "rc" "i" None; MShot (false, "b") "cam" "rc" "j" None;
   MInstancePose "i" r; MLandmark "l" x; MAddObs (false, "a") "l" 1%Z; MAddObs (false, "b") "l" 1%Z].
Definition ex_step := map_step (C:=camera unit) (V:=V) (R:=vec) (fun o : Z => o) tt pose0 d0 tt pc pi map_to_list map_to_list map_to_list.
Definition ex_run (ops : list op) (n : nat) := foldl ex_step map_empty (take n ops).
Lemma ex_allowed : (forall n op, ex_from_ops !! n = Some op -> allowed (fun o : Z => o) (ex_run ex_from_ops n) op) /\
  (forall n op, ex_to_ops !! n = Some op -> allowed (fun o : Z => o) (ex_run ex_to_ops n) op).
Proof.
  split.
  - intros n op H. destruct n as [|[|[|[|[|[|n]]]]]]; try done; injection H as <-; try exact I.
    intros i Hi. vm_compute in Hi. by injection Hi as <-.
  - intros n op H. destruct n as [|[|[|[|[|[|[|[|[|[|n]]]]]]]]]]; try done; injection H as <-; try exact I.
    + intros i Hi. vm_compute in Hi. by injection Hi as <-.
    + intros i Hi. vm_compute in Hi. by injection Hi as <-.
    + split.
      * intros lm o (s & Hs & Ho). vm_compute in Hs. injection Hs as <-. by vm_compute in Ho.
      * intros b f (l & Hl & Hf). vm_compute in Hl. injection Hl as <-. by vm_compute in Hf.
    + split.
      * intros lm o (s & Hs & Ho). vm_compute in Hs. injection Hs as <-. by vm_compute in Ho.
      * intros b f (l & Hl & Hf). vm_compute in Hl. injection Hl as <-. by vm_compute in Hf.
Qed.
Lemma ex_maps :
  (exists m, ex_run ex_from_ops 6 = m /\ m_shots m !! (false, "a") = Some (Shot "cam" "rc" "i" d tt ∅ ∅) /\ m_shots m !! (false, "b") = None /\
     m_instances m !! "i" = Some (Instance q {["a" := (false, "rc")]}) /\ m_rig_cameras m !! "rc" = Some pose0) /\
  (exists m, ex_run ex_to_ops 10 = m /\ m_shots m !! (false, "a") = Some (Shot "cam" "rc" "i" d0 tt {["l" := 1%Z]} {[1%Z := "l"]}) /\
     m_instances m !! "i" = Some (Instance r {["a" := (false, "rc")]}) /\ m_rig_cameras m !! "rc" = Some pose0 /\
     m_landmarks m !! "l" = Some (Landmark x (255, 0, 0)%Z {["b" := (false, 1%Z); "a" := (false, 1%Z)]})).
Proof. split; eexists; (split; [reflexivity|]); split_and!; vm_compute; reflexivity. Qed.
End Example.
Lemma ex_posed (ops : list (@map_op (camera unit) unit pose vec (metadata unit) unit Z vec)) d0 n :
  (forall n op, ops !! n = Some op -> allowed (fun o : Z => o) (ex_run pose0 d0 compose PoseModel.inverse ops n) op) ->
  (forall n op, ops !! n = Some op -> op_valid op) ->
  posed (fun o : Z => o) tt d0 tt map_to_list map_to_list map_to_list (ex_run pose0 d0 compose PoseModel.inverse ops n).
Proof.
  intros Ha Hv. induction n as [|n IH]; [unfold ex_run; rewrite take_0; apply posed_empty|].
  destruct (ops !! n) as [op|] eqn:E.
  - unfold ex_run. rewrite (take_S_r _ _ _ E), foldl_app. cbn [foldl]. apply (posed_step _ _ _ _ _ _ _ (ex_run pose0 d0 compose PoseModel.inverse ops n)); eauto.
  - unfold ex_run in *. apply lookup_ge_None in E. rewrite (take_ge ops n) in IH by lia. rewrite take_ge by lia. done.
Qed.
Example C54_nonvacuous : exists from to : @map (camera unit) unit pose vec (metadata unit) unit Z vec, exists l pt sf,
  posed (fun o : Z => o) tt (Metadata 0 1 tt) tt map_to_list map_to_list map_to_list from /\
  posed (fun o : Z => o) tt (Metadata 0 1 tt) tt map_to_list map_to_list map_to_list to /\
  m_landmarks to !! "l" = Some l /\ same_rig from to "a" /\ get_pose to (false, "a") = Some pt /\ nearest_observer from to l "a" /\
  (forall id', nearest_observer from to l id' -> id' = "a") /\ m_shots from !! (false, "a") = Some sf /\ scale_from sf = 2 /\
  ~ known from "b" /\ size (lm_obs l) = 2%nat.
Proof.
  set (q := pose_of_vector (Vec 1 2 3) (Vec 4 5 6)). set (r := pose_of_vector (Vec 0 0 1) (Vec 1 0 0)).
  set (d0 := Metadata 0 1 tt). set (d := Metadata 7 2 tt). set (x := Vec 9 8 7).
  assert (valid q) as Vq by apply from_w2c_valid, exp_rotation. assert (valid r) as Vr by apply from_w2c_valid, exp_rotation.
  destruct (ex_allowed pose0 q r d0 d x compose PoseModel.inverse) as [Af At]. destruct (ex_maps pose0 q r d0 d x compose PoseModel.inverse) as [(mf & Ef & F1 & F2 & F3 & F4) (mt & Et & T1 & T2 & T3 & T4)].
  assert (posed (fun o : Z => o) tt d0 tt map_to_list map_to_list map_to_list mf) as Pf.
  { rewrite <- Ef. apply ex_posed; [done|]. intros n op H. destruct n as [|[|[|[|[|[|n]]]]]]; try discriminate H; injection H as <-; cbn [op_valid]; try exact I; try exact Vq; apply valid_pose0. }
  assert (posed (fun o : Z => o) tt d0 tt map_to_list map_to_list map_to_list mt) as Pt.
  { rewrite <- Et. apply ex_posed; [done|]. intros n op H. destruct n as [|[|[|[|[|[|[|[|[|[|n]]]]]]]]]]; try discriminate H; injection H as <-; cbn [op_valid]; try exact I; try exact Vr; apply valid_pose0. }
  assert (~ known mf "b") as Hb by (unfold known; rewrite F2; by intros [? ?]).
  assert (get_pose mt (false, "a") = Some (compose pose0 r)) as Hpt by exact (regular_pose mt (false, "a") _ _ _ T1 T2 T3 (or_introl eq_refl) Vr).
  assert (forall id p, observer mf mt (Landmark x (255, 0, 0)%Z {["b" := (false, 1%Z); "a" := (false, 1%Z)]}) id p -> id = "a" /\ p = compose pose0 r) as Hobs.
  { intros id p (b & f & H1 & H2 & H3). cbn in H1. apply lookup_insert_Some in H1 as [[<- [= <- <-]]|[_ H1]].
    - done.
    - apply lookup_singleton_Some in H1 as [<- [= <- <-]]. rewrite Hpt in H3. injection H3 as <-. done. }
  exists mf, mt, (Landmark x (255, 0, 0)%Z {["b" := (false, 1%Z); "a" := (false, 1%Z)]}), (compose pose0 r), (Shot "cam" "rc" "i" d tt ∅ ∅).
  split; [done|]. split; [done|]. split; [done|]. split.
  { exists (Shot "cam" "rc" "i" d0 tt {["l" := 1%Z]} {[1%Z := "l"]}), (Shot "cam" "rc" "i" d tt ∅ ∅), pose0, (Instance r {["a" := (false, "rc")]}).
    split_and!; [done|done|done|done|by left|done|]. intros y yf [e Hy] Hyf. cbn in Hy. apply lookup_singleton_Some in Hy as [<- _]. rewrite F1 in Hyf. by injection Hyf as <-. }
  split; [done|]. split.
  { exists (compose pose0 r). split.
    - exists false, 1%Z. split; [cbn; by rewrite lookup_insert_ne|]. split; [by exists (Shot "cam" "rc" "i" d tt ∅ ∅)|done].
    - intros id p Hp. apply Hobs in Hp as [-> ->]. lra. }
  split; [intros id (p & Hp & _); by apply Hobs in Hp as [-> _]|]. split; [done|]. split; [|done].
  unfold scale_from. cbn. destruct (Req_EM_T 2 0); [lra|done].
Qed.
Print Assumptions C54_realign.
Print Assumptions C54_offset.
Print Assumptions C54_poses.
Print Assumptions C54_points.
Print Assumptions C54_geodetic.
Print Assumptions C54_geodetic_refuted.
Print Assumptions C54_itself.
Print Assumptions C54_nonvacuous.
