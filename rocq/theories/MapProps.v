(** C08, C09, C10: the observation graph of a Map. *)
From stdpp Require Import prelude gmap strings.
From Verif Require Import Base TracksModel MapModel MapSpec MapProofs.

Section Props.
Context {C B P V D X O R : Type}.
Variable feature_of : O -> Z.
Variable bias0 : B. Variable pose0 : P. Variable data0 : D. Variable mesh0 : X.
Variable pcompose : P -> P -> P. Variable pinverse : P -> P.
Variable enumL : gmap string (landmark V) -> list (string * landmark V).
Variable enumF : gmap string (bool * Z) -> list (string * (bool * Z)).
Variable enumO : gmap string O -> list (string * O).
Hypothesis HL : enumerates enumL. Hypothesis HF : enumerates enumF. Hypothesis HO : enumerates enumO.
Notation map := (@map C B P V D X O R).
Notation exec := (map_exec feature_of bias0 pose0 data0 mesh0 pcompose pinverse enumL enumF enumO).
Notation step := (map_step feature_of bias0 pose0 data0 mesh0 pcompose pinverse enumL enumF enumO).
Notation reach := (reachable feature_of step).

Lemma reach_inv (m : map) : reach m -> inv feature_of m.
Proof. by apply reachable_inv. Qed.

(** ** C08 *)
(** In every map reached under the protocol, landmarks list exactly the observations that shots hold. *)
Theorem C08_symmetric : forall m : map, reach m ->
  forall k l f, landmark_lists m l k f <-> exists o, shot_sees m k l o /\ feature_of o = f.
Proof.
  intros m Hm k l f. destruct (reach_inv _ Hm) as [_ HS _]. rewrite lists_L. rewrite (HS l k.2 k.1 f).
  destruct k. split; intros (o & H & E); exists o; (split; [by apply sees_O|done]).
Qed.

(** shot.get_observation(f) returns exactly the observation of the shot whose feature id is f. *)
Theorem C08_get_observation : forall m : map, reach m -> forall k s, m_shots m !! k = Some s ->
  forall f o, shot_get_observation s f = Ok o <-> exists l, sh_obs s !! l = Some o /\ feature_of o = f.
Proof.
  intros m Hm k s Hs f o. destruct (reach_inv _ Hm) as [Hf _ _].
  assert (forall l, sh_feat s !! f = Some l <-> exists o, sh_obs s !! l = Some o /\ feature_of o = f) as H.
  { intros l. specialize (Hf k f l). unfold F_of, O_of in Hf. rewrite Hs in Hf. exact Hf. }
  unfold shot_get_observation. split.
  - destruct (sh_feat s !! f) as [l|] eqn:E; cbn [res_bind of_option]; [|done].
    destruct (sh_obs s !! l) as [o'|] eqn:E'; [|done]. intros [= ->]. exists l. split; [done|].
    destruct (proj1 (H l) eq_refl) as (o2 & Ho2 & <-). rewrite E' in Ho2. by injection Ho2 as ->.
  - intros (l & Ho & Hfo). assert (sh_feat s !! f = Some l) as -> by (apply H; eauto). cbn [res_bind of_option]. by rewrite Ho.
Qed.

(** add_observation adds that observation and nothing else; it fails exactly when the shot or the landmark is unknown. *)
Theorem C08_add_observation : forall m : map, reach m -> forall k l o, allowed feature_of m (MAddObs k l o) ->
  match exec m (MAddObs k l o) with
  | Ok m' => is_Some (m_shots m !! k) /\ is_Some (m_landmarks m !! l) /\ same_frame m m' /\
      (forall k' l' o', shot_sees m' k' l' o' <-> (k' = k /\ l' = l /\ o' = o) \/ shot_sees m k' l' o') /\
      (forall l', (fun x => (lm_pos x, lm_color x)) <$> m_landmarks m' !! l' = (fun x => (lm_pos x, lm_color x)) <$> m_landmarks m !! l')
  | Err _ => m_shots m !! k = None \/ m_landmarks m !! l = None
  end.
Proof.
  intros m Hm k l o Hal. pose proof (reach_inv _ Hm) as Hinv. simpl. destruct (add_observation feature_of m k l o) as [m'|e] eqn:E.
  - destruct Hal as [H1 H2]. destruct (add_observation_ok feature_of pose0 pcompose pinverse m k l o m' Hinv H1 H2 E) as (_ & Hst & Ho & Hl & Hm').
    unfold add_observation in E. destruct (m_shots m !! k) as [s|] eqn:Es; [|done]. destruct (m_landmarks m !! l) as [x|] eqn:Ex; [|done].
    split; [eauto|]. split; [eauto|]. split; [rewrite Hm'; by repeat split|]. split.
    + intros k' l' o'. rewrite !sees_O, Ho. case_decide as Hd; [|naive_solver]. destruct Hd as [-> ->].
      split; [intros [= ->]; by left|]. intros [(_ & _ & ->)|Hs']; [done|]. exfalso.
      apply (H2 k.1 (feature_of o')). apply (C08_symmetric m Hm (k.1, k.2) l). exists o'. split; [|done]. apply sees_O. by destruct k.
    + intros l'. rewrite Hl. case_decide; [|done]. by destruct (m_landmarks m !! l').
  - unfold add_observation in E. destruct (m_shots m !! k); [|by left]. destruct (m_landmarks m !! l); [done|by right].
Qed.

(** remove_observation removes that observation and nothing else; it fails exactly when there is none. *)
Theorem C08_remove_observation : forall m : map, reach m -> forall s l, allowed feature_of m (MRemoveObs s l) ->
  match exec m (MRemoveObs s l) with
  | Ok m' => (exists o, shot_sees m (false, s) l o) /\ same_frame m m' /\
      (forall k' l' o', shot_sees m' k' l' o' <-> ~ (k' = (false, s) /\ l' = l) /\ shot_sees m k' l' o')
  | Err _ => forall o, ~ shot_sees m (false, s) l o
  end.
Proof.
  intros m Hm s l Hal. pose proof (reach_inv _ Hm) as Hinv. simpl. destruct (remove_observation m s l) as [m'|e] eqn:E.
  - destruct (remove_observation_ok feature_of pose0 pcompose pinverse m s l m' Hinv Hal E) as (_ & Hst & (o & Hs) & Ho & Hm').
    split; [exists o; by apply sees_O|]. split; [rewrite Hm'; by repeat split|].
    intros k' l' o'. rewrite !sees_O, Ho. case_decide; naive_solver.
  - intros o Hs. assert (landmark_lists m l (false, s) (feature_of o)) as (x & Hx & Hlo) by (apply C08_symmetric; eauto).
    destruct Hs as (y & Hy & Hyo). unfold remove_observation in E. rewrite Hy, Hx in E. simpl in Hlo. rewrite Hlo in E.
    destruct Hinv as [Hf _ _]. assert (F_of (m_shots m) (false, s) (feature_of o) = Some l) as HFo.
    { apply Hf. exists o. split; [|done]. unfold O_of. by rewrite Hy. }
    unfold F_of in HFo. rewrite Hy in HFo. unfold shot_remove_obs in E. simpl in HFo. by rewrite HFo in E.
Qed.

(** Whatever allowed call fails, it fails with a RuntimeError, and no allowed call follows a dangling pointer. *)
Theorem C08_errors : forall m : map, reach m -> forall op, allowed feature_of m op ->
  forall e, exec m op = Err e -> e = RuntimeError.
Proof. intros m Hm op Hal e H. eapply exec_error; [done..|by apply reach_inv|done|done]. Qed.

(** ** C09 *)
Theorem C09_no_dangling : forall m : map, reach m -> no_dangling m.
Proof.
  intros m Hm. pose proof (reach_inv _ Hm) as [Hf HS [R1 R2 R3 R4 R5]]. split.
  - intros k s Hs. destruct (R3 _ _ Hs). split_and!; try done. by apply R1.
  - exact R2.
  - intros k l o Hs. assert (landmark_lists m l k (feature_of o)) as (x & Hx & _) by (apply C08_symmetric; eauto). eauto.
  - intros k l f Hl. apply (C08_symmetric m Hm) in Hl as (o & (s & Hs & _) & _). eauto.
Qed.

(** remove_shot on an existing shot: the shot is gone, its instance does not list it any more, no landmark lists it, and
    everything else is as before. *)
Theorem C09_remove_shot : forall m : map, reach m -> forall k s, m_shots m !! k = Some s ->
  exists m', exec m (MRemoveShot k) = Ok m' /\
    m_shots m' !! k = None /\ (forall k', k' <> k -> m_shots m' !! k' = m_shots m !! k') /\
    (forall l f, ~ landmark_lists m' l k f) /\
    (forall l k' f, k' <> k -> landmark_lists m' l k' f <-> landmark_lists m l k' f) /\
    (forall l, (fun x => (lm_pos x, lm_color x)) <$> m_landmarks m' !! l = (fun x => (lm_pos x, lm_color x)) <$> m_landmarks m !! l) /\
    (forall id, in_pose <$> m_instances m' !! id = in_pose <$> m_instances m !! id) /\
    (forall id s' e, (m_instances m' !! id ≫= fun i => in_members i !! s') = Some e <->
       (m_instances m !! id ≫= fun i => in_members i !! s') = Some e /\ ~ (id = sh_instance s /\ s' = k.2)) /\
    m_cameras m' = m_cameras m /\ m_bias m' = m_bias m /\ m_rig_cameras m' = m_rig_cameras m /\ m_reference m' = m_reference m.
Proof.
  intros m Hm k s Hs. pose proof (reach_inv _ Hm) as Hinv.
  destruct (remove_shot_ok feature_of m enumO k s HO Hinv Hs) as (m' & i & Hr & Hinv' & Hsh & Hi & Hin & Hlm & Heq).
  exists m'. split; [exact Hr|].
  assert (forall k', k' <> k -> m_shots m' !! k' = m_shots m !! k') as Hfr by (intros k' ?; by rewrite Hsh, lookup_delete_ne).
  assert (forall l k' f, landmark_lists m' l k' f <-> exists o, shot_sees m' k' l o /\ feature_of o = f) as Hsym.
  { intros l k' f. rewrite lists_L. destruct Hinv' as [_ HS' _]. rewrite (HS' l k'.2 k'.1 f).
    destruct k'. split; intros (o & H & E); exists o; (split; [by apply sees_O|done]). }
  split_and!.
  - rewrite Hsh. by rewrite lookup_delete.
  - done.
  - intros l f Hl. apply Hsym in Hl as (o & (x & Hx & _) & _). by rewrite Hsh, lookup_delete in Hx.
  - intros l k' f Hk. rewrite Hsym. rewrite (C08_symmetric m Hm). unfold shot_sees. by rewrite (Hfr k' Hk).
  - intros l. rewrite Hlm. case_decide; [|done]. by destruct (m_landmarks m !! l).
  - intros id. rewrite Hin. destruct (decide (sh_instance s = id)) as [<-|Hne]; [by rewrite lookup_insert, Hi|by rewrite lookup_insert_ne].
  - intros id s' e. rewrite Hin. destruct (decide (sh_instance s = id)) as [<-|Hne].
    + rewrite lookup_insert, Hi. simpl. rewrite lookup_delete_Some. naive_solver.
    + rewrite lookup_insert_ne by done. naive_solver.
  - by rewrite Heq.
  - by rewrite Heq.
  - by rewrite Heq.
  - by rewrite Heq.
Qed.

(** remove_landmark on an existing landmark: the landmark is gone, no shot observes it, everything else is as before. *)
Theorem C09_remove_landmark : forall m : map, reach m -> forall l, is_Some (m_landmarks m !! l) ->
  exists m', exec m (MRemoveLandmark l) = Ok m' /\
    m_landmarks m' !! l = None /\ (forall l', l' <> l -> m_landmarks m' !! l' = m_landmarks m !! l') /\
    same_frame m m' /\
    (forall k l' o, shot_sees m' k l' o <-> l' <> l /\ shot_sees m k l' o).
Proof.
  intros m Hm l [x Hx]. pose proof (reach_inv _ Hm) as Hinv.
  destruct (remove_landmark_ok feature_of m enumF l x HF Hinv Hx) as (m' & Hr & _ & Hst & Hlm & Ho & Heq).
  exists m'. split; [exact Hr|]. split_and!.
  - rewrite Hlm. by rewrite lookup_delete.
  - intros l' ?. rewrite Hlm. by rewrite lookup_delete_ne.
  - rewrite Heq. by repeat split.
  - intros k l' o. rewrite !sees_O, Ho. case_decide; naive_solver.
Qed.

(** Removing what is not there is an error. *)
Theorem C09_remove_missing : forall m : map, reach m ->
  (forall k, m_shots m !! k = None -> exec m (MRemoveShot k) = Err RuntimeError) /\
  (forall l, m_landmarks m !! l = None -> exec m (MRemoveLandmark l) = Err RuntimeError).
Proof. intros m Hm. split; intros x Hx; simpl; [unfold remove_shot|unfold remove_landmark]; by rewrite Hx. Qed.

(** ** C10 *)
Theorem C10_clean : forall m : map, reach m -> forall n, exists m', exec m (MClean n) = Ok m' /\
  (forall l x, m_landmarks m' !! l = Some x <-> m_landmarks m !! l = Some x /\ n <= size (lm_obs x)) /\
  same_frame m m' /\
  (forall k l o, shot_sees m' k l o <-> shot_sees m k l o /\ is_Some (m_landmarks m' !! l)).
Proof.
  intros m Hm n. pose proof (reach_inv _ Hm) as Hinv.
  destruct (clean_landmarks_ok feature_of m enumL enumF n HL HF Hinv) as (m' & Hr & _ & Hst & Hlm & Ho & Heq).
  exists m'. split; [exact Hr|]. split_and!.
  - intros l x. rewrite Hlm. destruct (m_landmarks m !! l) as [y|]; [|naive_solver]. case_decide; [|split; [intros [= ->]; split; [done|lia]|naive_solver]].
    split; [done|]. intros [[= ->] ?]. lia.
  - rewrite Heq. by repeat split.
  - intros k l o. rewrite !sees_O, Ho, Hlm. destruct (m_landmarks m !! l) as [y|]; [|].
    + case_decide; [|naive_solver]. split; [done|]. by intros [_ [? ?]].
    + split; [done|]. by intros [_ [? ?]].
Qed.

Theorem C10_clear : forall m : map, reach m -> exists m', exec m MClear = Ok m' /\
  m_landmarks m' = ∅ /\ same_frame m m' /\ (forall k l o, ~ shot_sees m' k l o) /\
  (forall k s f o, m_shots m' !! k = Some s -> shot_get_observation s f <> Ok o).
Proof.
  intros m Hm. pose proof (reach_inv _ Hm) as Hinv.
  destruct (clear_landmarks_ok feature_of m enumL enumF HL HF Hinv) as (m' & Hr & _ & Hst & Hlm & Ho & Hfe & Heq).
  exists m'. split; [exact Hr|]. split_and!.
  - done.
  - rewrite Heq. by repeat split.
  - intros k l o. by rewrite sees_O, Ho.
  - intros k s f o Hs. specialize (Hfe k f). unfold F_of in Hfe. rewrite Hs in Hfe. simpl in Hfe.
    unfold shot_get_observation. by rewrite Hfe.
Qed.
End Props.
Print Assumptions C08_symmetric. Print Assumptions C08_get_observation. Print Assumptions C08_add_observation.
Print Assumptions C08_remove_observation. Print Assumptions C08_errors.
Print Assumptions C09_no_dangling. Print Assumptions C09_remove_shot. Print Assumptions C09_remove_landmark. Print Assumptions C09_remove_missing.
Print Assumptions C10_clean. Print Assumptions C10_clear.

(** ** Witnesses *)
Notation ex_op := (@map_op nat nat Z nat nat nat (Z * nat) nat).
Definition ex_step := map_step (C := nat) (B := nat) (P := Z) (V := nat) (D := nat) (X := nat) (O := Z * nat) (R := nat)
  fst 0 0%Z 0 0 Z.add Z.opp map_to_list map_to_list map_to_list.
Definition ex_run := foldl ex_step map_empty.
Definition ex_ops : list ex_op :=
  [MCamera "c" 7; MRigCamera "rc" 0%Z; MInstance "i1"; MInstance "i2"; MShot (false, "s1") "c" "rc" "i1" (Some 3%Z);
   MShot (false, "s2") "c" "rc" "i2" None; MLandmark "l1" 1; MLandmark "l2" 2; MAddObs (false, "s1") "l1" (10%Z, 100);
   MAddObs (false, "s2") "l1" (20%Z, 200); MAddObs (false, "s1") "l2" (11%Z, 101)].
Definition ex_map := ex_run ex_ops.

(** A decidable version of the protocol, to show that concrete histories obey it. *)
Definition okb (m : @map nat nat Z nat nat nat (Z * nat) nat) (op : ex_op) : bool :=
  match op with
  | MAddObs k lm o =>
      match m_shots m !! k with Some s => bool_decide (map_Forall (fun _ o' => o'.1 <> o.1) (sh_obs s)) | None => true end &&
      match m_landmarks m !! lm with Some l => bool_decide (lm_obs l !! k.2 = None) | None => true end
  | MRemoveObs s lm => match m_landmarks m !! lm with Some l => bool_decide (fst <$> lm_obs l !! s <> Some true) | None => true end
  | MShot k _ _ inst _ => match m_instances m !! inst with Some i => bool_decide (in_members i !! k.2 = None) | None => true end
  | MRemoveInstance id => match m_instances m !! id with Some i => bool_decide (in_members i = ∅) | None => true end
  | _ => true
  end.
Lemma okb_allowed m op : okb m op = true -> allowed fst m op.
Proof.
  destruct op; simpl; try done.
  - intros H i Hi. rewrite Hi in H. by apply bool_decide_eq_true in H.
  - intros H i Hi. rewrite Hi in H. by apply bool_decide_eq_true in H.
  - intros [H1 H2]%andb_prop. split.
    + intros lm' o' (s & Hs & Ho). rewrite Hs in H1. apply bool_decide_eq_true in H1. by apply (H1 lm' o').
    + intros b f (l & Hl & Hf). rewrite Hl in H2. apply bool_decide_eq_true in H2. simpl in Hf. by rewrite H2 in Hf.
  - intros H f (l & Hl & Hf). rewrite Hl in H. apply bool_decide_eq_true in H. apply H. simpl in Hf. by rewrite Hf.
Qed.
Fixpoint all_ok (m : @map nat nat Z nat nat nat (Z * nat) nat) (ops : list ex_op) : bool :=
  match ops with [] => true | op :: ops' => okb m op && all_ok (ex_step m op) ops' end.
Lemma all_ok_reach ops : forall m, all_ok m ops = true -> reachable fst ex_step m -> reachable fst ex_step (foldl ex_step m ops).
Proof.
  induction ops as [|op ops IH]; intros m H Hm; [done|]. simpl in H. apply andb_prop in H as [H1 H2]. simpl.
  apply IH; [done|]. apply reach_step; [done|]. by apply okb_allowed.
Qed.
Example C08_nonvacuous : reachable fst ex_step ex_map /\
  landmark_lists ex_map "l1" (false, "s2") 20 /\ shot_sees ex_map (false, "s2") "l1" (20%Z, 200).
Proof.
  split; [apply all_ok_reach; [by vm_compute|constructor]|]. split; eexists; split; [by vm_compute|by vm_compute|by vm_compute|by vm_compute].
Qed.
Example C09_nonvacuous : match map_exec fst 0 0%Z 0 0 Z.add Z.opp map_to_list map_to_list map_to_list ex_map (MRemoveShot (false, "s1")) with
  | Ok m' => map_to_list ∘ lm_obs <$> m_landmarks m' !! "l1" = Some [("s2", (false, 20%Z))] /\
      map_to_list ∘ lm_obs <$> m_landmarks m' !! "l2" = Some []
  | Err _ => False end.
Proof. by vm_compute. Qed.
Example C10_nonvacuous : match map_exec fst 0 0%Z 0 0 Z.add Z.opp map_to_list map_to_list map_to_list ex_map (MClean 2) with
  | Ok m' => is_Some (m_landmarks m' !! "l1") /\ m_landmarks m' !! "l2" = None /\ (map_to_list ∘ sh_obs <$> m_shots m' !! (false, "s1")) = Some [("l1", (10%Z, 100))]
  | Err _ => False end.
Proof. vm_compute. repeat split; eauto. Qed.

(** What does NOT hold without the protocol. One feature of a shot given to two landmarks: the second landmark lists the
    shot, but removing it removes the observation of the first one and leaves its own. *)
Theorem C08_shared_feature_refuted :
  exists ops, let m := ex_run ops in
    landmark_lists m "l1" (false, "s1") 10 /\ ~ (exists o, shot_sees m (false, "s1") "l1" o) /\
    ~ is_Some (m_landmarks m !! "l2") /\ shot_sees m (false, "s1") "l2" (10%Z, 5).
Proof.
  exists (ex_ops ++ [MRemoveObs "s1" "l2"; MAddObs (false, "s1") "l2" (10%Z, 5); MRemoveLandmark "l2"]). cbv zeta. split_and!.
  - eexists. split; by vm_compute.
  - intros (o & s & Hs & Ho). vm_compute in Hs. injection Hs as <-. by vm_compute in Ho.
  - vm_compute. by intros [? ?].
  - eexists. split; by vm_compute.
Qed.
Print Assumptions C08_shared_feature_refuted.
(** An observation added again with another feature is ignored, but the new feature resolves to it. *)
Theorem C08_readd_refuted :
  exists ops s, let m := ex_run ops in
    m_shots m !! (false, "s1") = Some s /\ shot_get_observation s 99 = Ok (10%Z, 100) /\ ~ landmark_lists m "l1" (false, "s1") 99.
Proof.
  exists (ex_ops ++ [MAddObs (false, "s1") "l1" (99%Z, 7)]). eexists. cbv zeta. split; [by vm_compute|]. split; [by vm_compute|].
  intros (l & Hl & Hf). vm_compute in Hl. injection Hl as <-. by vm_compute in Hf.
Qed.
Print Assumptions C08_readd_refuted.
(** remove_rig_instance on an instance with members leaves shots whose instance does not exist any more. *)
Theorem C09_remove_instance_refuted : exists ops, let m := ex_run ops in
  exists s, m_shots m !! (false, "s1") = Some s /\ m_instances m !! sh_instance s = None.
Proof.
  exists (ex_ops ++ [MRemoveInstance "i1"]). eexists. split; by vm_compute.
Qed.
Print Assumptions C09_remove_instance_refuted.
