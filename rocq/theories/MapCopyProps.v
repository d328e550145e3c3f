(** C34: deep copies. *)
From stdpp Require Import prelude gmap strings.
From Verif Require Import Base TracksModel MapModel MapSpec MapProofs MapProps MapCopyProofs.

Section Props.
Context {C B P V D X O R : Type}.
Variable feature_of : O -> Z.
Variable bias0 : B. Variable pose0 : P. Variable data0 : D. Variable mesh0 : X.
Variable pcompose : P -> P -> P. Variable pinverse : P -> P.
Variable enumL : gmap string (landmark V) -> list (string * landmark V).
Variable enumF : gmap string (bool * Z) -> list (string * (bool * Z)).
Variable enumO : gmap string O -> list (string * O).
Variable enumS : gmap shot_key (shot D X O) -> list (shot_key * shot D X O).
Variable enumI : gmap string (bool * string) -> list (string * (bool * string)).
Variable enumC : gmap string C -> list (string * C).
Variable enumB : gmap string B -> list (string * B).
Hypothesis HL : enumerates enumL. Hypothesis HF : enumerates enumF. Hypothesis HO : enumerates enumO.
Hypothesis HS : enumerates enumS. Hypothesis HI : enumerates enumI. Hypothesis HC : enumerates enumC. Hypothesis HB : enumerates enumB.
(** The law of rigid motions that the copy of poses relies on (proved for the poses of the code in PoseProps.v). *)
Hypothesis pcancel : forall a b, pcompose (pinverse a) (pcompose a b) = b.
Notation map := (@map C B P V D X O R).
Notation step := (map_step feature_of bias0 pose0 data0 mesh0 pcompose pinverse enumL enumF enumO).
Notation copy := (deep_copy feature_of bias0 pose0 data0 mesh0 pcompose pinverse enumL enumO enumS enumI enumC enumB).

(** Full property: the copy also has the colors of the points, the meshes and the observations of pano shots; these are
    lost, see C34_lost_refuted below.
    Every map reached under the protocol of MapSpec.v whose instances do not mix shots and pano shots can be copied. The
    copy has the same cameras, biases and reference; the same shots and pano shots, with the same camera, rig camera, rig
    instance, attributes and pose; the same landmarks at the same positions; with copy_observations the same observations
    of ordinary shots, and without it none; instances without members and rig cameras without shots are not copied. *)
Theorem C34_deep_copy_partial : forall m : map, reachable feature_of step m -> unmixed m -> forall obs : bool, exists c, copy m obs = Ok c /\
  m_cameras c = m_cameras m /\ m_bias c = m_bias m /\ m_reference c = m_reference m /\
  (forall k, (fun s => (sh_camera s, sh_rig_camera s, sh_instance s, sh_data s)) <$> m_shots c !! k =
             (fun s => (sh_camera s, sh_rig_camera s, sh_instance s, sh_data s)) <$> m_shots m !! k) /\
  (forall k, shot_pose pcompose c k = shot_pose pcompose m k) /\
  (forall l, lm_pos <$> m_landmarks c !! l = lm_pos <$> m_landmarks m !! l) /\
  (forall s l o, shot_sees c (false, s) l o <-> obs = true /\ shot_sees m (false, s) l o) /\
  (forall s l o, ~ shot_sees c (true, s) l o) /\
  (forall l k f, landmark_lists c l k f <-> exists o, shot_sees c k l o /\ feature_of o = f) /\
  no_dangling c /\
  (forall id i, m_instances c !! id = Some i <-> m_instances m !! id = Some i /\ in_members i <> ∅) /\
  (forall id p, m_rig_cameras c !! id = Some p <->
     m_rig_cameras m !! id = Some p /\ exists k s, m_shots m !! k = Some s /\ sh_rig_camera s = id).
Proof.
  intros m Hm Hun obs. assert (Hinv : inv feature_of m) by (by eapply reachable_inv).
  destruct (deep_copy_ok feature_of bias0 pose0 data0 mesh0 pcompose pinverse enumL enumF enumO enumS enumI enumC enumB HL HF HO HS HI HC HB pcancel m Hinv Hun obs)
    as (c & Hc & [X1 X2 X3 X4 X5 X6 X7 X8] & Hb).
  assert (forall k s, m_shots m !! k = Some s -> exists s', m_shots c !! k = Some s' /\ strip s' = strip (fresh_shot mesh0 s)) as Hfwd.
  { intros k s Hs. specialize (X4 k). rewrite Hs in X4. destruct (m_shots c !! k) as [s'|]; [|done]. exists s'. split; [done|]. by apply (inj Some) in X4. }
  assert (forall k s', m_shots c !! k = Some s' -> exists s, m_shots m !! k = Some s /\ strip s' = strip (fresh_shot mesh0 s)) as Hbwd.
  { intros k s' Hs. specialize (X4 k). rewrite Hs in X4. destruct (m_shots m !! k) as [s|]; [|done]. exists s. split; [done|]. by apply (inj Some) in X4. }
  assert (forall l k f, landmark_lists c l k f <-> exists o, shot_sees c k l o /\ feature_of o = f) as Hsym.
  { intros l k f. rewrite lists_L, (inv_sym _ _ X1 l k.2 k.1 f). destruct k. split; intros (o & H & E); exists o; (split; [by apply sees_O|done]). }
  exists c. split; [done|]. split; [done|]. split; [done|]. split; [done|]. split_and!.
  - intros k. specialize (X4 k). destruct (m_shots c !! k) as [s'|], (m_shots m !! k) as [s|]; try done. simpl in *. unfold strip in X4. simpl in X4. congruence.
  - intros k. unfold shot_pose. destruct (m_shots m !! k) as [s|] eqn:E.
    + destruct (Hfwd k s E) as (s' & -> & Hst). unfold strip in Hst. simpl in Hst. injection Hst as E1 E2 E3 E4 E5. simpl. rewrite E2, E3.
      destruct (rig_shot _ (inv_rig _ _ Hinv) _ _ E) as (i & Hi & Hmem). destruct (rig_ptr _ (inv_rig _ _ Hinv) _ _ E) as [_ [rc Hrc]].
      assert (m_instances c !! sh_instance s = Some i) as ->.
      { rewrite X5, Hi. rewrite decide_False; [done|]. intros Hmt. by rewrite Hmt, lookup_empty in Hmem. }
      assert (m_rig_cameras c !! sh_rig_camera s = Some rc) as -> by (apply X6; split; [done|eauto]).
      by rewrite Hi; simpl; rewrite Hrc.
    + specialize (X4 k). rewrite E in X4. by destruct (m_shots c !! k).
  - intros l. specialize (X8 l). rewrite lookup_fmap in X8. destruct (m_landmarks c !! l), (m_landmarks m !! l); simpl in *; congruence.
  - intros s l o. rewrite !sees_O, X7. simpl. destruct obs; simpl; naive_solver.
  - intros s l o. rewrite sees_O, X7. simpl. by rewrite andb_false_r.
  - exact Hsym.
  - destruct (inv_rig _ _ X1) as [R1 R2 R3 R4 R5]. split.
    + intros k s Hs. destruct (R3 _ _ Hs). split_and!; try done. by apply R1.
    + exact R2.
    + intros k l o Hs. assert (landmark_lists c l k (feature_of o)) as (x & Hx & _) by (apply Hsym; eauto). eauto.
    + intros k l f Hl. apply Hsym in Hl as (o & (s & Hs & _) & _). eauto.
  - intros id i. rewrite X5. destruct (m_instances m !! id) as [i0|]; [|naive_solver]. case_decide; [|naive_solver]. split; [done|]. intros [[= ->] ?]. done.
  - exact X6.
Qed.
End Props.
Print Assumptions C34_deep_copy_partial.

(** ** Witnesses *)
Definition ex_copy := deep_copy (C := nat) (B := nat) (P := Z) (V := nat) (D := nat) (X := nat) (O := Z * nat) (R := nat)
  fst 0 0%Z 0 0 Z.add Z.opp map_to_list map_to_list map_to_list map_to_list map_to_list map_to_list.
(** Unmixed, as a check on concrete maps. *)
Definition unmixedb (m : @map nat nat Z nat nat nat (Z * nat) nat) : bool :=
  forallb (fun i : string * instance Z => forallb (fun a : string * (bool * string) => forallb (fun b : string * (bool * string) =>
    bool_decide (a.2.1 = b.2.1)) (map_to_list (in_members i.2))) (map_to_list (in_members i.2))) (map_to_list (m_instances m)).
Lemma unmixedb_ok m : unmixedb m = true -> unmixed m.
Proof.
  intros H id i s1 s2 b1 b2 r1 r2 Hi H1 H2. unfold unmixedb in H. rewrite forallb_forall in H.
  assert (In (id, i) (map_to_list (m_instances m))) as Hin by (apply elem_of_list_In; by apply elem_of_map_to_list).
  specialize (H _ Hin). simpl in H. rewrite forallb_forall in H.
  assert (In (s1, (b1, r1)) (map_to_list (in_members i))) as Hin1 by (apply elem_of_list_In; by apply elem_of_map_to_list).
  specialize (H _ Hin1). rewrite forallb_forall in H.
  assert (In (s2, (b2, r2)) (map_to_list (in_members i))) as Hin2 by (apply elem_of_list_In; by apply elem_of_map_to_list).
  specialize (H _ Hin2). by apply bool_decide_eq_true in H.
Qed.
Definition c34_ops : list ex_op := ex_ops ++
  [MBias "c" 5; MRigCamera "rc2" 4%Z; MShot (false, "s3") "c" "rc2" "i1" None; MAssign (false, "s3") 77;
   MRigCamera "panoshot_c" 0%Z; MInstance "panoshot_p"; MShot (true, "p") "c" "panoshot_c" "panoshot_p" (Some 9%Z)].
Example C34_nonvacuous : (forall a b : Z, (- a + (a + b))%Z = b) /\ reachable fst ex_step (ex_run c34_ops) /\ unmixed (ex_run c34_ops) /\
  match ex_copy (ex_run c34_ops) true with
  | Ok c => shot_pose Z.add c (false, "s3") = Some 7%Z /\ m_bias c !! "c" = Some 5 /\ sh_data <$> m_shots c !! (false, "s3") = Some 77
  | Err _ => False end.
Proof.
  split; [intros; lia|]. split; [apply all_ok_reach; [by vm_compute|constructor]|]. split; [apply unmixedb_ok; by vm_compute|]. by vm_compute.
Qed.
(** What does NOT hold. Colors of points, meshes of shots and observations of pano shots are lost. *)
Theorem C34_lost_refuted : exists ops, reachable fst ex_step (ex_run ops) /\ unmixed (ex_run ops) /\
  match ex_copy (ex_run ops) true with
  | Ok c => lm_color <$> m_landmarks (ex_run ops) !! "l1" = Some (1, 2, 3)%Z /\ lm_color <$> m_landmarks c !! "l1" = Some (255, 0, 0)%Z /\
            sh_mesh <$> m_shots (ex_run ops) !! (false, "s1") = Some 4 /\ sh_mesh <$> m_shots c !! (false, "s1") = Some 0 /\
            (m_shots (ex_run ops) !! (true, "p") ≫= fun s => sh_obs s !! "l2") = Some (5%Z, 5) /\ (m_shots c !! (true, "p") ≫= fun s => sh_obs s !! "l2") = None
  | Err _ => False end.
Proof.
  exists (c34_ops ++ [MSetLandmark "l1" 1 (1, 2, 3)%Z; MMesh (false, "s1") 4; MAddObs (true, "p") "l2" (5%Z, 5)]).
  split; [apply all_ok_reach; [by vm_compute|constructor]|]. split; [apply unmixedb_ok; by vm_compute|].
  by vm_compute.
Qed.
Print Assumptions C34_lost_refuted.
(** An instance that groups a shot and a pano shot makes the copy fail (both are first copied as ordinary shots). *)
Theorem C34_mixed_refuted : exists ops, reachable fst ex_step (ex_run ops) /\ ex_copy (ex_run ops) true = Err RuntimeError.
Proof.
  exists ([MCamera "c" 7; MRigCamera "r1" 0%Z; MRigCamera "r2" 0%Z; MInstance "i"; MShot (false, "s") "c" "r1" "i" None; MShot (true, "p") "c" "r2" "i" None]).
  split; [apply all_ok_reach; [by vm_compute|constructor]|]. by vm_compute.
Qed.
Print Assumptions C34_mixed_refuted.
