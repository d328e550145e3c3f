From stdpp Require Import prelude gmap strings.
From Verif Require Import Base TracksModel MapModel MapSpec MapProofs.

Section P.
Context {C B P V D X O R : Type}.
Variable feature_of : O -> Z.
Variable bias0 : B. Variable pose0 : P. Variable data0 : D. Variable mesh0 : X.
Variable pcompose : P -> P -> P. Variable pinverse : P -> P.
Variable enumL : gmap string (landmark V) -> list (string * landmark V).
Variable enumF : gmap string (bool * Z) -> list (string * (bool * Z)).
Variable enumO : gmap string O -> list (string * O).
Variable enumS : gmap shot_key (shot D X O) -> list (shot_key * shot D X O).
Variable enumI : gmap string (bool * string) -> list (string * (bool * string)).
Variable enumC : gmap string C -> list (string * C).
Variable enumB : gmap string B -> list (string * B).
Hypothesis HL : enumerates enumL. Hypothesis HF : enumerates enumF. Hypothesis HO : enumerates enumO.
Hypothesis HS : enumerates enumS. Hypothesis HI : enumerates enumI. Hypothesis HC : enumerates enumC. Hypothesis HB : enumerates enumB.
Hypothesis pcancel : forall a b, pcompose (pinverse a) (pcompose a b) = b.
Notation map := (@map C B P V D X O R).
Notation exec := (map_exec feature_of bias0 pose0 data0 mesh0 pcompose pinverse enumL enumF enumO).
Notation inv := (inv feature_of).

Variable m : map.
Hypothesis Hinv : inv m.
Hypothesis unmixed : forall id i s1 s2 b1 b2 r1 r2, m_instances m !! id = Some i ->
  in_members i !! s1 = Some (b1, r1) -> in_members i !! s2 = Some (b2, r2) -> b1 = b2.

Definition fresh_shot (s : shot D X O) : shot D X O := Shot (sh_camera s) (sh_rig_camera s) (sh_instance s) (sh_data s) mesh0 ∅ ∅.
Record st (K : shot_key -> bool) (insts : gmap string (instance P)) (to : map) : Prop := St {
  st_inv : inv to;
  st_cam : m_cameras to = m_cameras m;
  st_bias : m_bias to = (fun _ => bias0) <$> m_cameras m;
  st_ref : m_reference to = m_reference m;
  st_lm : m_landmarks to = ∅;
  st_shots : forall k, m_shots to !! k = if K k then fresh_shot <$> m_shots m !! k else None;
  st_inst : m_instances to = insts;
  st_rc : forall id p, m_rig_cameras to !! id = Some p <->
    m_rig_cameras m !! id = Some p /\ exists k s, K k = true /\ m_shots m !! k = Some s /\ sh_rig_camera s = id }.

Definition addK (K : shot_key -> bool) (k : shot_key) : shot_key -> bool := fun k' => if decide (k' = k) then true else K k'.

Lemma update_step K insts to inst i M p0 pano s rc :
  st K insts to -> m_instances m !! inst = Some i -> in_members i !! s = Some (pano, rc) ->
  insts !! inst = Some (Instance p0 M) -> M ⊆ in_members i -> M !! s = None -> K (pano, s) = false ->
  exists to' p', st (addK K (pano, s)) (<[inst := Instance p' (<[s := (pano, rc)]> M)]> insts) to' /\
    forall l, update_members bias0 data0 mesh0 pcompose pinverse to m pano inst ((s, (pano, rc)) :: l) =
              update_members bias0 data0 mesh0 pcompose pinverse to' m pano inst l.
Proof.
  intros Hst Hi Hs Hins HM HMs HK.
  destruct (rig_inst _ (inv_rig _ _ Hinv) _ _ _ _ _ Hi Hs) as (x & Hx & Hxi & Hxr).
  destruct (rig_ptr _ (inv_rig _ _ Hinv) _ _ Hx) as [[cam Hcam] [rcp Hrcp]]. rewrite Hxr in Hrcp.
  assert (is_Some (shot_pose pcompose m (pano, s))) as [sp Hsp].
  { unfold shot_pose. rewrite Hx. simpl. rewrite Hxi, Hi. simpl. rewrite Hxr, Hrcp. simpl. eauto. }
  (* the rig camera *)
  assert (exists to2, match m_rig_cameras to !! rc with Some _ => Ok to | None => create_rig_camera to rc rcp end = Ok to2 /\
     inv to2 /\ m_rig_cameras to2 = <[rc := rcp]> (m_rig_cameras to) /\ to2 = set_rig_cameras to (m_rig_cameras to2)) as (to2 & Hto2 & Hinv2 & Hrc2 & Heq2).
  { destruct (m_rig_cameras to !! rc) as [q|] eqn:E.
    - exists to. split; [done|]. split; [apply Hst|]. split; [|by destruct to]. rewrite insert_id; [done|]. rewrite E.
      apply (st_rc _ _ _ Hst) in E as [E _]. congruence.
    - eexists. split; [unfold create_rig_camera; rewrite E; reflexivity|]. split; [|done].
      eapply (inv_exec feature_of bias0 pose0 data0 mesh0 pcompose pinverse enumL enumF enumO HL HF HO to (MRigCamera rc rcp)); [apply Hst|done|].
      simpl. unfold create_rig_camera. by rewrite E. }
  assert (m_shots to2 !! (pano, s) = None) as Hno2. { rewrite Heq2. simpl. rewrite (st_shots _ _ _ Hst). by rewrite HK. }
  assert (m_instances to2 !! inst = Some (Instance p0 M)) as Hi2. { rewrite Heq2. simpl. by rewrite (st_inst _ _ _ Hst). }
  assert (m_rig_cameras to2 !! rc = Some rcp) as Hr2 by (rewrite Hrc2; apply lookup_insert).
  assert (m_cameras to2 !! sh_camera x = Some cam) as Hc2. { rewrite Heq2. simpl. by rewrite (st_cam _ _ _ Hst). }
  assert (exists to3, create_shot data0 mesh0 pcompose pinverse to2 (pano, s) (sh_camera x) rc inst (Some sp) = Ok to3) as (to3 & Hto3).
  { unfold create_shot. rewrite Hno2, Hc2, Hi2, Hr2. unfold instance_add_shot. rewrite decide_True.
    - cbn [res_bind]. unfold instance_update_pose. simpl. rewrite lookup_insert, Hr2. cbn. eauto.
    - intros s' [b' rc'] Hs' Heq. simpl in *. subst rc'.
      assert (in_members i !! s' = Some (b', rc)) as Hs'' by (eapply lookup_weaken; eassumption).
      pose proof (rig_uniq _ (inv_rig _ _ Hinv) _ _ _ _ _ _ _ Hi Hs Hs'') as <-. congruence. }
  destruct (create_shot_ok feature_of data0 mesh0 pcompose pinverse to2 (pano, s) (sh_camera x) rc inst (Some sp) to3 Hinv2)
    as (Hinv3 & _ & Hsh3 & i3 & i3' & rcp3 & Hi3 & Hin3 & Hmem3 & _ & _ & _ & _ & Heq3).
  { intros i' Hi'. rewrite Hi2 in Hi'. injection Hi' as <-. done. }
  { done. }
  rewrite Hi2 in Hi3. injection Hi3 as <-.
  assert (m_shots to3 !! (pano, s) = Some (Shot (sh_camera x) rc inst data0 mesh0 ∅ ∅)) as Hs3 by (rewrite Hsh3; apply lookup_insert).
  set (to4 := set_shots to3 (<[(pano, s) := Shot (sh_camera x) rc inst (sh_data x) mesh0 ∅ ∅]> (m_shots to3))).
  assert (assign_shot to3 (pano, s) (sh_data x) = Ok to4) as Hto4. { unfold assign_shot. by rewrite Hs3. }
  exists to4, (in_pose i3'). split.
  - split.
    + eapply (inv_exec feature_of bias0 pose0 data0 mesh0 pcompose pinverse enumL enumF enumO HL HF HO to3 (MAssign (pano, s) (sh_data x))); [done|done|exact Hto4].
    + subst to4. simpl. rewrite Heq3. simpl. rewrite Heq2. simpl. apply Hst.
    + subst to4. simpl. rewrite Heq3. simpl. rewrite Heq2. simpl. apply Hst.
    + subst to4. simpl. rewrite Heq3. simpl. rewrite Heq2. simpl. apply Hst.
    + subst to4. simpl. rewrite Heq3. simpl. rewrite Heq2. simpl. apply Hst.
    + intros k. subst to4. simpl. rewrite Hsh3. unfold addK. case_decide as Hk.
      * subst k. rewrite lookup_insert, Hx. simpl. unfold fresh_shot. by rewrite Hxr, Hxi.
      * rewrite !lookup_insert_ne by done. rewrite Heq2. simpl. apply Hst.
    + subst to4. simpl. rewrite Hin3. rewrite Heq2. simpl. rewrite (st_inst _ _ _ Hst). f_equal. destruct i3' as [p3 M3]. simpl in *. by rewrite Hmem3.
    + intros id p. subst to4. simpl. rewrite Heq3. simpl. rewrite Hrc2. unfold addK. rewrite lookup_insert_Some, (st_rc _ _ _ Hst). split.
      * intros [[<- <-]|(Hne & Hm & k & s' & HKk & Hk & Hr)].
        -- split; [done|]. exists (pano, s), x. rewrite decide_True by done. done.
        -- split; [done|]. exists k, s'. split; [by case_decide|done].
      * intros (Hm & k & s' & HKk & Hk & Hr). destruct (decide (rc = id)) as [->|Hne]; [left; split; [done|congruence]|].
        right. split; [done|]. split; [done|]. exists k, s'. split; [|done]. case_decide as Hkk; [|done]. subst k. rewrite Hx in Hk. injection Hk as <-. congruence.
  - intros l. cbn [update_members]. rewrite Hx. cbn [of_option res_bind]. rewrite Hcam. cbn [of_option res_bind].
    rewrite (st_cam _ _ _ Hst), Hcam. rewrite Hxr, Hrcp. cbn [of_option res_bind]. rewrite Hto2. cbn [res_bind]. rewrite Hno2, Hsp. cbn [of_option res_bind].
    rewrite Hto3. cbn [res_bind]. rewrite Hto4. done.
Qed.

Lemma update_members_ok inst i pano : m_instances m !! inst = Some i ->
  (forall s b rc, in_members i !! s = Some (b, rc) -> b = pano) ->
  forall l K insts to M p0, st K insts to -> insts !! inst = Some (Instance p0 M) -> M ⊆ in_members i ->
  NoDup l.*1 -> (forall s e, (s, e) ∈ l -> in_members i !! s = Some e /\ M !! s = None /\ K (pano, s) = false) ->
  exists to' p' K' M', update_members bias0 data0 mesh0 pcompose pinverse to m pano inst l = Ok to' /\
    st K' (<[inst := Instance p' M']> insts) to' /\
    (forall k, K' k = true <-> K k = true \/ k.1 = pano /\ k.2 ∈ l.*1) /\
    (forall s e, M' !! s = Some e <-> M !! s = Some e \/ (s, e) ∈ l).
Proof.
  intros Hi Hpano l. induction l as [|[s [b rc]] l IH]; intros K insts to M p0 Hst Hins HM Hnd Hl.
  - exists to, p0, K, M. split; [done|]. split; [by rewrite insert_id|]. split; set_solver.
  - rewrite fmap_cons in Hnd. apply NoDup_cons in Hnd as [Hnin Hnd].
    destruct (Hl s (b, rc)) as (Hs & HMs & HKs); [by left|]. pose proof (Hpano _ _ _ Hs) as ->.
    destruct (update_step K insts to inst i M p0 pano s rc) as (to1 & p1 & Hst1 & Heq); [done..|].
    destruct (IH (addK K (pano, s)) _ to1 (<[s := (pano, rc)]> M) p1 Hst1) as (to' & p' & K' & M' & Hup & Hst' & HK' & HM').
    { by rewrite lookup_insert. }
    { by apply insert_subseteq_l. }
    { done. }
    { intros s' e Hin. destruct (Hl s' e) as (? & ? & ?); [by right|]. assert (s' <> s).
      { intros ->. apply Hnin. apply elem_of_list_fmap. by exists (s, e). }
      rewrite lookup_insert_ne by done. split; [done|]. split; [done|]. unfold addK. rewrite decide_False; [done|]. congruence. }
    exists to', p', K', M'. split; [by rewrite Heq|]. split.
    { rewrite insert_insert in Hst'. done. }
    split.
    + intros k. rewrite HK'. unfold addK. rewrite fmap_cons, elem_of_cons. simpl. destruct k as [kb ks]; simpl. case_decide as Hd.
      * injection Hd as -> ->. tauto.
      * split; [tauto|]. intros [?|[-> [->|?]]]; [tauto|done|tauto].
    + intros s' e. rewrite HM', elem_of_cons, lookup_insert_Some. split.
      * intros [[[<- <-]|[? ?]]|?]; auto.
      * intros [Hm'|[[= -> ->]|?]]; auto. left. right. split; [|done]. intros <-. congruence.
Qed.

(** Whole instances *)
Definition Kof (done : string -> bool) : shot_key -> bool :=
  fun k => match m_shots m !! k with Some s => done (sh_instance s) | None => false end.
Definition ist (done : string -> bool) (to : map) : Prop :=
  exists K insts, st K insts to /\ (forall k, is_Some (m_shots m !! k) -> K k = Kof done k) /\
    forall id, insts !! id = if done id then m_instances m !! id else None.
Definition addI (d : string -> bool) (id : string) : string -> bool := fun id' => if decide (id' = id) then true else d id'.

Lemma update_shot_ok done to k x : ist done to -> m_shots m !! k = Some x -> done (sh_instance x) = false ->
  exists to', update_shot_with_rig bias0 pose0 data0 mesh0 pcompose pinverse enumI to m k = Ok to' /\ ist (addI done (sh_instance x)) to'.
Proof.
  intros (K & insts & Hst & HK & Hins) Hx Hd.
  destruct (rig_shot _ (inv_rig _ _ Hinv) _ _ Hx) as (i & Hi & Hmem).
  destruct (rig_ptr _ (inv_rig _ _ Hinv) _ _ Hx) as [_ [rcp Hrcp]].
  set (inst := sh_instance x) in *.
  assert (insts !! inst = None) as Hno by (rewrite Hins; by rewrite Hd).
  set (to1 := set_instances to (<[inst := Instance pose0 ∅]> (m_instances to))).
  assert (create_instance pose0 to inst = Ok to1) as Hto1.
  { unfold create_instance. rewrite (st_inst _ _ _ Hst), Hno. subst to1. by rewrite (st_inst _ _ _ Hst). }
  assert (st K (<[inst := Instance pose0 ∅]> insts) to1) as Hst1.
  { split; try (subst to1; simpl; apply Hst).
    - eapply (inv_exec feature_of bias0 pose0 data0 mesh0 pcompose pinverse enumL enumF enumO HL HF HO to (MInstance inst)); [apply Hst|done|exact Hto1].
    - subst to1. simpl. by rewrite (st_inst _ _ _ Hst). }
  assert (forall s e, (s, e) ∈ enumI (in_members i) <-> in_members i !! s = Some e) as Henum.
  { intros s e. rewrite (HI _). apply elem_of_map_to_list. }
  destruct (update_members_ok inst i k.1 Hi) with (l := enumI (in_members i)) (K := K) (insts := <[inst := Instance pose0 ∅]> insts) (to := to1) (M := ∅ : gmap string (bool * string)) (p0 := pose0)
    as (to2 & p2 & K2 & M2 & Hup & Hst2 & HK2 & HM2).
  { intros s b rc Hs. by eapply unmixed. }
  { done. }
  { by rewrite lookup_insert. }
  { apply map_empty_subseteq. }
  { rewrite (HI _). apply NoDup_fst_map_to_list. }
  { intros s e Hin. apply Henum in Hin. split; [done|]. split; [apply lookup_empty|]. destruct e as [b rc].
    assert (b = k.1) as -> by (by eapply unmixed).
    destruct (rig_inst _ (inv_rig _ _ Hinv) _ _ _ _ _ Hi Hin) as (y & Hy & Hyi & _).
    rewrite HK by eauto. unfold Kof. rewrite Hy, Hyi. done. }
  rewrite insert_insert in Hst2.
  assert (M2 = in_members i) as ->. { apply map_eq. intros s. apply option_eq. intros e. rewrite HM2, lookup_empty, Henum. naive_solver. }
  assert (m_rig_cameras to2 !! sh_rig_camera x = Some rcp) as Hr2.
  { apply (st_rc _ _ _ Hst2). split; [done|]. exists k, x. split; [|done]. apply HK2. right. split; [done|].
    apply elem_of_list_fmap. exists (k.2, (k.1, sh_rig_camera x)). split; [done|]. by apply Henum. }
  set (to3 := set_instances to2 (<[inst := i]> (m_instances to2))). exists to3. split.
  - unfold update_shot_with_rig. rewrite Hx. cbn [of_option res_bind]. fold inst. rewrite Hi. cbn [of_option res_bind].
    rewrite (st_inst _ _ _ Hst), Hno, Hto1. cbn [res_bind]. rewrite Hup. cbn [res_bind].
    assert (shot_pose pcompose m k = Some (pcompose rcp (in_pose i))) as ->.
    { unfold shot_pose. rewrite Hx. simpl. fold inst. rewrite Hi. simpl. by rewrite Hrcp. }
    cbn [of_option res_bind]. rewrite (st_inst _ _ _ Hst2), lookup_insert. cbn [of_option res_bind].
    unfold instance_update_pose. cbn [in_members]. rewrite Hmem, Hr2. cbn [of_option res_bind]. rewrite pcancel.
    subst to3. rewrite (st_inst _ _ _ Hst2). by destruct i.
  - exists K2, (<[inst := i]> insts). split; [|split].
    + split; try (subst to3; simpl; apply Hst2).
      * eapply (inv_exec feature_of bias0 pose0 data0 mesh0 pcompose pinverse enumL enumF enumO HL HF HO to2 (MInstancePose inst (in_pose i))); [apply Hst2|done|].
        simpl. unfold instance_set_pose. rewrite (st_inst _ _ _ Hst2), lookup_insert. subst to3. rewrite (st_inst _ _ _ Hst2). simpl. by destruct i.
      * subst to3. simpl. rewrite (st_inst _ _ _ Hst2). by rewrite insert_insert.
    + intros k' [y Hy]. unfold Kof. rewrite Hy. apply eq_true_iff_eq.
 rewrite HK2. unfold addI. rewrite HK by eauto. unfold Kof. rewrite Hy. case_decide as Hyi.
      * split; [done|]. intros _. right. destruct (rig_shot _ (inv_rig _ _ Hinv) _ _ Hy) as (i' & Hi' & Hm'). rewrite Hyi, Hi in Hi'. injection Hi' as <-.
          split; [by eapply unmixed|]. apply elem_of_list_fmap. exists (k'.2, (k'.1, sh_rig_camera y)). split; [done|]. by apply Henum.
      * split; [|by left]. intros [?|[Hk1 Hk2]]; [done|]. apply elem_of_list_fmap in Hk2 as ([s [b rc]] & Hs & Hin).
          apply Henum in Hin. simpl in Hs. assert (b = k.1) as -> by (by eapply unmixed).
          destruct (rig_inst _ (inv_rig _ _ Hinv) _ _ _ _ _ Hi Hin) as (y' & Hy' & Hyi' & _).
          rewrite <- Hk1, <- Hs in Hy'. rewrite <- (surjective_pairing k') in Hy'. congruence.
    + intros id. unfold addI. case_decide as Hid; [subst; by rewrite lookup_insert|]. rewrite lookup_insert_ne by done. apply Hins.
Qed.

Lemma copy_shots_ok pano es : forall done to, ist done to -> (forall k s, (k, s) ∈ es -> m_shots m !! k = Some s) ->
  exists done' to', copy_shots bias0 pose0 data0 mesh0 pcompose pinverse enumI to m pano es = Ok to' /\ ist done' to' /\
    (forall id, done' id = true <-> done id = true \/ exists k s, (k, s) ∈ es /\ k.1 = pano /\ sh_instance s = id).
Proof.
  induction es as [|[k s] es IH]; intros done to Hist Hes.
  - exists done, to. split; [done|]. split; [done|]. set_solver.
  - cbn [copy_shots]. assert (m_shots m !! k = Some s) as Hs by (apply Hes; by left).
    destruct (decide (k.1 = pano)) as [Hk|Hk].
    + destruct (m_shots to !! k) as [y|] eqn:E.
      * destruct (IH done to Hist) as (done' & to' & Hc & Hist' & Hd); [intros k' s' ?; apply Hes; by right|].
        exists done', to'. split; [done|]. split; [done|]. intros id. rewrite Hd.
        destruct Hist as (K & insts & Hst & HK & Hins).
        assert (done (sh_instance s) = true) as Hds.
        { rewrite (st_shots _ _ _ Hst) in E. rewrite HK in E by eauto. unfold Kof in E. rewrite Hs in E. by destruct (done (sh_instance s)). }
        split; [naive_solver (set_solver)|]. intros [?|(k' & s' & Hin & Hp & Hid)]; [by left|]. apply elem_of_cons in Hin as [[= -> ->]|Hin]; [left; congruence|]. right. eauto.
      * assert (done (sh_instance s) = false) as Hds.
        { destruct Hist as (K & insts & Hst & HK & Hins). rewrite (st_shots _ _ _ Hst) in E. rewrite HK in E by eauto. unfold Kof in E. rewrite Hs in E.
          by destruct (done (sh_instance s)). }
        destruct (update_shot_ok done to k s Hist Hs Hds) as (to1 & Hu & Hist1). rewrite Hu. cbn [res_bind].
        destruct (IH _ to1 Hist1) as (done' & to' & Hc & Hist' & Hd); [intros k' s' ?; apply Hes; by right|].
        exists done', to'. split; [done|]. split; [done|]. intros id. rewrite Hd. unfold addI. split.
        -- intros [Hdi|(k' & s' & Hin & Hp & Hid)]; [|right; exists k', s'; split; [by right|done]].
           case_decide; [|by left]. right. exists k, s. split; [by left|]. done.
        -- intros [Hdi|(k' & s' & Hin & Hp & Hid)]; [left; by case_decide|]. apply elem_of_cons in Hin as [[= -> ->]|Hin].
           ++ left. by rewrite decide_True.
           ++ right. eauto.
    + destruct (IH done to Hist) as (done' & to' & Hc & Hist' & Hd); [intros k' s' ?; apply Hes; by right|].
      exists done', to'. split; [done|]. split; [done|]. intros id. rewrite Hd. split.
      * intros [?|(k' & s' & Hin & Hp & Hid)]; [by left|]. right. exists k', s'. split; [by right|done].
      * intros [?|(k' & s' & Hin & Hp & Hid)]; [by left|]. apply elem_of_cons in Hin as [[= -> ->]|Hin]; [done|]. right. eauto.
Qed.
Lemma ist_init : ist (fun _ => false) (foldl (fun to '(id, c) => create_camera bias0 to id c) (set_reference map_empty (m_reference m)) (enumC (m_cameras m))).
Proof.
  set (c0 := set_reference map_empty (m_reference m)).
  assert (forall (l : list (string * C)) (to : map), inv to -> NoDup l.*1 -> (forall id, id ∈ l.*1 -> m_cameras to !! id = None /\ m_bias to !! id = None) ->
    let to' := foldl (fun to '(id, c) => create_camera bias0 to id c) to l in
    inv to' /\ (forall id c, m_cameras to' !! id = Some c <-> m_cameras to !! id = Some c \/ (id, c) ∈ l) /\
    (forall id b, m_bias to' !! id = Some b <-> m_bias to !! id = Some b \/ id ∈ l.*1 /\ b = bias0) /\
    to' = Map (m_cameras to') (m_bias to') (m_rig_cameras to) (m_instances to) (m_shots to) (m_landmarks to) (m_reference to)) as Hgen.
  { induction l as [|[id c] l IH]; intros to Hto Hnd Hnew to'; [split; [done|]; split; [set_solver|]; split; [set_solver|by destruct to]|].
    rewrite fmap_cons in Hnd. apply NoDup_cons in Hnd as [Hnin Hnd]. simpl in Hnin.
    destruct (Hnew id) as [Hn1 Hn2]; [by left|].
    destruct (IH (create_camera bias0 to id c)) as (H1 & H2 & H3 & H4).
    { eapply (inv_exec feature_of bias0 pose0 data0 mesh0 pcompose pinverse enumL enumF enumO HL HF HO to (MCamera id c)); [done|done|done]. }
    { done. }
    { intros id' Hid'. destruct (Hnew id') as [Hn1' Hn2']; [by right|]. assert (id' <> id) by (intros ->; done). simpl. unfold emplace. rewrite Hn1, Hn2, !lookup_insert_ne by done. done. }
    subst to'. cbn [foldl]. split; [done|]. split; [|split].
    - intros id' c'. rewrite H2. simpl. unfold emplace. rewrite Hn1, lookup_insert_Some, elem_of_cons. split.
      + intros [[[<- <-]|[? ?]]|?]; auto.
      + intros [?|[[= -> ->]|?]]; auto. left. right. split; [|done]. intros <-. congruence.
    - intros id' b'. rewrite H3. simpl. unfold emplace. rewrite Hn2, lookup_insert_Some, elem_of_cons. split.
      + intros [[[<- <-]|[? ?]]|[? ?]]; auto.
      + intros [?|[[->|?] ->]]; auto. left. right. split; [|done]. intros <-. congruence.
    - rewrite H4 at 1. simpl. done. }
  destruct (Hgen (enumC (m_cameras m)) c0) as (H1 & H2 & H3 & H4).
  { destruct (inv_empty (C := C) (B := B) (P := P) (V := V) (D := D) (X := X) (R := R) feature_of pose0 pcompose pinverse) as [E1 E2 [E3 E4 E5 E6 E7]].
    split; [done|done|]. by split. }
  { rewrite (HC _). apply NoDup_fst_map_to_list. }
  { intros id _. split; apply lookup_empty. }
  set (c1 := foldl _ _ _) in *. exists (fun _ => false), ∅. split; [|split].
  - split.
    + done.
    + apply map_eq. intros id. apply option_eq. intros c. rewrite H2. rewrite (HC _), elem_of_map_to_list. simpl. rewrite lookup_empty. naive_solver.
    + apply map_eq. intros id. apply option_eq. intros b. rewrite H3, lookup_fmap, fmap_Some. simpl. rewrite lookup_empty. split.
      * intros [?|[Hin ->]]; [done|]. rewrite (HC _) in Hin. apply elem_of_list_fmap in Hin as ([id' c] & -> & Hin). apply elem_of_map_to_list in Hin. eauto.
      * intros (c & Hc & ->). right. split; [|done]. rewrite (HC _). apply elem_of_list_fmap. exists (id, c). split; [done|]. by apply elem_of_map_to_list.
    + by rewrite H4.
    + by rewrite H4.
    + intros k. rewrite H4. simpl. apply lookup_empty.
    + by rewrite H4.
    + intros id p. rewrite H4. simpl. rewrite lookup_empty. split; [done|]. by intros (_ & ? & ? & ? & _).
  - intros k [s Hs]. unfold Kof. by rewrite Hs.
  - intros id. by rewrite lookup_empty.
Qed.

(** All the shots *)
Record copied (obs : shot_key -> string -> option O) (lms : gmap string (landmark V)) (to : map) : Prop := Copied {
  cp_inv : inv to;
  cp_cam : m_cameras to = m_cameras m;
  cp_ref : m_reference to = m_reference m;
  cp_shots : forall k, strip <$> m_shots to !! k = (fun s => strip (fresh_shot s)) <$> m_shots m !! k;
  cp_inst : forall id, m_instances to !! id = match m_instances m !! id with
    | Some i => if decide (in_members i = ∅) then None else Some i | None => None end;
  cp_rc : forall id p, m_rig_cameras to !! id = Some p <->
    m_rig_cameras m !! id = Some p /\ exists k s, m_shots m !! k = Some s /\ sh_rig_camera s = id;
  cp_obs : forall k l, O_of (m_shots to) k l = obs k l;
  cp_lm : forall id, (fun l => (lm_pos l, lm_color l)) <$> m_landmarks to !! id = (fun l => (lm_pos l, lm_color l)) <$> lms !! id }.

Lemma shots_copied : exists c2 c3,
  copy_shots bias0 pose0 data0 mesh0 pcompose pinverse enumI
    (foldl (fun to '(id, c) => create_camera bias0 to id c) (set_reference map_empty (m_reference m)) (enumC (m_cameras m))) m false (enumS (m_shots m)) = Ok c2 /\
  copy_shots bias0 pose0 data0 mesh0 pcompose pinverse enumI c2 m true (enumS (m_shots m)) = Ok c3 /\
  copied (fun _ _ => None) ∅ c3 /\ m_bias c3 = (fun _ => bias0) <$> m_cameras m /\ m_landmarks c3 = ∅.
Proof.
  assert (forall k s, (k, s) ∈ enumS (m_shots m) <-> m_shots m !! k = Some s) as Hen.
  { intros k s. rewrite (HS _). apply elem_of_map_to_list. }
  destruct (copy_shots_ok false (enumS (m_shots m)) _ _ ist_init) as (d2 & c2 & Hc2 & Hi2 & Hd2); [intros k s; apply Hen|].
  destruct (copy_shots_ok true (enumS (m_shots m)) _ _ Hi2) as (d3 & c3 & Hc3 & (K & insts & Hst & HK & Hins) & Hd3); [intros k s; apply Hen|].
  exists c2, c3. split; [done|]. split; [done|]. split; [|split; apply Hst].
  assert (forall id, d3 id = true <-> exists k s, m_shots m !! k = Some s /\ sh_instance s = id) as Hd.
  { intros id. rewrite Hd3, Hd2. split.
    - intros [[?|(k & s & Hk & _ & ?)]|(k & s & Hk & _ & ?)]; [done| |]; exists k, s; (split; [by apply Hen|done]).
    - intros (k & s & Hk & Hid). apply Hen in Hk. destruct k as [[] k]; [right; eauto|left; right; eauto]. }
  assert (forall k, is_Some (m_shots m !! k) -> K k = true) as HKall.
  { intros k Hk. rewrite HK by done. destruct Hk as [s Hs]. unfold Kof. rewrite Hs. apply Hd. eauto. }
  split.
  - apply Hst.
  - apply Hst.
  - apply Hst.
  - intros k. rewrite (st_shots _ _ _ Hst). destruct (m_shots m !! k) as [s|] eqn:E; [rewrite HKall by eauto; done|by destruct (K k)].
  - intros id. rewrite (st_inst _ _ _ Hst), Hins. destruct (m_instances m !! id) as [i|] eqn:Ei; [|by destruct (d3 id)].
    case_decide as Hm.
    + destruct (d3 id) eqn:E; [|done]. apply Hd in E as (k & s & Hk & Hid). destruct (rig_shot _ (inv_rig _ _ Hinv) _ _ Hk) as (i' & Hi' & Hmem).
      rewrite Hid, Ei in Hi'. injection Hi' as <-. by rewrite Hm, lookup_empty in Hmem.
    + apply map_choose in Hm as (s & [b rc] & Hs). destruct (rig_inst _ (inv_rig _ _ Hinv) _ _ _ _ _ Ei Hs) as (x & Hx & Hxi & _).
      assert (d3 id = true) as ->; [apply Hd; eauto|done].
  - intros id p. rewrite (st_rc _ _ _ Hst). split.
    + intros (? & k & s & _ & Hk). split; [done|]. eauto.
    + intros (? & k & s & Hk & Hr). split; [done|]. exists k, s. split; [by apply HKall; eauto|done].
  - intros k l. unfold O_of. rewrite (st_shots _ _ _ Hst). destruct (K k); [|done]. destruct (m_shots m !! k); [|done]. simpl. apply lookup_empty.
  - intros id. by rewrite (st_lm _ _ _ Hst).
Qed.

(** Landmarks *)
Definition fresh_lm (l : landmark V) : landmark V := Landmark (lm_pos l) (255, 0, 0)%Z ∅.
Lemma copy_landmarks_ok es : forall to : map, inv to -> NoDup es.*1 -> (forall id, id ∈ es.*1 -> m_landmarks to !! id = None) ->
  exists to', copy_landmarks to es = Ok to' /\ inv to' /\
    (forall id l, m_landmarks to' !! id = Some l <-> m_landmarks to !! id = Some l \/ exists l0, (id, l0) ∈ es /\ l = fresh_lm l0) /\
    to' = set_landmarks to (m_landmarks to').
Proof.
  induction es as [|[id l] es IH]; intros to Hto Hnd Hnew.
  - exists to. split; [done|]. split; [done|]. split; [|by destruct to]. intros id l. split; [by left|]. intros [?|(? & ? & _)]; [done|set_solver].
  - rewrite fmap_cons in Hnd. apply NoDup_cons in Hnd as [Hnin Hnd]. simpl in Hnin.
    assert (create_landmark to id (lm_pos l) = Ok (set_landmarks to (<[id := fresh_lm l]> (m_landmarks to)))) as Hc.
    { unfold create_landmark. rewrite Hnew; [done|by left]. }
    destruct (IH (set_landmarks to (<[id := fresh_lm l]> (m_landmarks to)))) as (to' & Hcp & Hinv' & Hl & Heq).
    { eapply (inv_exec feature_of bias0 pose0 data0 mesh0 pcompose pinverse enumL enumF enumO HL HF HO to (MLandmark id (lm_pos l))); [done|done|done]. }
    { done. }
    { intros id' Hid'. simpl. rewrite lookup_insert_ne; [apply Hnew; by right|]. intros ->. done. }
    exists to'. split; [cbn [copy_landmarks]; rewrite Hc; done|]. split; [done|]. split; [|rewrite Heq; done].
    intros id' l'. rewrite Hl. simpl. rewrite lookup_insert_Some. split.
    + intros [[[<- <-]|[? ?]]|(l0 & ? & ?)]; [|by left|]; right; [exists l; split; [by left|done]|exists l0; split; [by right|done]].
    + intros [Hx|(l0 & Hin & ->)].
      * left. right. split; [|done]. intros <-. rewrite Hnew in Hx; [done|]. by left.
      * apply elem_of_cons in Hin as [[= -> ->]|Hin]; [by left; left|]. right. eauto.
Qed.

(** Observations *)
Lemma copy_shot_obs_ok k es : k.1 = false -> forall to obs lms, copied obs lms to -> dom lms = dom (m_landmarks m) ->
  NoDup es.*1 -> (forall l o, (l, o) ∈ es -> O_of (m_shots m) k l = Some o /\ obs k l = None) ->
  (forall k' l o, obs k' l = Some o -> k'.1 = false /\ O_of (m_shots m) k' l = Some o) ->
  exists to' obs', copy_shot_obs feature_of to k es = Ok to' /\ copied obs' lms to' /\ m_bias to' = m_bias to /\
    (forall k' l o, obs' k' l = Some o <-> obs k' l = Some o \/ k' = k /\ (l, o) ∈ es).
Proof.
  intros Hk. induction es as [|[l o] es IH]; intros to obs lms Hcp Hdom Hnd Hes Hobs.
  - exists to, obs. split; [done|]. split; [done|]. split; [done|]. set_solver.
  - rewrite fmap_cons in Hnd. apply NoDup_cons in Hnd as [Hnin Hnd]. simpl in Hnin. destruct (Hes l o) as [Ho Hno]; [by left|].
    assert (is_Some (m_shots to !! k)) as [s Hs].
    { pose proof (cp_shots _ _ _ Hcp k) as E. unfold O_of in Ho. destruct (m_shots m !! k); [|done]. simpl in E. destruct (m_shots to !! k); [eauto|done]. }
    assert (is_Some (m_landmarks to !! l)) as [lm Hlm].
    { assert (l ∈ dom (m_landmarks m)) as Hin.
      { assert (L_of (m_landmarks m) l k.2 = Some (k.1, feature_of o)) as HLo. { apply (inv_sym _ _ Hinv). exists o. by destruct k. }
        unfold L_of in HLo. apply elem_of_dom. destruct (m_landmarks m !! l); [eauto|done]. }
      rewrite <- Hdom in Hin. apply elem_of_dom in Hin as [x Hx]. pose proof (cp_lm _ _ _ Hcp l) as E. rewrite Hx in E. destruct (m_landmarks to !! l); [eauto|done]. }
    assert (exists to1, add_observation feature_of to k l o = Ok to1) as (to1 & Hto1). { unfold add_observation. rewrite Hs, Hlm. eauto. }
    destruct (add_observation_ok feature_of pose0 pcompose pinverse to k l o to1 (cp_inv _ _ _ Hcp)) as (Hinv1 & Hst1 & Ho1 & Hl1 & Heq1).
    { intros l' o' Hs'. apply sees_O in Hs'. rewrite (cp_obs _ _ _ Hcp) in Hs'. intros Hfe. pose proof (Hobs _ _ _ Hs') as [_ Hm'].
      assert (F_of (m_shots m) k (feature_of o) = Some l) as E1 by (apply (inv_feat _ _ Hinv); eauto).
      assert (F_of (m_shots m) k (feature_of o) = Some l') as E2 by (apply (inv_feat _ _ Hinv); eauto).
      rewrite E1 in E2. injection E2 as <-. congruence. }
    { intros b f Hll. apply lists_L in Hll. simpl in Hll. apply (inv_sym _ _ (cp_inv _ _ _ Hcp)) in Hll as (o' & Ho' & _).
      rewrite (cp_obs _ _ _ Hcp) in Ho'. pose proof (Hobs _ _ _ Ho') as [Hb _]. simpl in Hb. subst b. destruct k as [kb ks]. simpl in *. subst kb. congruence. }
    { done. }
    set (obs1 := fun k' l' => if decide (k' = k /\ l' = l) then Some o else obs k' l').
    destruct (IH to1 obs1 lms) as (to' & obs' & Hc & Hcp' & Hb & Hobs').
    { split.
      - done.
      - rewrite Heq1. apply Hcp.
      - rewrite Heq1. apply Hcp.
      - intros k'. rewrite <- (cp_shots _ _ _ Hcp). apply Hst1.
      - rewrite Heq1. apply Hcp.
      - rewrite Heq1. apply Hcp.
      - intros k' l'. rewrite Ho1. unfold obs1. case_decide; [done|]. apply Hcp.
      - intros id. rewrite Hl1, <- (cp_lm _ _ _ Hcp). case_decide; [|done]. by destruct (m_landmarks to !! id). }
    { done. }
    { done. }
    { intros l' o' Hin. destruct (Hes l' o') as [? ?]; [by right|]. split; [done|]. unfold obs1. rewrite decide_False; [done|].
      intros [_ ->]. apply Hnin. apply elem_of_list_fmap. by exists (l, o'). }
    { intros k' l' o'. unfold obs1. case_decide as Hd; [|apply Hobs]. destruct Hd as [-> ->]. intros [= <-]. done. }
    exists to', obs'. split; [cbn [copy_shot_obs]; rewrite Hto1; done|]. split; [done|]. split; [by rewrite Hb, Heq1|].
    intros k' l' o'. rewrite Hobs'. unfold obs1. rewrite elem_of_cons. case_decide as Hd.
    + destruct Hd as [-> ->]. split; [intros [[= ->]|?]; tauto|]. intros [?|[_ [[= ->]|?]]]; [congruence|tauto|tauto].
    + split; [tauto|]. intros [?|[-> [[= -> ->]|?]]]; tauto.
Qed.

Lemma copy_obs_ok es : forall to obs lms, copied obs lms to -> dom lms = dom (m_landmarks m) -> NoDup es.*1 ->
  (forall k s, (k, s) ∈ es -> m_shots m !! k = Some s /\ forall l, obs k l = None) ->
  (forall k' l o, obs k' l = Some o -> k'.1 = false /\ O_of (m_shots m) k' l = Some o) ->
  exists to' obs', copy_obs feature_of enumO to es = Ok to' /\ copied obs' lms to' /\ m_bias to' = m_bias to /\
    (forall k' l o, obs' k' l = Some o <-> obs k' l = Some o \/ k'.1 = false /\ k' ∈ es.*1 /\ O_of (m_shots m) k' l = Some o).
Proof.
  induction es as [|[k s] es IH]; intros to obs lms Hcp Hdom Hnd Hes Hobs.
  - exists to, obs. split; [done|]. split; [done|]. split; [done|]. set_solver.
  - rewrite fmap_cons in Hnd. apply NoDup_cons in Hnd as [Hnin Hnd]. simpl in Hnin. destruct (Hes k s) as [Hs Hno]; [by left|].
    cbn [copy_obs]. destruct (decide (k.1 = false)) as [Hk|Hk].
    + assert (forall l o, (l, o) ∈ enumO (sh_obs s) <-> O_of (m_shots m) k l = Some o) as Hen.
      { intros l o. rewrite (HO _), elem_of_map_to_list. unfold O_of. by rewrite Hs. }
      destruct (copy_shot_obs_ok k (enumO (sh_obs s)) Hk to obs lms Hcp Hdom) as (to1 & obs1 & Hc1 & Hcp1 & Hb1 & Hobs1).
      { rewrite (HO _). apply NoDup_fst_map_to_list. }
      { intros l o Hin. split; [by apply Hen|apply Hno]. }
      { done. }
      destruct (IH to1 obs1 lms Hcp1 Hdom Hnd) as (to' & obs' & Hc & Hcp' & Hb & Hobs').
      { intros k' s' Hin. destruct (Hes k' s') as [? Hno']; [by right|]. split; [done|]. intros l. destruct (obs1 k' l) as [o|] eqn:E; [|done].
        apply Hobs1 in E as [E|[-> _]]; [by rewrite Hno' in E|]. exfalso. apply Hnin. apply elem_of_list_fmap. by exists (k, s'). }
      { intros k' l o E. apply Hobs1 in E as [E|[-> E]]; [by apply Hobs|]. split; [done|]. by apply Hen. }
      exists to', obs'. split; [by rewrite Hc1|]. split; [done|]. split; [congruence|]. intros k' l o. rewrite Hobs', Hobs1, fmap_cons, elem_of_cons, Hen. simpl.
      split; [intros [[?|[-> ?]]|?]; tauto|]. intros [?|(? & [->|?] & ?)]; tauto.
    + destruct (IH to obs lms Hcp Hdom Hnd) as (to' & obs' & Hc & Hcp' & Hb & Hobs').
      { intros k' s' Hin. apply Hes. by right. }
      { done. }
      exists to', obs'. split; [done|]. split; [done|]. split; [done|]. intros k' l o. rewrite Hobs', fmap_cons, elem_of_cons. simpl.
      split; [tauto|]. intros [?|(? & [->|?] & ?)]; tauto.
Qed.

Lemma copy_biases_ok es : forall to : map, inv to -> (forall id, id ∈ es.*1 -> is_Some (m_bias to !! id)) -> NoDup es.*1 ->
  exists to', copy_biases to es = Ok to' /\ inv to' /\ to' = set_biases to (m_bias to') /\
    (forall id, id ∉ es.*1 -> m_bias to' !! id = m_bias to !! id) /\ (forall id b, (id, b) ∈ es -> m_bias to' !! id = Some b).
Proof.
  induction es as [|[id b] es IH]; intros to Hto Hes Hnd.
  - exists to. split; [done|]. split; [done|]. split; [by destruct to|]. split; [done|set_solver].
  - rewrite fmap_cons in Hnd. apply NoDup_cons in Hnd as [Hnin Hnd]. simpl in Hnin. destruct (Hes id) as [b0 Hb0]; [by left|].
    assert (set_bias to id b = Ok (set_biases to (<[id := b]> (m_bias to)))) as Hsb by (unfold set_bias; by rewrite Hb0).
    destruct (IH (set_biases to (<[id := b]> (m_bias to)))) as (to' & Hc & Hinv' & Heq & Hout & Hin).
    { eapply (inv_exec feature_of bias0 pose0 data0 mesh0 pcompose pinverse enumL enumF enumO HL HF HO to (MBias id b)); [done|done|done]. }
    { intros id' Hid'. simpl. rewrite lookup_insert_is_Some. destruct (decide (id = id')); [by left|]. right. split; [done|]. apply Hes. by right. }
    { done. }
    exists to'. split; [cbn [copy_biases]; rewrite Hsb; done|]. split; [done|]. split; [rewrite Heq; done|]. split.
    + intros id' Hid'. rewrite fmap_cons, not_elem_of_cons in Hid'. rewrite Hout by tauto. simpl. rewrite lookup_insert_ne; [done|]. intros ->. tauto.
    + intros id' b' Hb'. apply elem_of_cons in Hb' as [[= -> ->]|Hb']; [|by apply Hin]. rewrite Hout by done. simpl. apply lookup_insert.
Qed.

Lemma deep_copy_ok obs : exists c, deep_copy feature_of bias0 pose0 data0 mesh0 pcompose pinverse enumL enumO enumS enumI enumC enumB m obs = Ok c /\
  copied (fun k l => if obs && negb k.1 then O_of (m_shots m) k l else None) (fresh_lm <$> m_landmarks m) c /\ m_bias c = m_bias m.
Proof.
  destruct shots_copied as (c2 & c3 & H2 & H3 & Hcp & Hbias & Hlm3).
  destruct (copy_landmarks_ok (enumL (m_landmarks m)) c3) as (c4 & H4 & Hinv4 & Hl4 & Heq4).
  { apply Hcp. }
  { rewrite (HL _). apply NoDup_fst_map_to_list. }
  { intros id _. by rewrite Hlm3, lookup_empty. }
  assert (m_landmarks c4 = fresh_lm <$> m_landmarks m) as Hlm4.
  { apply map_eq. intros id. apply option_eq. intros l. rewrite Hl4, Hlm3, lookup_empty, lookup_fmap, fmap_Some. split.
    - intros [?|(l0 & Hin & ->)]; [done|]. rewrite (HL _) in Hin. apply elem_of_map_to_list in Hin. eauto.
    - intros (l0 & Hin & ->). right. exists l0. split; [|done]. rewrite (HL _). by apply elem_of_map_to_list. }
  assert (copied (fun _ _ => None) (fresh_lm <$> m_landmarks m) c4) as Hcp4.
  { destruct Hcp as [X1 X2 X3 X4 X5 X6 X7 X8]. rewrite Heq4. split; simpl; try done; [by rewrite <- Heq4|]. intros id. by rewrite Hlm4. }
  assert (exists c5 ob, (if obs then copy_obs feature_of enumO c4 (enumS (m_shots m)) else Ok c4) = Ok c5 /\ copied ob (fresh_lm <$> m_landmarks m) c5 /\
    m_bias c5 = m_bias c4 /\ forall k l, ob k l = if obs && negb k.1 then O_of (m_shots m) k l else None) as (c5 & ob & H5 & Hcp5 & Hb5 & Hob).
  { destruct obs.
    - destruct (copy_obs_ok (enumS (m_shots m)) c4 (fun _ _ => None) (fresh_lm <$> m_landmarks m)) as (c5 & ob & Hc & Hcp5 & Hb5 & Hob).
      { done. }
      { by rewrite dom_fmap_L. }
      { rewrite (HS _). apply NoDup_fst_map_to_list. }
      { intros k s Hin. rewrite (HS _) in Hin. by apply elem_of_map_to_list in Hin. }
      { done. }
      exists c5, ob. split; [done|]. split; [done|]. split; [done|]. intros k l. simpl. apply option_eq. intros o. rewrite Hob. destruct k as [[] k]; simpl.
      + split; [|done]. intros [?|(? & _)]; done.
      + split; [intros [?|(_ & _ & ?)]; done|]. intros Ho. right. split; [done|]. split; [|done]. rewrite (HS _). apply elem_of_list_fmap.
        apply O_some in Ho as (s & Hs & _). exists ((false, k), s). split; [done|]. by apply elem_of_map_to_list.
    - exists c4, (fun _ _ => None). done. }
  destruct (copy_biases_ok (enumB (m_bias m)) c5 (cp_inv _ _ _ Hcp5)) as (c6 & H6 & Hinv6 & Heq6 & Hout & Hin).
  { intros id Hid. apply (rig_bias _ (inv_rig _ _ (cp_inv _ _ _ Hcp5))). rewrite (cp_cam _ _ _ Hcp5). apply (rig_bias _ (inv_rig _ _ Hinv)).
    rewrite (HB _) in Hid. apply elem_of_list_fmap in Hid as ([id' b] & -> & Hb). apply elem_of_map_to_list in Hb. eauto. }
  { rewrite (HB _). apply NoDup_fst_map_to_list. }
  exists c6. split; [|split].
  - unfold deep_copy. rewrite H2. cbn [res_bind]. rewrite H3. cbn [res_bind]. rewrite H4. cbn [res_bind]. rewrite H5. cbn [res_bind]. done.
  - destruct Hcp5 as [X1 X2 X3 X4 X5 X6 X7 X8]. split; [done|..]; rewrite Heq6; simpl; try done. intros k l. by rewrite X7, Hob.
  - apply map_eq. intros id. destruct (m_bias m !! id) as [b|] eqn:E.
    + apply Hin. rewrite (HB _). by apply elem_of_map_to_list.
    + assert (id ∉ (enumB (m_bias m)).*1) as Hni.
      { rewrite (HB _). intros ([id' b] & -> & Hb)%elem_of_list_fmap. apply elem_of_map_to_list in Hb. simpl in E. congruence. }
      rewrite Hout by done. rewrite Hb5. destruct (m_bias c4 !! id) as [b|] eqn:E'; [|done]. exfalso.
      assert (is_Some (m_cameras c4 !! id)) as Hc by (apply (rig_bias _ (inv_rig _ _ Hinv4)); eauto).
      rewrite (cp_cam _ _ _ Hcp4) in Hc. apply (rig_bias _ (inv_rig _ _ Hinv)) in Hc as [? ?]. congruence.
Qed.
End P.
