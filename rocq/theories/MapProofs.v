From stdpp Require Import prelude gmap strings.
From Verif Require Import Base TracksModel MapModel MapSpec.

Section P.
Context {C B P V D X O R : Type}.
Variable feature_of : O -> Z.
Notation map := (@map C B P V D X O R).
Notation shot := (shot D X O). Notation landmark := (landmark V). Notation instance := (instance P).
Notation shots := (gmap shot_key shot).
Notation landmarks := (gmap string landmark).

(** The three views of observations *)
Definition O_of (sh : shots) (k : shot_key) (lm : string) : option O := sh !! k ≫= fun s => sh_obs s !! lm.
Definition F_of (sh : shots) (k : shot_key) (f : Z) : option string := sh !! k ≫= fun s => sh_feat s !! f.
Definition L_of (ls : landmarks) (lm s : string) : option (bool * Z) := ls !! lm ≫= fun l => lm_obs l !! s.

Definition featOK (sh : shots) : Prop := forall k f lm, F_of sh k f = Some lm <-> exists o, O_of sh k lm = Some o /\ feature_of o = f.
Definition symOK (sh : shots) (ls : landmarks) : Prop :=
  forall lm s k f, L_of ls lm s = Some (k, f) <-> exists o, O_of sh (k, s) lm = Some o /\ feature_of o = f.

(** What is not about observations *)
Definition strip (s : shot) := (sh_camera s, sh_rig_camera s, sh_instance s, sh_data s, sh_mesh s).
Definition same_strip (a b : shots) : Prop := forall k, strip <$> a !! k = strip <$> b !! k.

Record rigOK (m : map) : Prop := RigOK {
  rig_shot : forall k s, m_shots m !! k = Some s ->
    exists i, m_instances m !! sh_instance s = Some i /\ in_members i !! k.2 = Some (k.1, sh_rig_camera s);
  rig_inst : forall id i s k rc, m_instances m !! id = Some i -> in_members i !! s = Some (k, rc) ->
    exists x, m_shots m !! (k, s) = Some x /\ sh_instance x = id /\ sh_rig_camera x = rc;
  rig_ptr : forall k s, m_shots m !! k = Some s -> is_Some (m_cameras m !! sh_camera s) /\ is_Some (m_rig_cameras m !! sh_rig_camera s);
  rig_uniq : forall id i s1 s2 k1 k2 rc, m_instances m !! id = Some i -> in_members i !! s1 = Some (k1, rc) ->
    in_members i !! s2 = Some (k2, rc) -> s1 = s2;
  rig_bias : forall id, is_Some (m_bias m !! id) <-> is_Some (m_cameras m !! id) }.
Record inv (m : map) : Prop := Inv {
  inv_feat : featOK (m_shots m);
  inv_sym : symOK (m_shots m) (m_landmarks m);
  inv_rig : rigOK m }.

Lemma O_insert (sh : shots) k s k' lm : O_of (<[k := s]> sh) k' lm = if decide (k = k') then sh_obs s !! lm else O_of sh k' lm.
Proof using Type. unfold O_of. destruct (decide (k = k')) as [->|?]; [by rewrite lookup_insert|by rewrite lookup_insert_ne]. Qed.
Lemma F_insert (sh : shots) k s k' f : F_of (<[k := s]> sh) k' f = if decide (k = k') then sh_feat s !! f else F_of sh k' f.
Proof using Type. unfold F_of. destruct (decide (k = k')) as [->|?]; [by rewrite lookup_insert|by rewrite lookup_insert_ne]. Qed.
Lemma L_insert (ls : landmarks) l x l' s : L_of (<[l := x]> ls) l' s = if decide (l = l') then lm_obs x !! s else L_of ls l' s.
Proof using Type. unfold L_of. destruct (decide (l = l')) as [->|?]; [by rewrite lookup_insert|by rewrite lookup_insert_ne]. Qed.
Lemma L_delete (ls : landmarks) l l' s : L_of (delete l ls) l' s = if decide (l = l') then None else L_of ls l' s.
Proof using Type. unfold L_of. destruct (decide (l = l')) as [->|?]; [by rewrite lookup_delete|by rewrite lookup_delete_ne]. Qed.
Lemma O_delete (sh : shots) k k' lm : O_of (delete k sh) k' lm = if decide (k = k') then None else O_of sh k' lm.
Proof using Type. unfold O_of. destruct (decide (k = k')) as [->|?]; [by rewrite lookup_delete|by rewrite lookup_delete_ne]. Qed.
Lemma F_delete (sh : shots) k k' f : F_of (delete k sh) k' f = if decide (k = k') then None else F_of sh k' f.
Proof using Type. unfold F_of. destruct (decide (k = k')) as [->|?]; [by rewrite lookup_delete|by rewrite lookup_delete_ne]. Qed.
Lemma O_some (sh : shots) k lm o : O_of sh k lm = Some o <-> exists s, sh !! k = Some s /\ sh_obs s !! lm = Some o.
Proof using Type. clear feature_of. unfold O_of. destruct (sh !! k); simpl; naive_solver. Qed.
Lemma sees_O (m : map) k lm o : shot_sees m k lm o <-> O_of (m_shots m) k lm = Some o.
Proof using Type. unfold shot_sees. by rewrite O_some. Qed.
Lemma lists_L (m : map) lm k f : landmark_lists m lm k f <-> L_of (m_landmarks m) lm k.2 = Some (k.1, f).
Proof using Type. clear feature_of. unfold landmark_lists, L_of. destruct (m_landmarks m !! lm); simpl; naive_solver. Qed.

Lemma lookup_emplace {K A} `{Countable K} (k : K) (a : A) (m : gmap K A) k' :
  emplace k a m !! k' = if decide (k = k') then Some (default a (m !! k)) else m !! k'.
Proof.
  unfold emplace. destruct (m !! k) eqn:E; destruct (decide (k = k')) as [->|?]; simpl; try done.
  - by rewrite lookup_insert.
  - by rewrite lookup_insert_ne.
Qed.

(** ** Dropping the observations of one landmark *)
Lemma shot_remove_obs_ok (s : shot) f lm : sh_feat s !! f = Some lm ->
  shot_remove_obs s f = Ok (Shot (sh_camera s) (sh_rig_camera s) (sh_instance s) (sh_data s) (sh_mesh s) (delete lm (sh_obs s)) (delete f (sh_feat s))).
Proof. intros H. unfold shot_remove_obs. by rewrite H. Qed.

Definition targets (es : list (string * (bool * Z))) : list shot_key := (fun e => (e.2.1, e.1)) <$> es.

Lemma drop_obs_spec (lm : string) (es : list (string * (bool * Z))) : forall sh : shots,
  featOK sh -> NoDup es.*1 ->
  (forall s k f, (s, (k, f)) ∈ es -> exists o, O_of sh (k, s) lm = Some o /\ feature_of o = f) ->
  exists sh', drop_obs sh es = Ok sh' /\ featOK sh' /\ same_strip sh' sh /\
    (forall k lm', O_of sh' k lm' = if decide (lm' = lm /\ k ∈ targets es) then None else O_of sh k lm').
Proof.
  induction es as [|[s [k f]] es IH]; intros sh HF Hnd Hes.
  - exists sh. split_and!; [done|done|done|]. intros k lm'. by rewrite decide_False by set_solver.
  - inversion Hnd as [|? ? Hs Hnd']; subst.
    destruct (Hes s k f) as (o & HO & Hfo); [left|]. apply O_some in HO as (x & Hx & HO).
    assert (sh_feat x !! f = Some lm) as Hfx.
    { assert (F_of sh (k, s) f = Some lm) as H. { apply HF. exists o. split; [|done]. apply O_some. eauto. }
      unfold F_of in H. by rewrite Hx in H. }
    cbn [drop_obs]. rewrite Hx. cbn [of_option res_bind]. rewrite (shot_remove_obs_ok _ _ _ Hfx). cbn [res_bind].
    set (x' := Shot _ _ _ _ _ _ _). set (sh1 := <[(k, s) := x']> sh).
    assert (forall k' lm', O_of sh1 k' lm' = if decide ((k, s) = k' /\ lm' = lm) then None else O_of sh k' lm') as HO1.
    { intros k' lm'. unfold sh1. rewrite O_insert. destruct (decide ((k, s) = k')) as [<-|Hne]; simpl.
      - destruct (decide (lm' = lm)) as [->|Hl].
        + rewrite lookup_delete. by rewrite decide_True.
        + rewrite lookup_delete_ne by done. rewrite decide_False by naive_solver. unfold O_of. by rewrite Hx.
      - by rewrite decide_False by naive_solver. }
    assert (featOK sh1) as HF1.
    { intros k' f' lm'. unfold sh1 at 1. rewrite F_insert, HO1. destruct (decide ((k, s) = k')) as [<-|Hne]; simpl.
      - assert (forall f'' l'', sh_feat x !! f'' = Some l'' <-> exists o'', sh_obs x !! l'' = Some o'' /\ feature_of o'' = f'') as HFx.
        { intros f'' l''. specialize (HF (k, s) f'' l''). unfold F_of, O_of in HF. by rewrite Hx in HF. }
        rewrite lookup_delete_Some. rewrite HFx. destruct (decide (lm' = lm)) as [->|Hl].
        + rewrite decide_True by done. split; [|naive_solver]. intros (Hff & o'' & Ho & <-). rewrite HO in Ho. by simplify_eq.
        + rewrite decide_False by naive_solver. unfold O_of. rewrite Hx. simpl. split; [naive_solver|].
          intros (o'' & Ho & Hf''). split; [|by eauto]. intros <-. assert (sh_feat x !! f = Some lm') as Hbad by (apply HFx; eauto).
          rewrite Hfx in Hbad. by simplify_eq.
      - rewrite decide_False by naive_solver. apply HF. }
    destruct (IH sh1 HF1 Hnd') as (sh' & Hdrop & HF' & Hstrip & Hd).
    { intros s' k' f' Hin. rewrite HO1. rewrite decide_False; [apply Hes; by right|]. intros [[= -> ->] _]. apply Hs.
      apply elem_of_list_fmap. by exists (s', (k', f')). }
    exists sh'. split_and!; [done|done| |].
    + intros k'. rewrite Hstrip. unfold sh1. destruct (decide ((k, s) = k')) as [<-|?]; [by rewrite lookup_insert, Hx|by rewrite lookup_insert_ne].
    + intros k' lm'. rewrite Hd, HO1.
      assert (k' ∈ targets ((s, (k, f)) :: es) <-> k' = (k, s) \/ k' ∈ targets es) as Ht by (unfold targets; rewrite fmap_cons, elem_of_cons; done).
      repeat case_decide; naive_solver.
Qed.

Lemma targets_elem es k : k ∈ targets es <-> exists f, (k.2, (k.1, f)) ∈ es.
Proof.
  unfold targets. rewrite elem_of_list_fmap. split.
  - intros ([s [b f]] & -> & H). simpl. eauto.
  - intros (f & H). exists (k.2, (k.1, f)). split; [by destruct k|done].
Qed.

(** All the observations of a landmark [lm] of a map with symmetric observations. *)
Lemma drop_landmark sh ls lm l enumF : enumerates enumF -> featOK sh -> symOK sh ls -> ls !! lm = Some l ->
  exists sh', drop_obs sh (enumF (lm_obs l)) = Ok sh' /\ featOK sh' /\ same_strip sh' sh /\
    (forall k lm', O_of sh' k lm' = if decide (lm' = lm) then None else O_of sh k lm').
Proof.
  intros He HF HS Hl.
  assert (forall s k f, (s, (k, f)) ∈ enumF (lm_obs l) <-> L_of ls lm s = Some (k, f)) as Hin.
  { intros s k f. rewrite (He (lm_obs l)), elem_of_map_to_list. unfold L_of. by rewrite Hl. }
  destruct (drop_obs_spec lm (enumF (lm_obs l)) sh HF) as (sh' & Hd & HF' & Hst & HO).
  { rewrite (He (lm_obs l)). apply NoDup_fst_map_to_list. }
  { intros s k f H. apply HS. by apply Hin. }
  exists sh'. split_and!; [done..|]. intros k lm'. rewrite HO.
  destruct (decide (lm' = lm)) as [->|Hne]; [|by rewrite decide_False by naive_solver].
  case_decide as Ht; [done|]. destruct (O_of sh k lm) as [o|] eqn:E; [|done].
  exfalso. apply Ht. split; [done|]. apply targets_elem. exists (feature_of o). apply Hin. apply HS. exists o. destruct k; done.
Qed.

(** ** Preservation *)
Lemma rigOK_strip m sh ls : rigOK m -> same_strip sh (m_shots m) ->
  rigOK (set_landmarks (set_shots m sh) ls).
Proof.
  intros [H1 H2 H3 H4 H5] Hs.
  assert (forall k s, sh !! k = Some s -> exists s0, m_shots m !! k = Some s0 /\ strip s0 = strip s) as Hback.
  { intros k s E. specialize (Hs k). rewrite E in Hs. destruct (m_shots m !! k) as [s0|]; simpl in Hs; [|done].
    exists s0. split; [done|]. by apply (inj Some) in Hs. }
  assert (forall k s, m_shots m !! k = Some s -> exists s0, sh !! k = Some s0 /\ strip s0 = strip s) as Hfwd.
  { intros k s E. specialize (Hs k). rewrite E in Hs. destruct (sh !! k) as [s0|]; simpl in Hs; [|done].
    exists s0. split; [done|]. by apply (inj Some) in Hs. }
  split; simpl.
  - intros k s E. apply Hback in E as (s0 & E & Hst). unfold strip in Hst. injection Hst as E1 E2 E3 E4 E5. rewrite <- E2, <- E3. by apply H1.
  - intros id i s k rc Hi Hm. destruct (H2 _ _ _ _ _ Hi Hm) as (x & Hx & <- & <-). apply Hfwd in Hx as (s0 & E & Hst).
    unfold strip in Hst. injection Hst as E1 E2 E3 E4 E5. rewrite <- E2, <- E3. eauto.
  - intros k s E. apply Hback in E as (s0 & E & Hst). unfold strip in Hst. injection Hst as E1 E2 E3 E4 E5. rewrite <- E1, <- E2. by apply (H3 k).
  - exact H4.
  - exact H5.
Qed.

Lemma remove_landmark_ok m enumF lm l : enumerates enumF -> inv m -> m_landmarks m !! lm = Some l ->
  exists m', remove_landmark enumF m lm = Ok m' /\ inv m' /\ same_strip (m_shots m') (m_shots m) /\
    m_landmarks m' = delete lm (m_landmarks m) /\
    (forall k lm', O_of (m_shots m') k lm' = if decide (lm' = lm) then None else O_of (m_shots m) k lm') /\
    m' = set_landmarks (set_shots m (m_shots m')) (m_landmarks m').
Proof.
  intros He [HF HS HR] Hl. destruct (drop_landmark _ _ _ _ _ He HF HS Hl) as (sh' & Hd & HF' & Hst & HO).
  eexists. split; [unfold remove_landmark; rewrite Hl, Hd; reflexivity|]. simpl. split_and!; try done.
  split; simpl; [done| |by apply rigOK_strip].
  intros lm' s k f. rewrite L_delete, HO. destruct (decide (lm = lm')) as [->|Hne].
  - rewrite decide_True by done. naive_solver.
  - rewrite decide_False by done. apply HS.
Qed.

Lemma clear_loop_ok enumF (es : list (string * landmark)) : enumerates enumF -> forall sh ls,
  featOK sh -> symOK sh ls -> NoDup es.*1 -> (forall id l, (id, l) ∈ es -> ls !! id = Some l) ->
  exists sh', clear_loop enumF sh es = Ok sh' /\ featOK sh' /\ same_strip sh' sh /\
    (forall k lm, O_of sh' k lm = if decide (lm ∈ es.*1) then None else O_of sh k lm).
Proof.
  intros He. induction es as [|[id l] es IH]; intros sh ls HF HS Hnd Hes.
  - exists sh. split_and!; [done..|]. intros k lm. rewrite decide_False; [done|]. simpl. set_solver.
  - inversion Hnd as [|? ? Hid Hnd']; subst.
    destruct (drop_landmark sh ls id l enumF He HF HS) as (sh1 & Hd & HF1 & Hst1 & HO1); [apply Hes; left|].
    destruct (IH sh1 (delete id ls) HF1) as (sh' & Hc & HF' & Hst' & HO').
    { intros lm s k f. rewrite L_delete, HO1. destruct (decide (id = lm)) as [->|Hne].
      - rewrite decide_True by done. naive_solver.
      - rewrite decide_False by done. apply HS. }
    { done. }
    { intros id' l' Hin. rewrite lookup_delete_ne; [apply Hes; by right|]. intros ->. apply Hid. apply elem_of_list_fmap. by exists (id', l'). }
    exists sh'. split_and!; [cbn [clear_loop]; by rewrite Hd|done| |].
    + intros k. by rewrite Hst'.
    + intros k lm. rewrite HO', HO1.
      assert (lm ∈ ((id, l) :: es).*1 <-> lm = id \/ lm ∈ es.*1) as Hm by (rewrite fmap_cons, elem_of_cons; done).
      repeat case_decide; naive_solver.
Qed.

Lemma clear_landmarks_ok m enumL enumF : enumerates enumL -> enumerates enumF -> inv m ->
  exists m', clear_landmarks enumL enumF m = Ok m' /\ inv m' /\ same_strip (m_shots m') (m_shots m) /\
    m_landmarks m' = ∅ /\ (forall k lm, O_of (m_shots m') k lm = None) /\ (forall k f, F_of (m_shots m') k f = None) /\
    m' = set_landmarks (set_shots m (m_shots m')) (m_landmarks m').
Proof.
  intros HeL HeF [HF HS HR].
  destruct (clear_loop_ok enumF (enumL (m_landmarks m)) HeF (m_shots m) (m_landmarks m) HF HS) as (sh' & Hc & HF' & Hst & HO).
  { rewrite (HeL _). apply NoDup_fst_map_to_list. }
  { intros id l Hin. rewrite (HeL _) in Hin. by apply elem_of_map_to_list in Hin. }
  assert (forall k lm, O_of sh' k lm = None) as HOn.
  { intros k lm. rewrite HO. case_decide as Hlm; [done|]. destruct (O_of (m_shots m) k lm) as [o|] eqn:E; [|done].
    exfalso. apply Hlm. assert (L_of (m_landmarks m) lm k.2 = Some (k.1, feature_of o)) as HL.
    { apply HS. exists o. by destruct k. }
    unfold L_of in HL. destruct (m_landmarks m !! lm) as [l|] eqn:El; [|done].
    rewrite (HeL _). apply elem_of_list_fmap. exists (lm, l). split; [done|]. by apply elem_of_map_to_list. }
  eexists. split; [unfold clear_landmarks; rewrite Hc; reflexivity|]. simpl. split_and!; try done.
  - split; simpl; [done| |by apply rigOK_strip]. intros lm s k f. unfold L_of. rewrite lookup_empty. simpl. rewrite HOn. naive_solver.
  - intros k f. destruct (F_of sh' k f) as [lm|] eqn:E; [|done]. apply HF' in E as (o & E & _). by rewrite HOn in E.
Qed.

Lemma clean_loop_ok enumF n (es : list (string * landmark)) : enumerates enumF -> forall m,
  inv m -> NoDup es.*1 -> (forall id l, (id, l) ∈ es -> m_landmarks m !! id = Some l) ->
  exists m', clean_loop enumF n m es = Ok m' /\ inv m' /\ same_strip (m_shots m') (m_shots m) /\
    (forall id, m_landmarks m' !! id = match m_landmarks m !! id with
       | Some l => if decide (id ∈ es.*1 /\ size (lm_obs l) < n) then None else Some l | None => None end) /\
    (forall k lm, O_of (m_shots m') k lm = match m_landmarks m !! lm with
       | Some l => if decide (lm ∈ es.*1 /\ size (lm_obs l) < n) then None else O_of (m_shots m) k lm | None => None end) /\
    m' = set_landmarks (set_shots m (m_shots m')) (m_landmarks m').
Proof.
  intros He. induction es as [|[id l] es IH]; intros m Hinv Hnd Hes.
  - exists m. split_and!; [done..| | |by destruct m].
    + intros id. destruct (m_landmarks m !! id); [|done]. rewrite decide_False; [done|]. simpl. set_solver.
    + intros k lm. destruct (m_landmarks m !! lm) as [l|] eqn:E; [rewrite decide_False; [done|]; simpl; set_solver|].
      destruct (O_of (m_shots m) k lm) as [o|] eqn:EO; [|done].
      assert (L_of (m_landmarks m) lm k.2 = Some (k.1, feature_of o)) as HL. { apply Hinv. exists o. by destruct k. }
      unfold L_of in HL. by rewrite E in HL.
  - inversion Hnd as [|? ? Hid Hnd']; subst.
    assert (m_landmarks m !! id = Some l) as Hl by (apply Hes; left).
    assert (forall x, x ∈ ((id, l) :: es).*1 <-> x = id \/ x ∈ es.*1) as Hm by (intros x; rewrite fmap_cons, elem_of_cons; done).
    cbn [clean_loop]. destruct (decide (size (lm_obs l) < n)) as [Hlt|Hge].
    + destruct (remove_landmark_ok m enumF id l He Hinv Hl) as (m1 & Hr & Hinv1 & Hst1 & Hls1 & HO1 & Hm1).
      unfold remove_landmark in Hr. rewrite Hl in Hr. destruct (drop_obs (m_shots m) (enumF (lm_obs l))) as [sh1|]; [|done].
      cbn [res_bind] in *. injection Hr as Hr. rewrite Hr.
      destruct (IH m1 Hinv1 Hnd') as (m' & Hc & Hinv' & Hst' & Hls' & HO' & Hm').
      { intros id' l' Hin. rewrite Hls1, lookup_delete_ne; [apply Hes; by right|]. intros ->. apply Hid. apply elem_of_list_fmap. by exists (id', l'). }
      exists m'. split_and!; [done|done| | | |].
      * intros k. by rewrite Hst'.
      * intros id'. rewrite Hls', Hls1. destruct (decide (id = id')) as [<-|Hne].
        -- rewrite lookup_delete, Hl. rewrite decide_True; [done|]. naive_solver.
        -- rewrite lookup_delete_ne by done. destruct (m_landmarks m !! id'); [|done]. specialize (Hm id'). repeat case_decide; naive_solver.
      * intros k lm. rewrite HO', Hls1, HO1. destruct (decide (id = lm)) as [<-|Hne].
        -- rewrite lookup_delete, Hl. rewrite decide_True; [done|]. naive_solver.
        -- rewrite lookup_delete_ne by done. rewrite decide_False by done.
           destruct (m_landmarks m !! lm); [|done]. specialize (Hm lm). repeat case_decide; naive_solver.
      * rewrite Hm' at 1. rewrite Hm1. done.
    + destruct (IH m Hinv Hnd') as (m' & Hc & Hinv' & Hst' & Hls' & HO' & Hm').
      { intros id' l' Hin. apply Hes. by right. }
      exists m'. split_and!; [done|done|done| | |done].
      * intros id'. rewrite Hls'. destruct (m_landmarks m !! id') eqn:E; [|done]. specialize (Hm id'). repeat case_decide; naive_solver.
      * intros k lm. rewrite HO'. destruct (m_landmarks m !! lm) eqn:E; [|done]. specialize (Hm lm). repeat case_decide; naive_solver.
Qed.

Lemma clean_landmarks_ok m enumL enumF n : enumerates enumL -> enumerates enumF -> inv m ->
  exists m', clean_landmarks enumL enumF m n = Ok m' /\ inv m' /\ same_strip (m_shots m') (m_shots m) /\
    (forall id, m_landmarks m' !! id = match m_landmarks m !! id with
       | Some l => if decide (size (lm_obs l) < n) then None else Some l | None => None end) /\
    (forall k lm, O_of (m_shots m') k lm = match m_landmarks m !! lm with
       | Some l => if decide (size (lm_obs l) < n) then None else O_of (m_shots m) k lm | None => None end) /\
    m' = set_landmarks (set_shots m (m_shots m')) (m_landmarks m').
Proof.
  intros HeL HeF Hinv.
  destruct (clean_loop_ok enumF n (enumL (m_landmarks m)) HeF m Hinv) as (m' & Hc & Hinv' & Hst & Hls & HO & Hm').
  { rewrite (HeL _). apply NoDup_fst_map_to_list. }
  { intros id l Hin. rewrite (HeL _) in Hin. by apply elem_of_map_to_list in Hin. }
  assert (forall id l, m_landmarks m !! id = Some l -> id ∈ (enumL (m_landmarks m)).*1) as Hall.
  { intros id l E. rewrite (HeL _). apply elem_of_list_fmap. exists (id, l). split; [done|]. by apply elem_of_map_to_list. }
  exists m'. split_and!; try done.
  - intros id. rewrite Hls. destruct (m_landmarks m !! id) eqn:E; [|done]. apply Hall in E. repeat case_decide; naive_solver.
  - intros k lm. rewrite HO. destruct (m_landmarks m !! lm) eqn:E; [|done]. apply Hall in E. repeat case_decide; naive_solver.
Qed.

(** ** Shots *)
Lemma forget_shot_ok (sid : string) (es : list (string * O)) : forall ls : landmarks,
  (forall lm o, (lm, o) ∈ es -> is_Some (ls !! lm)) ->
  exists ls', forget_shot ls sid es = Ok ls' /\
    forall lm, ls' !! lm = if decide (lm ∈ es.*1) then (fun l => lm_remove_obs l sid) <$> ls !! lm else ls !! lm.
Proof.
  induction es as [|[lm o] es IH]; intros ls Hes.
  - exists ls. split; [done|]. intros lm. rewrite decide_False; [done|]. simpl. set_solver.
  - destruct (Hes lm o) as [l Hl]; [left|]. cbn [forget_shot]. rewrite Hl. cbn [of_option res_bind].
    destruct (IH (<[lm := lm_remove_obs l sid]> ls)) as (ls' & Hf & Hls').
    { intros lm' o' Hin. rewrite lookup_insert_is_Some. destruct (decide (lm = lm')); [by left|right]. split; [done|]. apply (Hes lm' o'). by right. }
    exists ls'. split; [done|]. intros lm'. rewrite Hls'.
    assert (lm' ∈ ((lm, o) :: es).*1 <-> lm' = lm \/ lm' ∈ es.*1) as Hm by (rewrite fmap_cons, elem_of_cons; done).
    destruct (decide (lm = lm')) as [<-|Hne].
    + rewrite lookup_insert, Hl, (decide_True (P := lm ∈ ((lm, o) :: es).*1)) by naive_solver. simpl.
      case_decide; [|done]. f_equal. unfold lm_remove_obs. simpl. by rewrite delete_idemp.
    + rewrite lookup_insert_ne by done. repeat case_decide; naive_solver.
Qed.

Lemma remove_shot_ok m enumO k s : enumerates enumO -> inv m -> m_shots m !! k = Some s ->
  exists m' i, remove_shot enumO m k = Ok m' /\ inv m' /\
    m_shots m' = delete k (m_shots m) /\
    m_instances m !! sh_instance s = Some i /\
    m_instances m' = <[sh_instance s := Instance (in_pose i) (delete k.2 (in_members i))]> (m_instances m) /\
    (forall lm, m_landmarks m' !! lm = if decide (is_Some (sh_obs s !! lm)) then (fun l => lm_remove_obs l k.2) <$> m_landmarks m !! lm else m_landmarks m !! lm) /\
    m' = set_landmarks (set_shots (set_instances m (m_instances m')) (m_shots m')) (m_landmarks m').
Proof.
  intros He [HF HS HR] Hs. destruct HR as [R1 R2 R3 R4 R5]. destruct (R1 _ _ Hs) as (i & Hi & Hmem).
  assert (forall lm o, sh_obs s !! lm = Some o -> L_of (m_landmarks m) lm k.2 = Some (k.1, feature_of o)) as HL.
  { intros lm o E. apply HS. exists o. split; [|done]. apply O_some. exists s. by destruct k. }
  destruct (forget_shot_ok k.2 (enumO (sh_obs s)) (m_landmarks m)) as (ls' & Hf & Hls).
  { intros lm o Hin. rewrite (He _) in Hin. apply elem_of_map_to_list in Hin. apply HL in Hin. unfold L_of in Hin.
    destruct (m_landmarks m !! lm); [eauto|done]. }
  assert (forall lm, lm ∈ (enumO (sh_obs s)).*1 <-> is_Some (sh_obs s !! lm)) as Hdom.
  { intros lm. rewrite (He _), elem_of_list_fmap. split.
    - intros ([lm' o] & -> & E). apply elem_of_map_to_list in E. eauto.
    - intros [o E]. exists (lm, o). split; [done|]. by apply elem_of_map_to_list. }
  assert (forall lm, ls' !! lm = if decide (is_Some (sh_obs s !! lm)) then (fun l => lm_remove_obs l k.2) <$> m_landmarks m !! lm else m_landmarks m !! lm) as Hls'.
  { intros lm. rewrite Hls. specialize (Hdom lm). repeat case_decide; naive_solver. }
  eexists _, i. split.
  { unfold remove_shot. rewrite Hs, Hi. cbn [of_option res_bind]. unfold instance_remove_shot. rewrite Hmem. cbn [res_bind]. rewrite Hf. reflexivity. }
  simpl. split_and!; try done. split; simpl.
  - intros k' f lm. rewrite F_delete, O_delete. case_decide; [naive_solver|]. apply HF.
  - intros lm sid b f. unfold L_of. rewrite Hls'. rewrite O_delete.
    assert ((m_landmarks m !! lm ≫= (fun l => lm_obs l !! sid)) = L_of (m_landmarks m) lm sid) as HLf by done.
    case_decide as Hd.
    + destruct Hd as [o Ho]. pose proof (HL _ _ Ho) as HLo.
      destruct (m_landmarks m !! lm) as [l|] eqn:El; [|by unfold L_of in HLo; rewrite El in HLo]. simpl in *.
      unfold L_of in HLo. rewrite El in HLo. simpl in HLo.
      destruct (decide (k.2 = sid)) as [<-|Hne].
      * rewrite lookup_delete. split; [done|]. case_decide as Hk; [naive_solver|]. intros (o' & Ho' & Hf').
        assert (L_of (m_landmarks m) lm k.2 = Some (b, f)) as HL2 by (apply HS; eauto).
        unfold L_of in HL2. rewrite El in HL2. simpl in HL2. rewrite HLo in HL2. injection HL2 as <- _. exfalso. apply Hk. by destruct k.
      * rewrite lookup_delete_ne by done. rewrite HLf. rewrite decide_False; [apply HS|]. intros ->. done.
    + rewrite HLf. case_decide as Hk; [|apply HS]. subst k. rewrite (HS lm sid b f). unfold O_of. rewrite Hs. simpl. naive_solver.
  - split; simpl.
    + intros k' s' Hs'. apply lookup_delete_Some in Hs' as [Hne Hs']. destruct (R1 _ _ Hs') as (i' & Hi' & Hm').
      destruct (decide (sh_instance s = sh_instance s')) as [E|E].
      * rewrite <- E in *. rewrite Hi in Hi'. injection Hi' as <-. rewrite lookup_insert. eexists. split; [done|]. simpl.
        rewrite lookup_delete_ne; [done|]. intros E2. rewrite <- E2, Hmem in Hm'. injection Hm' as E3 _. apply Hne.
        destruct k, k'; simpl in *; congruence.
      * rewrite lookup_insert_ne by done. eauto.
    + intros id i' sid b rc Hi' Hm'. destruct (decide (sh_instance s = id)) as [<-|Hne].
      * rewrite lookup_insert in Hi'. injection Hi' as <-. simpl in Hm'. apply lookup_delete_Some in Hm' as [Hsid Hm'].
        destruct (R2 _ _ _ _ _ Hi Hm') as (x & Hx & ? & ?). exists x. split; [|done]. rewrite lookup_delete_ne; [done|]. intros ->. done.
      * rewrite lookup_insert_ne in Hi' by done. destruct (R2 _ _ _ _ _ Hi' Hm') as (x & Hx & E & ?). exists x. split; [|done].
        rewrite lookup_delete_ne; [done|]. intros ->. rewrite Hs in Hx. injection Hx as <-. done.
    + intros k' s' Hs'. apply lookup_delete_Some in Hs' as [_ Hs']. by apply (R3 k').
    + intros id i' s1 s2 k1 k2 rc Hi' H1 H2. destruct (decide (sh_instance s = id)) as [<-|Hne].
      * rewrite lookup_insert in Hi'. injection Hi' as <-. simpl in *. apply lookup_delete_Some in H1 as [_ H1]. apply lookup_delete_Some in H2 as [_ H2].
        by eapply R4.
      * rewrite lookup_insert_ne in Hi' by done. by eapply R4.
    + exact R5.
Qed.

Variable bias0 : B.
Variable pose0 : P.
Variable data0 : D.
Variable mesh0 : X.
Variable pcompose : P -> P -> P.
Variable pinverse : P -> P.

Lemma create_shot_ok m k cam rc inst pose m' : inv m ->
  (forall i, m_instances m !! inst = Some i -> in_members i !! k.2 = None) ->
  create_shot data0 mesh0 pcompose pinverse m k cam rc inst pose = Ok m' ->
  inv m' /\ m_shots m !! k = None /\ m_shots m' = <[k := Shot cam rc inst data0 mesh0 ∅ ∅]> (m_shots m) /\
  exists i i' rcp, m_instances m !! inst = Some i /\ m_instances m' = <[inst := i']> (m_instances m) /\
    in_members i' = <[k.2 := (k.1, rc)]> (in_members i) /\ m_rig_cameras m !! rc = Some rcp /\ is_Some (m_cameras m !! cam) /\
    in_pose i' = match pose with None => in_pose i | Some p => pcompose (pinverse rcp) p end /\
    (forall s0 b0 rc0, in_members i !! s0 = Some (b0, rc0) -> rc0 <> rc) /\
    m' = set_shots (set_instances m (m_instances m')) (m_shots m').
Proof.
  intros [HF HS [R1 R2 R3 R4 R5]] Hfresh H. unfold create_shot in H.
  destruct (m_shots m !! k) eqn:Hk; [done|]. destruct (m_cameras m !! cam) as [c|] eqn:Hc; [|done].
  destruct (m_instances m !! inst) as [i|] eqn:Hi; [|done]. destruct (m_rig_cameras m !! rc) as [rcp|] eqn:Hrc; [|done].
  unfold instance_add_shot in H. case_decide as Hu; [|done]. cbn [res_bind] in H.
  set (i1 := Instance (in_pose i) _) in H.
  assert (exists i2, (match pose with None => Ok i1 | Some p => instance_update_pose pcompose pinverse (m_rig_cameras m) i1 k.2 p end) = Ok i2 /\
    in_members i2 = <[k.2 := (k.1, rc)]> (in_members i) /\
    in_pose i2 = match pose with None => in_pose i | Some p => pcompose (pinverse rcp) p end) as (i2 & Hi2 & Hmem & Hpose).
  { destruct pose as [p|]; [|by exists i1]. unfold instance_update_pose, i1. simpl. rewrite lookup_insert, Hrc. simpl. eauto. }
  rewrite Hi2 in H. cbn [res_bind] in H. injection H as <-. simpl.
  specialize (Hfresh i eq_refl). split_and!; try done.
  - split; simpl.
    + intros k' f lm. rewrite F_insert, O_insert. case_decide; simpl; [rewrite !lookup_empty; naive_solver|]. apply HF.
    + intros lm sid b f. rewrite O_insert. rewrite (HS lm sid b f). case_decide as Hkk; [|done]. subst k. simpl. rewrite lookup_empty.
      unfold O_of. rewrite Hk. simpl. naive_solver.
    + split; simpl.
      * intros k' s' Hs'. destruct (decide (k = k')) as [<-|Hne].
        -- rewrite lookup_insert in Hs'. injection Hs' as <-. simpl. rewrite lookup_insert. eexists. split; [done|]. rewrite Hmem. by rewrite lookup_insert.
        -- rewrite lookup_insert_ne in Hs' by done. destruct (R1 _ _ Hs') as (i' & Hi' & Hm').
           destruct (decide (inst = sh_instance s')) as [E|E].
           ++ rewrite <- E in *. rewrite Hi in Hi'. injection Hi' as <-. rewrite lookup_insert. eexists. split; [done|]. rewrite Hmem.
              rewrite lookup_insert_ne; [done|]. intros E2. rewrite <- E2, Hfresh in Hm'. done.
           ++ rewrite lookup_insert_ne by done. eauto.
      * intros id i' sid b rc' Hi' Hm'. destruct (decide (inst = id)) as [<-|Hne].
        -- rewrite lookup_insert in Hi'. injection Hi' as <-. rewrite Hmem in Hm'. destruct (decide (k.2 = sid)) as [<-|Hsid].
           ++ rewrite lookup_insert in Hm'. injection Hm' as <- <-. exists (Shot cam rc inst data0 mesh0 ∅ ∅). split; [|done]. destruct k. by rewrite lookup_insert.
           ++ rewrite lookup_insert_ne in Hm' by done. destruct (R2 _ _ _ _ _ Hi Hm') as (x & Hx & ? & ?). exists x. split; [|done].
              rewrite lookup_insert_ne; [done|]. intros ->. done.
        -- rewrite lookup_insert_ne in Hi' by done. destruct (R2 _ _ _ _ _ Hi' Hm') as (x & Hx & ? & ?). exists x. split; [|done].
           rewrite lookup_insert_ne; [done|]. intros ->. by rewrite Hk in Hx.
      * intros k' s' Hs'. destruct (decide (k = k')) as [<-|Hne].
        -- rewrite lookup_insert in Hs'. injection Hs' as <-. simpl. eauto.
        -- rewrite lookup_insert_ne in Hs' by done. by apply (R3 k').
      * intros id i' s1 s2 k1 k2 rc' Hi' H1 H2. destruct (decide (inst = id)) as [<-|Hne].
        -- rewrite lookup_insert in Hi'. injection Hi' as <-. rewrite Hmem in H1, H2.
           rewrite lookup_insert_Some in H1, H2.
           destruct H1 as [[<- [= <- <-]]|[N1 H1]], H2 as [[<- H2]|[N2 H2]].
           ++ done.
           ++ specialize (Hu _ _ H2). done.
           ++ injection H2 as <- <-. specialize (Hu _ _ H1). done.
           ++ by eapply R4.
        -- rewrite lookup_insert_ne in Hi' by done. by eapply R4.
      * exact R5.
  - exists i, i2, rcp. split_and!; try done. intros s0 b0 rc0 H0. specialize (Hu _ _ H0). done.
Qed.

Lemma add_observation_ok m k lm o m' : inv m ->
  (forall lm' o', shot_sees m k lm' o' -> feature_of o' <> feature_of o) ->
  (forall b f, ~ landmark_lists m lm (b, k.2) f) ->
  add_observation feature_of m k lm o = Ok m' ->
  inv m' /\ same_strip (m_shots m') (m_shots m) /\
  (forall k' lm', O_of (m_shots m') k' lm' = if decide (k' = k /\ lm' = lm) then Some o else O_of (m_shots m) k' lm') /\
  (forall id, m_landmarks m' !! id = if decide (id = lm) then (fun l => Landmark (lm_pos l) (lm_color l) (<[k.2 := (k.1, feature_of o)]> (lm_obs l))) <$> m_landmarks m !! id else m_landmarks m !! id) /\
  m' = set_landmarks (set_shots m (m_shots m')) (m_landmarks m').
Proof.
  intros [HF HS HR] Hfeat Hlm H. unfold add_observation in H.
  destruct (m_shots m !! k) as [s|] eqn:Hs; [|done]. destruct (m_landmarks m !! lm) as [l|] eqn:Hl; [|done]. injection H as <-. simpl.
  assert (lm_obs l !! k.2 = None) as Hnone.
  { destruct (lm_obs l !! k.2) as [[b f]|] eqn:E; [|done]. exfalso. apply (Hlm b f). exists l. done. }
  assert (sh_obs s !! lm = None) as Hs_none.
  { destruct (sh_obs s !! lm) as [o'|] eqn:E; [|done]. exfalso.
    assert (L_of (m_landmarks m) lm k.2 = Some (k.1, feature_of o')) as HL.
    { apply HS. exists o'. split; [|done]. apply O_some. exists s. by destruct k. }
    unfold L_of in HL. rewrite Hl in HL. simpl in HL. by rewrite Hnone in HL. }
  assert (sh_feat s !! feature_of o = None) as Hf_none.
  { destruct (sh_feat s !! feature_of o) as [lm'|] eqn:E; [|done]. exfalso.
    assert (F_of (m_shots m) k (feature_of o) = Some lm') as H by (unfold F_of; by rewrite Hs).
    apply HF in H as (o' & Ho' & Hfo). apply (Hfeat lm' o'); [|done]. by apply sees_O. }
  assert (forall k' lm', O_of (<[k:=shot_create_obs feature_of s lm o]> (m_shots m)) k' lm' =
    if decide (k' = k /\ lm' = lm) then Some o else O_of (m_shots m) k' lm') as HO.
  { intros k' lm'. rewrite O_insert. unfold shot_create_obs, emplace. simpl. rewrite Hs_none.
    destruct (decide (k = k')) as [<-|Hne].
    - destruct (decide (lm = lm')) as [<-|Hl'].
      + rewrite lookup_insert, decide_True by done. done.
      + rewrite lookup_insert_ne by done. rewrite decide_False by naive_solver. unfold O_of. by rewrite Hs.
    - by rewrite decide_False by naive_solver. }
  assert (same_strip (<[k:=shot_create_obs feature_of s lm o]> (m_shots m)) (m_shots m)) as Hst.
  { intros k'. destruct (decide (k = k')) as [<-|?]; [by rewrite lookup_insert, Hs|by rewrite lookup_insert_ne]. }
  split_and!; [|done|done| |done].
  - split; simpl; [| |by apply rigOK_strip].
    + intros k' f lm'. rewrite F_insert, HO. unfold shot_create_obs, emplace. simpl. rewrite Hf_none.
      assert (forall f'' l'', sh_feat s !! f'' = Some l'' <-> exists o'', sh_obs s !! l'' = Some o'' /\ feature_of o'' = f'') as HFx.
      { intros f'' l''. specialize (HF k f'' l''). unfold F_of, O_of in HF. by rewrite Hs in HF. }
      destruct (decide (k = k')) as [<-|Hne]; [|rewrite decide_False by naive_solver; apply HF].
      rewrite lookup_insert_Some. destruct (decide (lm' = lm)) as [->|Hl'].
      * rewrite decide_True by done. split.
        -- intros [[<- _]|[Hne Hf]]; [by eauto|]. apply HFx in Hf as (o'' & Ho & _). by rewrite Hs_none in Ho.
        -- intros (o'' & [= <-] & <-). by left.
      * rewrite decide_False by naive_solver. unfold O_of. rewrite Hs. simpl. rewrite HFx. split; [naive_solver|].
        intros (o'' & Ho & Hf). right. split; [|by eauto]. intros Hff. subst f. apply (Hfeat lm' o''); [by exists s|done].
    + intros lm' sid b f. rewrite L_insert, HO. unfold lm_add_obs, emplace. simpl. rewrite Hnone.
      destruct (decide (lm = lm')) as [<-|Hne].
      * rewrite lookup_insert_Some. destruct (decide (k.2 = sid)) as [<-|Hsid].
        -- destruct (decide (b = k.1)) as [->|Hb].
           ++ rewrite decide_True by (by destruct k). naive_solver.
           ++ rewrite decide_False by (intros [E _]; apply Hb; by rewrite <- E). split; [naive_solver|].
              intros (o' & Ho' & Hf). assert (L_of (m_landmarks m) lm k.2 = Some (b, f)) as HL by (apply HS; eauto).
              unfold L_of in HL. rewrite Hl in HL. simpl in HL. by rewrite Hnone in HL.
        -- rewrite decide_False by (intros [E _]; apply Hsid; by rewrite <- E).
           specialize (HS lm sid b f). unfold L_of in HS. rewrite Hl in HS. simpl in HS. rewrite <- HS. naive_solver.
      * rewrite decide_False by naive_solver. apply HS.
  - intros id. destruct (decide (id = lm)) as [->|Hne].
    + rewrite lookup_insert, Hl. unfold lm_add_obs, emplace. simpl. by rewrite Hnone.
    + by rewrite lookup_insert_ne.
Qed.

Lemma remove_observation_ok m sid lm m' : inv m ->
  (forall f, ~ landmark_lists m lm (true, sid) f) ->
  remove_observation m sid lm = Ok m' ->
  inv m' /\ same_strip (m_shots m') (m_shots m) /\
  (exists o, O_of (m_shots m) (false, sid) lm = Some o) /\
  (forall k' lm', O_of (m_shots m') k' lm' = if decide (k' = (false, sid) /\ lm' = lm) then None else O_of (m_shots m) k' lm') /\
  m' = set_landmarks (set_shots m (m_shots m')) (m_landmarks m').
Proof.
  intros [HF HS HR] Hpano H. unfold remove_observation in H.
  destruct (m_shots m !! (false, sid)) as [s|] eqn:Hs; [|done]. destruct (m_landmarks m !! lm) as [l|] eqn:Hl; [|done].
  destruct (lm_obs l !! sid) as [[b f]|] eqn:Hf; [|done].
  destruct b. { exfalso. apply (Hpano f). by exists l. }
  assert (L_of (m_landmarks m) lm sid = Some (false, f)) as HL by (unfold L_of; by rewrite Hl).
  apply HS in HL as (o & Ho & Hfo).
  assert (sh_feat s !! f = Some lm) as Hfx.
  { assert (F_of (m_shots m) (false, sid) f = Some lm) as H0 by (apply HF; eauto). unfold F_of in H0. by rewrite Hs in H0. }
  destruct (drop_obs_spec lm [(sid, (false, f))] (m_shots m) HF) as (sh' & Hd & HF' & Hst & HO).
  { apply NoDup_singleton. }
  { intros s' k' f' Hin. apply elem_of_list_singleton in Hin as [= -> -> ->]. eauto. }
  cbn [drop_obs] in Hd. rewrite Hs in Hd. cbn [of_option res_bind] in Hd.
  destruct (shot_remove_obs s f) as [s1|] eqn:Hs1; [|done]. cbn [res_bind] in *. injection Hd as <-. injection H as <-. simpl.
  assert (forall k' lm', O_of (<[(false, sid):=s1]> (m_shots m)) k' lm' = if decide (k' = (false, sid) /\ lm' = lm) then None else O_of (m_shots m) k' lm') as HO'.
  { intros k' lm'. rewrite HO. assert (k' ∈ targets [(sid, (false, f))] <-> k' = (false, sid)) as Ht.
    { unfold targets. simpl. by rewrite elem_of_list_singleton. }
    repeat case_decide; naive_solver. }
  split_and!; [|done|by eauto|done|done].
  split; simpl; [done| |by apply rigOK_strip].
  intros lm' sid' b' f'. rewrite L_insert, HO'. destruct (decide (lm = lm')) as [<-|Hne].
  - simpl. destruct (decide (sid = sid')) as [<-|Hsid].
    + rewrite lookup_delete. split; [done|]. case_decide as Hc; [naive_solver|]. intros (o' & Ho' & Hf').
      assert (L_of (m_landmarks m) lm sid = Some (b', f')) as HL2 by (apply HS; eauto). unfold L_of in HL2. rewrite Hl in HL2. simpl in HL2.
      rewrite Hf in HL2. injection HL2 as <- <-. naive_solver.
    + rewrite lookup_delete_ne by done. rewrite decide_False by naive_solver. specialize (HS lm sid' b' f'). unfold L_of in HS.
      rewrite Hl in HS. exact HS.
  - rewrite decide_False by naive_solver. apply HS.
Qed.

(** ** Every call of the protocol preserves the invariant *)
Lemma inv_empty : inv map_empty.
Proof.
  split; simpl.
  - intros k f lm. unfold F_of, O_of. rewrite lookup_empty. simpl. naive_solver.
  - intros lm s k f. unfold L_of, O_of. rewrite !lookup_empty. simpl. naive_solver.
  - split; simpl; intros; try (by rewrite lookup_empty in *). rewrite !lookup_empty. split; intros [? [=]].
Qed.
Lemma same_strip_insert (sh : shots) k s s' : sh !! k = Some s -> strip s' = strip s -> same_strip (<[k := s']> sh) sh.
Proof. intros H E k'. destruct (decide (k = k')) as [<-|?]; [rewrite lookup_insert, H; simpl; by rewrite E|by rewrite lookup_insert_ne]. Qed.

Variable enumL : gmap string landmark -> list (string * landmark).
Variable enumF : gmap string (bool * Z) -> list (string * (bool * Z)).
Variable enumO : gmap string O -> list (string * O).
Hypothesis HeL : enumerates enumL.
Hypothesis HeF : enumerates enumF.
Hypothesis HeO : enumerates enumO.

Lemma inv_exec m op m' : inv m -> allowed feature_of m op ->
  map_exec feature_of bias0 pose0 data0 mesh0 pcompose pinverse enumL enumF enumO m op = Ok m' -> inv m'.
Proof.
  intros Hinv Hal H. destruct op as [id c|id p|id|id|id p|k cam rc inst pose|k|k d|k x|lm pos|lm pos color|lm|k lm o|sid lm|n| |id b|r]; simpl in H.
  - injection H as <-. destruct Hinv as [HF HS [R1 R2 R3 R4 R5]]. split; [done|done|]. split; simpl; [done|done| |done|].
    + intros k s Hs. destruct (R3 _ _ Hs) as [Hc Hr]. split; [|done]. rewrite lookup_emplace. case_decide; [eauto|done].
    + intros id'. rewrite !lookup_emplace. case_decide; [|apply R5]. split; eauto.
  - unfold create_rig_camera in H. destruct (m_rig_cameras m !! id) eqn:E; [done|]. injection H as <-.
    destruct Hinv as [HF HS [R1 R2 R3 R4 R5]]. split; [done|done|]. split; simpl; [done|done| |done|done].
    intros k s Hs. destruct (R3 _ _ Hs) as [Hc Hr]. split; [done|]. rewrite lookup_insert_is_Some. destruct (decide (id = sh_rig_camera s)); [by left|by right].
  - unfold create_instance in H. destruct (m_instances m !! id) eqn:E; [done|]. injection H as <-.
    destruct Hinv as [HF HS [R1 R2 R3 R4 R5]]. split; [done|done|]. split; simpl; [| |done| |done].
    + intros k s Hs. destruct (R1 _ _ Hs) as (i & Hi & Hm). exists i. rewrite lookup_insert_ne; [done|]. intros ->. by rewrite E in Hi.
    + intros id' i s k rc Hi Hm. destruct (decide (id = id')) as [<-|Hne].
      * rewrite lookup_insert in Hi. injection Hi as <-. simpl in Hm. by rewrite lookup_empty in Hm.
      * rewrite lookup_insert_ne in Hi by done. by eapply R2.
    + intros id' i s1 s2 k1 k2 rc Hi Hm. destruct (decide (id = id')) as [<-|Hne].
      * rewrite lookup_insert in Hi. injection Hi as <-. simpl in Hm. by rewrite lookup_empty in Hm.
      * rewrite lookup_insert_ne in Hi by done. by eapply R4.
  - unfold remove_instance in H. destruct (m_instances m !! id) as [i0|] eqn:E; [|done]. injection H as <-. simpl in Hal. specialize (Hal _ E).
    destruct Hinv as [HF HS [R1 R2 R3 R4 R5]]. split; [done|done|]. split; simpl; [| |done| |done].
    + intros k s Hs. destruct (R1 _ _ Hs) as (i & Hi & Hm). exists i. rewrite lookup_delete_ne; [done|]. intros ->.
      rewrite E in Hi. injection Hi as <-. rewrite Hal in Hm. by rewrite lookup_empty in Hm.
    + intros id' i s k rc Hi Hm. apply lookup_delete_Some in Hi as [_ Hi]. by eapply R2.
    + intros id' i s1 s2 k1 k2 rc Hi. apply lookup_delete_Some in Hi as [_ Hi]. by eapply R4.
  - unfold instance_set_pose in H. destruct (m_instances m !! id) as [i0|] eqn:E; [|done]. injection H as <-.
    destruct Hinv as [HF HS [R1 R2 R3 R4 R5]]. split; [done|done|]. split; simpl; [| |done| |done].
    + intros k s Hs. destruct (R1 _ _ Hs) as (i & Hi & Hm). destruct (decide (id = sh_instance s)) as [->|Hne].
      * rewrite lookup_insert. eexists. split; [done|]. simpl. rewrite E in Hi. by injection Hi as <-.
      * rewrite lookup_insert_ne by done. eauto.
    + intros id' i s k rc Hi Hm. destruct (decide (id = id')) as [<-|Hne].
      * rewrite lookup_insert in Hi. injection Hi as <-. simpl in Hm. by eapply R2.
      * rewrite lookup_insert_ne in Hi by done. by eapply R2.
    + intros id' i s1 s2 k1 k2 rc Hi Hm. destruct (decide (id = id')) as [<-|Hne].
      * rewrite lookup_insert in Hi. injection Hi as <-. simpl in *. by eapply R4.
      * rewrite lookup_insert_ne in Hi by done. by eapply R4.
  - by eapply (create_shot_ok m k cam rc inst pose).
  - unfold remove_shot in H. destruct (m_shots m !! k) as [s|] eqn:E; [|done].
    destruct (remove_shot_ok m enumO k s HeO Hinv E) as (m1 & i & Hr & Hinv1 & _). unfold remove_shot in Hr. rewrite E in Hr.
    rewrite Hr in H. by injection H as <-.
  - unfold assign_shot in H. destruct (m_shots m !! k) as [s|] eqn:E; [|done]. injection H as <-. destruct Hinv as [HF HS HR].
    assert (forall k' l, O_of (<[k:=Shot (sh_camera s) (sh_rig_camera s) (sh_instance s) d (sh_mesh s) (sh_obs s) (sh_feat s)]> (m_shots m)) k' l = O_of (m_shots m) k' l) as HO.
    { intros k' l. rewrite O_insert. case_decide; [|done]. subst. unfold O_of. by rewrite E. }
    split; simpl.
    + intros k' f l. rewrite HO, F_insert. rewrite <- (HF k' f l). case_decide; [|done]. subst. unfold F_of. by rewrite E.
    + intros l s' b f. rewrite HO. apply HS.
    + destruct HR as [R1 R2 R3 R4 R5]. split; simpl; [| | |done|done].
      * intros k' s' Hs'. apply lookup_insert_Some in Hs' as [[<- <-]|[_ Hs']]; [simpl; by apply (R1 k s)|by apply R1].
      * intros id i s' b rc Hi Hm. destruct (R2 _ _ _ _ _ Hi Hm) as (x & Hx & ? & ?). destruct (decide (k = (b, s'))) as [->|Hne].
        -- rewrite lookup_insert. eexists. split; [done|]. rewrite E in Hx. by injection Hx as <-.
        -- rewrite lookup_insert_ne by done. eauto.
      * intros k' s' Hs'. apply lookup_insert_Some in Hs' as [[<- <-]|[_ Hs']]; [simpl; by apply (R3 k s)|by apply (R3 k')].
  - unfold set_mesh in H. destruct (m_shots m !! k) as [s|] eqn:E; [|done]. injection H as <-. destruct Hinv as [HF HS HR].
    assert (forall k' l, O_of (<[k:=Shot (sh_camera s) (sh_rig_camera s) (sh_instance s) (sh_data s) x (sh_obs s) (sh_feat s)]> (m_shots m)) k' l = O_of (m_shots m) k' l) as HO.
    { intros k' l. rewrite O_insert. case_decide; [|done]. subst. unfold O_of. by rewrite E. }
    split; simpl.
    + intros k' f l. rewrite HO, F_insert. rewrite <- (HF k' f l). case_decide; [|done]. subst. unfold F_of. by rewrite E.
    + intros l s' b f. rewrite HO. apply HS.
    + destruct HR as [R1 R2 R3 R4 R5]. split; simpl; [| | |done|done].
      * intros k' s' Hs'. apply lookup_insert_Some in Hs' as [[<- <-]|[_ Hs']]; [simpl; by apply (R1 k s)|by apply R1].
      * intros id i s' b rc Hi Hm. destruct (R2 _ _ _ _ _ Hi Hm) as (x' & Hx & ? & ?). destruct (decide (k = (b, s'))) as [->|Hne].
        -- rewrite lookup_insert. eexists. split; [done|]. rewrite E in Hx. by injection Hx as <-.
        -- rewrite lookup_insert_ne by done. eauto.
      * intros k' s' Hs'. apply lookup_insert_Some in Hs' as [[<- <-]|[_ Hs']]; [simpl; by apply (R3 k s)|by apply (R3 k')].
  - unfold create_landmark in H. destruct (m_landmarks m !! lm) eqn:E; [done|]. injection H as <-. destruct Hinv as [HF HS [R1 R2 R3 R4 R5]].
    split; simpl; [done| |done]. intros l s k f. rewrite L_insert. rewrite <- (HS l s k f). case_decide; [|done]. subst. simpl.
    rewrite lookup_empty. unfold L_of. by rewrite E.
  - unfold set_landmark in H. destruct (m_landmarks m !! lm) as [l0|] eqn:E; [|done]. injection H as <-. destruct Hinv as [HF HS [R1 R2 R3 R4 R5]].
    split; simpl; [done| |done]. intros l s k f. rewrite L_insert. rewrite <- (HS l s k f). case_decide; [|done]. subst. simpl.
    unfold L_of. by rewrite E.
  - unfold remove_landmark in H. destruct (m_landmarks m !! lm) as [l|] eqn:E; [|done].
    destruct (remove_landmark_ok m enumF lm l HeF Hinv E) as (m1 & Hr & Hinv1 & _). unfold remove_landmark in Hr. rewrite E in Hr.
    rewrite Hr in H. by injection H as <-.
  - destruct Hal. by eapply add_observation_ok.
  - by eapply remove_observation_ok.
  - destruct (clean_landmarks_ok m enumL enumF n HeL HeF Hinv) as (m1 & Hr & Hinv1 & _). rewrite Hr in H. by injection H as <-.
  - destruct (clear_landmarks_ok m enumL enumF HeL HeF Hinv) as (m1 & Hr & Hinv1 & _). rewrite Hr in H. by injection H as <-.
  - unfold set_bias in H. destruct (m_bias m !! id) eqn:E; [|done]. injection H as <-. destruct Hinv as [HF HS [R1 R2 R3 R4 R5]].
    split; [done|done|]. split; simpl; [done|done|done|done|]. intros id'. rewrite <- R5. rewrite lookup_insert_is_Some.
    destruct (decide (id = id')) as [<-|?]; [rewrite E; naive_solver|naive_solver].
  - injection H as <-. destruct Hinv as [HF HS [R1 R2 R3 R4 R5]]. split; [done|done|]. by split.
Qed.

Notation step := (map_step feature_of bias0 pose0 data0 mesh0 pcompose pinverse enumL enumF enumO).
Lemma reachable_inv m : reachable feature_of step m -> inv m.
Proof.
  induction 1 as [|m op Hr IH Hal]; [apply inv_empty|]. unfold map_step.
  destruct (map_exec _ _ _ _ _ _ _ _ _ _ m op) as [m'|e] eqn:E; [|done]. by eapply inv_exec.
Qed.

(** Errors are only raised before anything is written: never through a dangling pointer nor in the middle of a loop. *)
Lemma exec_error m op e : inv m -> allowed feature_of m op ->
  map_exec feature_of bias0 pose0 data0 mesh0 pcompose pinverse enumL enumF enumO m op = Err e -> e = RuntimeError.
Proof.
  intros Hinv Hal H. destruct op as [id c|id p|id|id|id p|k cam rc inst pose|k|k d|k x|lm pos|lm pos color|lm|k lm o|sid lm|n| |id b|r]; simpl in H.
  all: try (unfold create_rig_camera, create_instance, remove_instance, instance_set_pose, assign_shot, set_mesh, create_landmark, set_landmark, set_bias, add_observation in H;
    repeat case_match; simplify_eq; done).
  - unfold create_shot in H. repeat (destruct (_ !! _) eqn:? in H; simplify_eq; try done).
    unfold instance_add_shot in H. case_decide; cbn [res_bind] in H; [|by simplify_eq].
    destruct pose; cbn [res_bind] in H; [|done]. unfold instance_update_pose in H. simpl in H. rewrite lookup_insert in H.
    destruct (m_rig_cameras m !! rc); [done|]. done.
  - destruct (m_shots m !! k) as [s|] eqn:E.
    + destruct (remove_shot_ok m enumO k s HeO Hinv E) as (m1 & i & Hr & _). by rewrite Hr in H.
    + unfold remove_shot in H. rewrite E in H. by simplify_eq.
  - destruct (m_landmarks m !! lm) as [l|] eqn:E.
    + destruct (remove_landmark_ok m enumF lm l HeF Hinv E) as (m1 & Hr & _). by rewrite Hr in H.
    + unfold remove_landmark in H. rewrite E in H. by simplify_eq.
  - unfold remove_observation, shot_remove_obs in H. destruct (m_shots m !! (false, sid)) as [s|]; [|by simplify_eq].
    destruct (m_landmarks m !! lm) as [l|]; [|by simplify_eq]. destruct (lm_obs l !! sid) as [[b f]|]; [|by simplify_eq].
    destruct (sh_feat s !! f); cbn [res_bind] in H; by simplify_eq.
  - destruct (clean_landmarks_ok m enumL enumF n HeL HeF Hinv) as (m1 & Hr & _). by rewrite Hr in H.
  - destruct (clear_landmarks_ok m enumL enumF HeL HeF Hinv) as (m1 & Hr & _). by rewrite Hr in H.
Qed.
End P.
