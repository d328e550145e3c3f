From stdpp Require Import prelude gmap strings pretty.
From Verif Require Import Base UnionFindModel UnionFindSpec UnionFindProofs TracksModel TracksSpec TracksProofs TrackingModel TrackingSpec.

(** ** Grouping *)
Section Group.
Context {K A : Type} `{EqDecision K}.
Variable rho : A -> K.
Definition grouped (done : list A) (sets : list (K * list A)) : Prop :=
  NoDup sets.*1 /\ forall p l, (p, l) ∈ sets <-> (l = filter (fun x => rho x = p) done /\ l <> []).

Lemma sets_add_elem (sets : list (K * list A)) p i q l : NoDup sets.*1 ->
  ((q, l) ∈ sets_add sets p i <->
   (q <> p /\ (q, l) ∈ sets) \/ (q = p /\ ((exists l0, (p, l0) ∈ sets /\ l = l0 ++ [i]) \/ (p ∉ sets.*1 /\ l = [i])))).
Proof.
  induction sets as [|[q0 l0] sets IH]; intros Hnd; simpl.
  - rewrite elem_of_list_singleton. split.
    + intros [= -> ->]. right. split; [done|]. right. split; [set_solver|done].
    + intros [[_ ?]|[-> [(l0 & ? & _)|[_ ->]]]]; [set_solver..|done].
  - simpl in Hnd. apply NoDup_cons in Hnd as [Hnin Hnd]. specialize (IH Hnd).
    assert (Hin : forall x y, (x, y) ∈ sets -> x ∈ sets.*1).
    { intros x y Hxy. apply elem_of_list_fmap. by exists (x, y). }
    destruct (decide (q0 = p)) as [->|Hne].
    + rewrite !elem_of_cons. split.
      * intros [[= -> ->]|Hql].
        -- right. split; [done|]. left. exists l0. split; [left; done|done].
        -- left. split; [intros ->; by apply Hnin, (Hin _ l)|by right].
      * intros [[Hqp [[= -> ->]|Hql]]|[-> [(l1 & Hl1 & ->)|[Hno _]]]]; [done|by right| |].
        -- apply elem_of_cons in Hl1 as [[= ->]|Hl1]; [by left|]. exfalso. by apply Hnin, (Hin _ l1).
        -- exfalso. set_solver.
    + rewrite elem_of_cons, IH. rewrite !elem_of_cons. split.
      * intros [[= -> ->]|[[Hqp Hql]|[-> [(l1 & Hl1 & ->)|[Hno ->]]]]].
        -- left. split; [done|by left].
        -- left. split; [done|by right].
        -- right. split; [done|]. left. exists l1. split; [by right|done].
        -- right. split; [done|]. right. split; [set_solver|done].
      * intros [[Hqp [[= -> ->]|Hql]]|[-> [(l1 & Hl1 & ->)|[Hno ->]]]].
        -- by left.
        -- right. left. done.
        -- right. right. split; [done|]. left. exists l1. apply elem_of_cons in Hl1 as [[= -> ->]|?]; done.
        -- right. right. split; [done|]. right. split; [set_solver|done].
Qed.

Lemma sets_add_keys (sets : list (K * list A)) p i :
  (sets_add sets p i).*1 = if decide (p ∈ sets.*1) then sets.*1 else sets.*1 ++ [p].
Proof.
  induction sets as [|[q l] sets IH].
  - cbn. rewrite decide_False by set_solver. done.
  - cbn [sets_add]. destruct (decide (q = p)) as [->|Hne].
    + rewrite !fmap_cons. rewrite decide_True by set_solver. done.
    + rewrite !fmap_cons, IH. cbn [fst]. destruct (decide (p ∈ sets.*1)).
      * rewrite decide_True by set_solver. done.
      * rewrite decide_False by set_solver. done.
Qed.

Lemma grouped_add done0 sets i : grouped done0 sets -> grouped (done0 ++ [i]) (sets_add sets (rho i) i).
Proof.
  intros [Hnd Hg]. split.
  - rewrite sets_add_keys. case_decide; [done|]. apply NoDup_app. split; [done|]. split; [set_solver|apply NoDup_singleton].
  - intros p l. rewrite sets_add_elem by done.
    rewrite filter_app.
    assert (Hfi : filter (fun x => rho x = p) [i] = if decide (rho i = p) then [i] else []).
    { rewrite filter_cons. case_decide; done. }
    rewrite Hfi. case_decide as Hp.
    + subst p. split.
      * intros [[? _]|[_ [(l0 & Hl0 & ->)|[Hno ->]]]]; [done| |].
        -- apply Hg in Hl0 as [-> _]. split; [done|]. intros Hnil%app_eq_nil. by destruct Hnil.
        -- split; [|done]. destruct (filter (fun x => rho x = rho i) done0) as [|y ys] eqn:Hf; [done|].
           exfalso. apply Hno. apply elem_of_list_fmap. exists (rho i, y :: ys). split; [done|]. apply Hg. by rewrite Hf.
      * intros [-> _]. right. split; [done|].
        destruct (filter (fun x => rho x = rho i) done0) as [|y ys] eqn:Hf.
        -- right. split; [|done]. intros ([q l0] & Hq & Hin)%elem_of_list_fmap. simpl in Hq. subst q.
           apply Hg in Hin as [-> Hne]. rewrite Hf in Hne. done.
        -- left. exists (y :: ys). split; [|done]. apply Hg. by rewrite Hf.
    + rewrite app_nil_r. rewrite Hg. split; [intros [[_ ?]|[? _]]; [done|congruence]|]. intros ?. left. split; [congruence|done].
Qed.
End Group.

(** ** The match graph and the union history *)
Lemma elem_of_two {A} (a x y : A) : a ∈ [x; y] <-> a = x \/ a = y.
Proof. set_solver. Qed.

Section Hist.
Variable matches : list ((string * string) * list (nat * nat)).

Definition match_history (ms : list ((string * string) * list (nat * nat))) : list (uf_op feature) :=
  concat (map (fun '((im1, im2), l) => map (fun '(f1, f2) => OpUnion [(im1, f1); (im2, f2)]) l) ms).

Lemma match_history_elem ms o : o ∈ match_history ms <->
  exists a b, matched ms a b /\ o = OpUnion [a; b].
Proof.
  unfold match_history, matched. rewrite elem_of_list_In, in_concat. split.
  - intros (ops & Hops & Ho). apply in_map_iff in Hops as ([[im1 im2] l] & <- & Hin).
    apply in_map_iff in Ho as ([f1 f2] & <- & Hf).
    exists (im1, f1), (im2, f2). split; [|done]. exists im1, im2, l, f1, f2. by rewrite !elem_of_list_In.
  - intros (a & b & (im1 & im2 & l & f1 & f2 & Hin & Hf & -> & ->) & ->).
    exists (map (fun '(f1, f2) => OpUnion [(im1, f1); (im2, f2)]) l). rewrite !elem_of_list_In in *. split.
    + apply in_map_iff. exists (im1, im2, l). done.
    + apply in_map_iff. exists (f1, f2). done.
Qed.

Lemma connected_trans a b c : connected matches a b -> connected matches b c -> connected matches a c.
Proof. induction 1; intros; [done|eapply conn_fwd; eauto|eapply conn_bwd; eauto]. Qed.
Lemma connected_sym a b : connected matches a b -> connected matches b a.
Proof.
  induction 1 as [|a b c Hm _ IH|a b c Hm _ IH]; [constructor| |].
  - eapply connected_trans; [done|]. eapply conn_bwd; [done|constructor].
  - eapply connected_trans; [done|]. eapply conn_fwd; [done|constructor].
Qed.
Lemma linked_connected a b : linked (match_history matches) a b <-> connected matches a b.
Proof.
  split.
  - induction 1 as [a|a b c (xs & Hin & Ha & Hb) _ IH]; [constructor|].
    apply match_history_elem in Hin as (x & y & Hm & [= ->]).
    eapply connected_trans; [|done].
    apply elem_of_two in Ha as [->| ->]; apply elem_of_two in Hb as [->| ->];
      [constructor|eapply conn_fwd; [done|constructor]|eapply conn_bwd; [done|constructor]|constructor].
  - induction 1 as [|a b c Hm _ IH|a b c Hm _ IH]; [constructor| |].
    + econstructor; [|done]. exists [a; b]. split; [apply match_history_elem; eauto|set_solver].
    + econstructor; [|done]. exists [b; a]. split; [apply match_history_elem; eauto|set_solver].
Qed.
Lemma mentioned_in_graph a : mentioned (match_history matches) a <-> in_graph matches a.
Proof.
  unfold mentioned, in_graph. split.
  - intros (o & Ho & Ha). apply match_history_elem in Ho as (x & y & Hm & ->). simpl in Ha.
    apply elem_of_two in Ha as [->| ->]; eauto.
  - intros (b & [Hm|Hm]).
    + exists (OpUnion [a; b]). split; [apply match_history_elem; eauto|set_solver].
    + exists (OpUnion [b; a]). split; [apply match_history_elem; eauto|set_solver].
Qed.
End Hist.

Section Proofs.
Context {F : Type}.
Variable finite : F -> bool.
Variable fmul fmax : F -> F -> F.
Variable gtk : feature -> feature -> bool.
Variable features : gmap string (list (F * F * F)).
Variable colors : gmap string (list (Z * Z * Z)).
Variable segmentations instances : gmap string (list Z).
Variable matches : list ((string * string) * list (nat * nat)).
Variable min_length : nat.
Variable depths : gmap string (list F).
Variable depth_is_radial : bool.
Variable sd : F.

Notation make_obs' := (make_obs finite fmul fmax features colors segmentations instances depths depth_is_radial sd).
Notation expected := (expected_obs finite fmul fmax features colors segmentations instances depths depth_is_radial sd).

Lemma unions_ok h u im1 im2 l : rep h u ->
  exists u', unions gtk u im1 im2 l = Ok u' /\
    rep (h ++ map (fun '(f1, f2) => OpUnion [(im1, f1); (im2, f2)]) l) u'.
Proof.
  revert h u. induction l as [|[f1 f2] l IH]; intros h u Hrep; cbn [unions map].
  - exists u. by rewrite app_nil_r.
  - destruct (rep_union gtk h u [(im1, f1); (im2, f2)] Hrep) as (u1 & Hu & Hrep1 & _); [done|].
    rewrite Hu. cbn [res_bind]. destruct (IH _ _ Hrep1) as (u' & Hu' & Hrep'). exists u'. split; [done|].
    by rewrite <- app_assoc in Hrep'.
Qed.
Lemma all_unions_ok h u ms : rep h u ->
  exists u', all_unions gtk u ms = Ok u' /\ rep (h ++ match_history ms) u'.
Proof.
  revert h u. induction ms as [|[[im1 im2] l] ms IH]; intros h u Hrep; cbn [all_unions].
  - exists u. by rewrite app_nil_r.
  - destruct (unions_ok h u im1 im2 l Hrep) as (u1 & Hu & Hrep1). rewrite Hu. cbn [res_bind].
    destruct (IH _ _ Hrep1) as (u' & Hu' & Hrep'). exists u'. split; [done|]. by rewrite <- app_assoc in Hrep'.
Qed.

Lemma group_sets_ok (rho : feature -> feature) u keys done0 sets : wf u ->
  (forall k, k ∈ keys -> hasroot u k (rho k)) -> grouped rho done0 sets ->
  exists sets', group_sets u keys sets = Ok sets' /\ grouped rho (done0 ++ keys) sets'.
Proof.
  revert u done0 sets. induction keys as [|i keys IH]; intros u done0 sets Hwf Hk Hg; cbn [group_sets].
  - exists sets. by rewrite app_nil_r.
  - assert (Hi : hasroot u i (rho i)) by (apply Hk; set_solver).
    destruct (hasroot_known u i _ Hwf Hi) as (Hin & _ & _).
    destruct (uf_find_known u i Hwf Hin) as (u1 & r & Hf & Hwf1 & Hr & Hkk & _ & Hs).
    rewrite Hf. cbn [res_bind]. rewrite (hasroot_det _ _ _ _ Hr Hi).
    destruct (IH u1 (done0 ++ [i]) (sets_add sets (rho i) i) Hwf1) as (sets' & Hs' & Hg').
    + intros k Hk'. apply Hs. apply Hk. set_solver.
    + by apply grouped_add.
    + exists sets'. split; [done|]. by rewrite <- app_assoc in Hg'.
Qed.

(** A root function for a represented structure. *)
Lemma root_fun h u : rep h u -> exists rho : feature -> feature,
  forall k, k ∈ uf_keys u -> hasroot u k (rho k).
Proof.
  intros Hrep. exists (fun k => match uf_find u k with Ok (_, r) => r | Err _ => k end).
  intros k Hk. destruct (uf_find_known u k (rep_wf _ _ Hrep) Hk) as (u1 & r & Hf & _ & Hr & _). by rewrite Hf.
Qed.

Lemma good_track_spec (t : list feature) : NoDup t ->
  (good_track min_length t = true <-> min_length <= length t /\ forall im f g, (im, f) ∈ t -> (im, g) ∈ t -> f = g).
Proof.
  intros Hnd. unfold good_track.
  assert (Hsz : length t.*1 = size (list_to_set t.*1 : gset string) <-> NoDup t.*1).
  { split.
    - generalize (t.*1) as l. clear. induction l as [|x l IH]; intros Hl; [constructor|].
      simpl in Hl. destruct (decide (x ∈ l)) as [Hin|Hnin].
      + assert (Heq : {[x]} ∪ list_to_set l =@{gset string} list_to_set l) by set_solver. rewrite Heq in Hl.
        assert (Hle : forall l : list string, size (list_to_set l : gset string) <= length l).
        { clear. induction l as [|x l IH]; [done|]. simpl.
          destruct (decide (x ∈ l)).
          - assert (Heq : {[x]} ∪ list_to_set l =@{gset string} list_to_set l) by set_solver. rewrite Heq. lia.
          - rewrite size_union by set_solver. rewrite size_singleton. lia. }
        specialize (Hle l). lia.
      + constructor; [done|]. apply IH. rewrite size_union in Hl by set_solver. rewrite size_singleton in Hl. lia.
    - intros Hn. by rewrite size_list_to_set. }
  assert (Hdist : NoDup t.*1 <-> forall im f g, (im, f) ∈ t -> (im, g) ∈ t -> f = g).
  { clear -Hnd. induction t as [|[im f] t IH].
    - split; [intros _ ? ? ? ?; set_solver|]. intros _. constructor.
    - apply NoDup_cons in Hnd as [Hnin Hnd]. specialize (IH Hnd). rewrite fmap_cons, NoDup_cons, IH. cbn [fst]. split.
      + intros [Hno Hd] im' f' g' Hf Hg.
        apply elem_of_cons in Hf as [Hf|Hf]; apply elem_of_cons in Hg as [Hg|Hg]; simplify_eq; try done.
        * exfalso. apply Hno, elem_of_list_fmap. eexists (_, g'). done.
        * exfalso. apply Hno, elem_of_list_fmap. eexists (_, f'). done.
        * by eapply Hd.
      + intros Hd. split.
        * intros ([im' g] & Heq & Hg)%elem_of_list_fmap. simpl in Heq. subst im'.
          assert (f = g) as -> by (eapply Hd; [left|right; done]). done.
        * intros im' f' g' Hf Hg. eapply Hd; right; done. }
  destruct (decide (length t < min_length)); [split; [done|intros [? _]; lia]|].
  destruct (decide (length t.*1 ≠ size (list_to_set t.*1 : gset string))) as [Hne|Heq].
  - split; [done|]. intros [_ Hd]. exfalso. apply Hne, Hsz, Hdist, Hd.
  - split; [|done]. intros _. split; [lia|]. apply Hdist, Hsz. destruct (decide (length t.*1 = size (list_to_set t.*1 : gset string))); [done|].
    exfalso. by apply Heq.
Qed.

Lemma make_obs_spec image fid :
  match make_obs' image fid with
  | Ok None => features !! image = None
  | Ok (Some o) => expected image fid o /\ forall o', expected image fid o' -> o' = o
  | Err _ => is_Some (features !! image) /\ forall o', ~ expected image fid o'
  end.
Proof.
  unfold make_obs, expected_obs, label_ok, depth_ok.
  destruct (features !! image) as [fs|]; [|done]. cbn [res_bind].
  destruct (fs !! fid) as [[[x y] s]|] eqn:Hfs; cbn [of_option res_bind];
    [|split; [eauto|]; intros o' ((? & [= <-] & ?) & _); congruence].
  destruct (colors !! image) as [cs|] eqn:Hc; cbn [of_option res_bind];
    [|split; [eauto|]; intros o' (_ & (? & ? & ?) & _); congruence].
  destruct (cs !! fid) as [[[r g] b]|] eqn:Hcs; cbn [of_option res_bind];
    [|split; [eauto|]; intros o' (_ & (? & [= <-] & ?) & _); congruence].
  destruct (segmentations !! image) as [ss|] eqn:Hs;
    [destruct (ss !! fid) as [sv|] eqn:Hss|]; cbn [of_option res_bind];
    [|split; [eauto|]; intros o' (_ & _ & ? & _); congruence|];
  (destruct (instances !! image) as [is0|] eqn:Hi;
    [destruct (is0 !! fid) as [iv|] eqn:Hii|]; cbn [of_option res_bind];
    [|split; [eauto|]; intros o' (_ & _ & _ & ? & _); congruence|]);
  (destruct (depths !! image) as [ds|] eqn:Hd;
    [destruct (ds !! fid) as [dv|] eqn:Hdd|]; cbn [of_option res_bind];
    [|split; [eauto|]; intros o' (_ & _ & _ & _ & (? & ? & _) & _); congruence|]);
  (split; [split_and!; simpl; eauto|];
   intros [ox oy os or og ob of osg oi od] ((fs' & [= <-] & Hf') & (cs' & [= <-] & Hc') & Hsg' & Hi' & Hd' & Hft'); simpl in *;
   try (destruct Hd' as (d' & Hd1 & Hd2)); simplify_eq; congruence).
Qed.

(** ** Adding the tracks *)
Lemma add_track_spec m tid track m' : consistent m -> NoDup track.*1 ->
  add_track finite fmul fmax features colors segmentations instances depths depth_is_radial sd m tid track = Ok m' ->
  consistent m' /\
  forall s t o, observed m' s t = Some o <->
    (t = tid /\ exists f, (s, f) ∈ track /\ expected s f o) \/
    (~ (t = tid /\ s ∈ track.*1 /\ is_Some (features !! s)) /\ observed m s t = Some o).
Proof.
  revert m. induction track as [|[image fid] track IH]; intros m Hc Hnd Hadd; cbn [add_track] in Hadd.
  - simplify_eq. split; [done|]. intros s t o. split.
    + intros Ho. right. split; [|done]. set_solver.
    + intros [(_ & f & Hf & _)|[_ Ho]]; [set_solver|done].
  - rewrite fmap_cons in Hnd. cbn [fst] in Hnd. apply NoDup_cons in Hnd as [Hnin Hnd].
    pose proof (make_obs_spec image fid) as Hmk.
    destruct (make_obs' image fid) as [[obs|]|e]; cbn [res_bind] in Hadd; [| |done].
    + destruct Hmk as [Hexp Huniq]. destruct (IH _ (consistent_add _ image tid obs Hc) Hnd Hadd) as [Hc' Ho'].
      split; [done|]. intros s t o. rewrite Ho', observed_add. rewrite fmap_cons. cbn [fst].
      assert (Hfeat : is_Some (features !! image)).
      { destruct Hexp as [(fs & Hfs & _) _]. eauto. }
      setoid_rewrite elem_of_cons. case_bool_decide as Heq.
      * destruct Heq as [-> ->]. split.
        -- intros [(_ & f & Hf & He)|(_ & [= ->])].
           ++ exfalso. apply Hnin, elem_of_list_fmap. by exists (s, f).
           ++ left. split; [done|]. exists fid. split; [by left|done].
        -- intros [(_ & f & [[= ->]|Hf] & He)|(Hno & _)].
           ++ right. split; [by intros (_ & Hin & _)|]. by rewrite (Huniq _ He).
           ++ exfalso. apply Hnin, elem_of_list_fmap. by exists (s, f).
           ++ exfalso. apply Hno. auto.
      * split.
        -- intros [(-> & f & Hf & He)|(Hno & Ho)]; [left; split; [done|]; exists f; auto|].
           right. split; [|done]. intros (-> & [->|Hin] & Hs); [by apply Heq|by apply Hno].
        -- intros [(-> & f & [[= -> ->]|Hf] & He)|(Hno & Ho)]; [by destruct Heq|left; split; [done|]; exists f; auto|].
           right. split; [|done]. intros (-> & Hin & Hs). apply Hno. auto.
    + destruct (IH _ Hc Hnd Hadd) as [Hc' Ho']. split; [done|]. intros s t o. rewrite Ho', fmap_cons. cbn [fst].
      setoid_rewrite elem_of_cons. split.
      * intros [(-> & f & Hf & He)|(Hno & Ho)]; [left; split; [done|]; exists f; auto|].
        right. split; [|done]. intros (-> & [->|Hin] & Hs); [rewrite Hmk in Hs; by destruct Hs|by apply Hno].
      * intros [(-> & f & [[= -> ->]|Hf] & He)|(Hno & Ho)].
        -- exfalso. destruct He as [(fs & Hfs & _) _]. congruence.
        -- left. split; [done|]. exists f. auto.
        -- right. split; [|done]. intros (-> & Hin & Hs). apply Hno. auto.
Qed.

Lemma add_tracks_spec m n tracks m' : consistent m ->
  (forall t, t ∈ tracks -> NoDup t.*1) ->
  (forall s t o, observed m s t = Some o -> exists k, k < n /\ t = pretty k) ->
  add_tracks finite fmul fmax features colors segmentations instances depths depth_is_radial sd m n tracks = Ok m' ->
  consistent m' /\
  forall s t o, observed m' s t = Some o <->
    observed m s t = Some o \/
    (exists k track f, tracks !! k = Some track /\ t = pretty (n + k) /\ (s, f) ∈ track /\ expected s f o).
Proof.
  revert m n. induction tracks as [|track tracks IH]; intros m n Hc Hnd Hid Hadd; cbn [add_tracks] in Hadd.
  - simplify_eq. split; [done|]. intros s t o. split; [by left|]. intros [?|(k & tr & f & Hk & _)]; [done|]. done.
  - destruct (add_track _ _ _ _ _ _ _ _ _ _ m (pretty n) track) as [m1|e] eqn:Hadd1; cbn [res_bind] in Hadd; [|done].
    destruct (add_track_spec m (pretty n) track m1 Hc (Hnd _ (elem_of_list_here _ _)) Hadd1) as [Hc1 Ho1].
    assert (Hid0 : forall s o, observed m s (pretty n) = Some o -> False).
    { intros s o Ho. destruct (Hid _ _ _ Ho) as (k & Hk & Heq). apply (inj pretty) in Heq. lia. }
    assert (Ho1' : forall s t o, observed m1 s t = Some o <->
      observed m s t = Some o \/ (t = pretty n /\ exists f, (s, f) ∈ track /\ expected s f o)).
    { intros s t o. rewrite Ho1. split.
      - intros [?|[_ ?]]; auto.
      - intros [Ho|?]; [|auto]. right. split; [|done]. intros (-> & _). by eapply Hid0. }
    destruct (IH m1 (S n) Hc1) as [Hc' Ho'].
    + intros t Ht. apply Hnd. by right.
    + intros s t o. rewrite Ho1'. intros [Ho|(-> & _)].
      * destruct (Hid _ _ _ Ho) as (k & Hk & ->). exists k. split; [lia|done].
      * exists n. split; [lia|done].
    + done.
    + split; [done|]. intros s t o. rewrite Ho', Ho1'. split.
      * intros [[Ho|(-> & f & Hf & He)]|(k & tr & f & Hk & -> & Hf & He)].
        -- by left.
        -- right. exists 0, track, f. split_and!; try done. by rewrite Nat.add_0_r.
        -- right. exists (S k), tr, f. split_and!; try done. by rewrite Nat.add_succ_r.
      * intros [Ho|([|k] & tr & f & Hk & -> & Hf & He)].
        -- left. by left.
        -- simpl in Hk. simplify_eq. left. right. rewrite Nat.add_0_r. split; [done|]. by exists f.
        -- right. exists k, tr, f. split_and!; try done. by rewrite Nat.add_succ_r.
Qed.

Notation create' := (create_tracks_manager finite fmul fmax gtk features colors segmentations instances matches min_length depths depth_is_radial sd).

(** The kept components, in some order: pairwise distinct components, exactly the clean ones. *)
Lemma tracks_ok : exists tracks,
  create' = add_tracks finite fmul fmax features colors segmentations instances depths depth_is_radial sd tm_empty 0 tracks /\
  (forall i j t t' a, tracks !! i = Some t -> tracks !! j = Some t' -> a ∈ t -> a ∈ t' -> i = j) /\
  (forall t, t ∈ tracks -> NoDup t /\ NoDup t.*1) /\
  (forall t a, t ∈ tracks -> a ∈ t -> in_graph matches a /\ kept matches min_length a /\ forall x, x ∈ t <-> connected matches a x) /\
  (forall a, in_graph matches a -> kept matches min_length a -> exists t, t ∈ tracks /\ a ∈ t).
Proof.
  unfold create_tracks_manager.
  destruct (all_unions_ok [] uf_empty matches rep_empty) as (u & Hu & Hrep). rewrite Hu. cbn [res_bind]. simpl in Hrep.
  destruct (root_fun _ _ Hrep) as [rho Hrho].
  pose proof (rep_wf _ _ Hrep) as Hwf.
  destruct (group_sets_ok rho u (uf_keys u) [] [] Hwf Hrho) as (sets & Hsets & Hnd & Hg).
  { split; [constructor|]. intros p l. split; [set_solver|]. intros [-> ?]. done. }
  rewrite Hsets. cbn [res_bind]. simpl in Hg.
  exists (filter (fun t => good_track min_length t = true) sets.*2). split; [done|].
  assert (Hset : forall t, t ∈ sets.*2 <-> exists p, t = filter (fun x => rho x = p) (uf_keys u) /\ t <> []).
  { intros t. rewrite elem_of_list_fmap. split.
    - intros ([p l] & -> & Hin). exists p. by apply Hg.
    - intros (p & Ht & Hne). exists (p, t). split; [done|]. by apply Hg. }
  assert (Hconn : forall a b, a ∈ uf_keys u -> b ∈ uf_keys u -> (rho a = rho b <-> connected matches a b)).
  { intros a b Ha Hb. rewrite (rep_linked _ _ Hrep a b _ _ (Hrho _ Ha) (Hrho _ Hb)). apply linked_connected. }
  assert (Hkeys : forall a, a ∈ uf_keys u <-> in_graph matches a).
  { intros a. rewrite (rep_keys _ _ Hrep). apply mentioned_in_graph. }
  assert (Hin_conn : forall a b, a ∈ uf_keys u -> connected matches a b -> b ∈ uf_keys u).
  { intros a b Ha Hab. apply linked_connected in Hab.
    destruct (linked_mentioned _ _ _ Hab) as [->|[_ Hm]]; [done|]. by apply (rep_keys _ _ Hrep). }
  assert (Hcomp : forall a, a ∈ uf_keys u -> forall x, x ∈ filter (fun x => rho x = rho a) (uf_keys u) <-> connected matches a x).
  { intros a Ha x. rewrite elem_of_list_filter. split.
    - intros [Heq Hx]. by apply Hconn.
    - intros Hx. pose proof (Hin_conn _ _ Ha Hx) as Hxk. split; [|done]. symmetry. by apply Hconn. }
  assert (Hclass : forall t a, t ∈ sets.*2 -> a ∈ t -> a ∈ uf_keys u /\ t = filter (fun x => rho x = rho a) (uf_keys u)).
  { intros t a Ht Ha. apply Hset in Ht as (p & -> & _). apply elem_of_list_filter in Ha as [<- Ha]. done. }
  assert (Hndf : forall p, NoDup (filter (fun x => rho x = p) (uf_keys u))).
  { intros p. apply NoDup_filter, (wf_nodup _ Hwf). }
  split_and!.
  - intros i0 j0 t1 t2 a0 Hi0 Hj0 Ha1 Ha2.
    assert (Ht1 : t1 ∈ filter (fun t => good_track min_length t = true) sets.*2) by (by eapply elem_of_list_lookup_2).
    assert (Ht2 : t2 ∈ filter (fun t => good_track min_length t = true) sets.*2) by (by eapply elem_of_list_lookup_2).
    apply elem_of_list_filter in Ht1 as [_ Ht1]. apply elem_of_list_filter in Ht2 as [_ Ht2].
    destruct (Hclass _ _ Ht1 Ha1) as [_ He1]. destruct (Hclass _ _ Ht2 Ha2) as [_ He2].
    rewrite <- He1 in He2. subst t2.
    eapply NoDup_lookup; [|exact Hi0|exact Hj0].
    apply NoDup_filter. apply NoDup_alt. intros i j t Hi Hj.
    rewrite list_lookup_fmap in Hi, Hj.
    destruct (sets !! i) as [[p l]|] eqn:Ei; simpl in Hi; [|done]. destruct (sets !! j) as [[q l']|] eqn:Ej; simpl in Hj; [|done].
    simplify_eq.
    assert (Hp : (p, t) ∈ sets) by (by eapply elem_of_list_lookup_2).
    assert (Hq : (q, t) ∈ sets) by (by eapply elem_of_list_lookup_2).
    assert (p = q) as <-.
    { apply Hg in Hp as [Hp Hne]. apply Hg in Hq as [Hq _]. destruct t as [|x t]; [done|].
      assert (Hx1 : x ∈ filter (fun x => rho x = p) (uf_keys u)) by (rewrite <- Hp; left).
      assert (Hx2 : x ∈ filter (fun x => rho x = q) (uf_keys u)) by (rewrite <- Hq; left).
      apply elem_of_list_filter in Hx1 as [<- _]. apply elem_of_list_filter in Hx2 as [<- _]. done. }
    eapply NoDup_lookup; [exact Hnd| |]; rewrite list_lookup_fmap; [rewrite Ei|rewrite Ej]; done.
  - intros t (Hgood & Ht)%elem_of_list_filter. apply Hset in Ht as (p & -> & Hne).
    split; [done|]. apply good_track_spec in Hgood as [_ Hd]; [|done].
    specialize (Hndf p). clear -Hndf Hd. induction (filter (fun x => rho x = p) (uf_keys u)) as [|[im f] t IH]; [constructor|].
    apply NoDup_cons in Hndf as [Hnin Hnd]. rewrite fmap_cons. constructor.
    + intros ([im' g] & Heq & Hg)%elem_of_list_fmap. simpl in Heq. subst im'.
      assert (f = g) as -> by (eapply Hd; [left|right; done]). done.
    + apply IH; try done. intros im' f' g' Hf Hg; eapply Hd; right; done.
  - intros t a (Hgood & Ht)%elem_of_list_filter Ha. destruct (Hclass _ _ Ht Ha) as [Hak Heq]. subst t.
    split; [by apply Hkeys|]. split; [|by apply Hcomp].
    apply good_track_spec in Hgood as [Hlen Hd]; [|done].
    exists (filter (fun x => rho x = rho a) (uf_keys u)). split_and!; try done. by apply Hcomp.
  - intros a Ha%Hkeys (l & Hndl & Hl & Hlen & Hd).
    exists (filter (fun x => rho x = rho a) (uf_keys u)). split; [|by apply elem_of_list_filter].
    assert (Hperm : filter (fun x => rho x = rho a) (uf_keys u) ≡ₚ l).
    { apply NoDup_Permutation; [done|done|]. intros x. by rewrite Hl, Hcomp. }
    apply elem_of_list_filter. split.
    + apply good_track_spec; [done|]. split; [by rewrite Hperm|]. intros im f g. rewrite Hperm. apply Hd.
    + apply Hset. exists (rho a). split; [done|]. intros Hnil.
      assert (Hin : a ∈ filter (fun x => rho x = rho a) (uf_keys u)) by (by apply elem_of_list_filter).
      rewrite Hnil in Hin. set_solver.
Qed.

Lemma create_spec m : create' = Ok m ->
  consistent m /\
  exists id : feature -> track_id,
    (forall a b, in_graph matches a -> kept matches min_length a -> in_graph matches b -> kept matches min_length b ->
       (id a = id b <-> connected matches a b)) /\
    (forall s t o, observed m s t = Some o <->
       exists f, in_graph matches (s, f) /\ kept matches min_length (s, f) /\ id (s, f) = t /\ expected s f o).
Proof.
  intros Hcreate. destruct tracks_ok as (tracks & Heq & Hnd & Hndt & Hcomp & Hcov). rewrite Heq in Hcreate.
  destruct (add_tracks_spec tm_empty 0 tracks m consistent_empty) as [Hc Hobs]; [intros t Ht; by apply Hndt|done|done|].
  split; [done|].
  exists (fun a => pretty (default 0 (fst <$> list_find (fun t => a ∈ t) tracks))).
  assert (Hid : forall a k t, tracks !! k = Some t -> a ∈ t -> list_find (fun t => a ∈ t) tracks = Some (k, t)).
  { intros a k t Hk Ha. destruct (list_find (fun t => a ∈ t) tracks) as [[k' t']|] eqn:Hf.
    - apply list_find_Some in Hf as (Hk' & Ha' & _).
      assert (k = k') as <- by eauto. congruence.
    - exfalso. apply list_find_None in Hf. rewrite Forall_forall in Hf. eapply Hf; [by eapply elem_of_list_lookup_2|done]. }
  split.
  - intros a b Ha Hka Hb Hkb. destruct (Hcov a Ha Hka) as (ta & Hta & Hata). destruct (Hcov b Hb Hkb) as (tb & Htb & Hbtb).
    apply elem_of_list_lookup in Hta as [i Hi]. apply elem_of_list_lookup in Htb as [j Hj].
    rewrite (Hid _ _ _ Hi Hata), (Hid _ _ _ Hj Hbtb). cbn.
    destruct (Hcomp ta a) as (_ & _ & Hca); [by eapply elem_of_list_lookup_2|done|]. split.
    + intros Heqid%(inj pretty). subst j. apply Hca. congruence.
    + intros Hab%Hca. f_equal. eauto.
  - intros s t o. rewrite Hobs, observed_empty. split.
    + intros [?|(k & track & f & Hk & -> & Hf & He)]; [done|]. exists f.
      destruct (Hcomp track (s, f)) as (Hg & Hkp & _); [by eapply elem_of_list_lookup_2|done|].
      split_and!; try done. by rewrite (Hid _ _ _ Hk Hf).
    + intros (f & Hg & Hkp & <- & He). right. destruct (Hcov _ Hg Hkp) as (track & Ht & Hf).
      apply elem_of_list_lookup in Ht as [k Hk]. exists k, track, f. split_and!; try done. by rewrite (Hid _ _ _ Hk Hf).
Qed.

Lemma add_track_total m tid track :
  (forall s f, (s, f) ∈ track -> is_Some (features !! s) -> exists o, expected s f o) ->
  exists m', add_track finite fmul fmax features colors segmentations instances depths depth_is_radial sd m tid track = Ok m'.
Proof.
  revert m. induction track as [|[image fid] track IH]; intros m Hall; cbn [add_track]; [eauto|].
  pose proof (make_obs_spec image fid) as Hmk.
  destruct (make_obs' image fid) as [[obs|]|e]; cbn [res_bind].
  - apply IH. intros s f Hf. apply Hall. by right.
  - apply IH. intros s f Hf. apply Hall. by right.
  - exfalso. destruct Hmk as [Hs Hno]. destruct (Hall image fid) as [o Ho]; [left|done|]. by eapply Hno.
Qed.
Lemma add_tracks_total m n tracks :
  (forall t s f, t ∈ tracks -> (s, f) ∈ t -> is_Some (features !! s) -> exists o, expected s f o) ->
  exists m', add_tracks finite fmul fmax features colors segmentations instances depths depth_is_radial sd m n tracks = Ok m'.
Proof.
  revert m n. induction tracks as [|track tracks IH]; intros m n Hall; cbn [add_tracks]; [eauto|].
  destruct (add_track_total m (pretty n) track) as [m1 Hm1].
  { intros s f. apply Hall. left. }
  rewrite Hm1. cbn [res_bind]. apply IH. intros t s f Ht. apply Hall. by right.
Qed.
Lemma create_total :
  (forall s f, in_graph matches (s, f) -> kept matches min_length (s, f) -> is_Some (features !! s) -> exists o, expected s f o) ->
  exists m, create' = Ok m.
Proof.
  intros Hall. destruct tracks_ok as (tracks & Heq & _ & _ & Hcomp & _). rewrite Heq.
  apply add_tracks_total. intros t s f Ht Hf. destruct (Hcomp t (s, f) Ht Hf) as (Hg & Hk & _). by apply Hall.
Qed.
End Proofs.
