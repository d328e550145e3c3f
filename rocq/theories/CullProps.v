(** C53: the culling of points. *)
From stdpp Require Import prelude gmap strings sorting.
From Coq Require Import Reals Lra.
From Verif Require Import Base Lin TriangModel TriangSpec MapModel MapSpec MapProofs MapProps BundleModel CullModel CullSpec CullProofs.
Local Open Scope R_scope.

(** The threshold asked by the configuration: fixed, or a multiple of the norm of the median error to which 1.486 times the median
    distance is added. *)
Definition threshold_of (c : filtering) (errors : string -> string -> option (R * R)) (t : R) : Prop :=
  match c with
  | FIXED t' => t = t'
  | OTHER => t = 1
  | AUTO ratio => exists es mx my d, all_errors errors es /\ is_median (fst <$> es) mx /\ is_median (snd <$> es) my /\
      is_median ((fun e => sqrt ((e.1 - mx) ^ 2 + (e.2 - my) ^ 2)) <$> es) d /\
      t = ratio * sqrt ((mx + 1.486 * d) ^ 2 + (my + 1.486 * d) ^ 2)
  end.

Section Props.
Context {C B P D X O Rf : Type}.
Variable feature_of : O -> Z.
Variable bias0 : B. Variable pose0 : P. Variable data0 : D. Variable mesh0 : X.
Variable pcompose : P -> P -> P. Variable pinverse : P -> P.
Variable enumL : gmap string (landmark vec) -> list (string * landmark vec).
Variable enumF : gmap string (bool * Z) -> list (string * (bool * Z)).
Variable enumO : gmap string O -> list (string * O).
Hypothesis HL : enumerates enumL. Hypothesis HF : enumerates enumF. Hypothesis HO : enumerates enumO.
Notation map := (@map C B P vec D X O Rf). Notation scored := (@scored C B P D X O Rf).
Notation step := (map_step feature_of bias0 pose0 data0 mesh0 pcompose pinverse enumL enumF enumO).
Notation reach := (reachable feature_of step).
Variable enumE : gmap string (R * R) -> list (string * (R * R)).
Variable enumT : gset string -> list string.
Hypothesis HE : enumerates enumE. Hypothesis HT : forall s, enumT s ≡ₚ elements s.
Notation remove_outliers := (remove_outliers enumL enumF enumE enumT).

(** the list of all errors *)
Lemma errors_listed (s : scored) es : recorded (err s) (c_map s) -> all_errors (err s) es ->
  mjoin ((fun l => snd <$> enumE (errors_of s l)) <$> (fst <$> enumL (m_landmarks (c_map s)))) ≡ₚ es.
Proof using HE HL.
  intros Hrec (ks & [N1 H1] & Hes).
  set (keys := mjoin ((fun l => (fun se : string * (R * R) => (l, se.1)) <$> enumE (errors_of s l)) <$> (fst <$> enumL (m_landmarks (c_map s))))).
  set (val := fun k : string * string => default (0, 0) (err s k.1 k.2)).
  assert (Hent : forall l y e, (y, e) ∈ enumE (errors_of s l) <-> err s l y = Some e).
  { intros l y e. rewrite (HE (errors_of s l)). apply elem_of_map_to_list. }
  assert (E1 : mjoin ((fun l => snd <$> enumE (errors_of s l)) <$> (fst <$> enumL (m_landmarks (c_map s)))) = val <$> keys).
  { unfold keys. generalize (fst <$> enumL (m_landmarks (c_map s))). clear - Hent. induction l as [|x l IH]; [done|]. rewrite !fmap_cons. match goal with |- mjoin (?a :: ?b) = _ <$> mjoin (?c :: ?d) => change (a ++ mjoin b = val <$> (c ++ mjoin d)) end. rewrite fmap_app, IH. f_equal.
    rewrite <- list_fmap_compose. apply list_fmap_ext. intros i [y e] Hi. apply elem_of_list_lookup_2, Hent in Hi. unfold val, compose. cbn [fst snd]. by rewrite Hi. }
  assert (E2 : es = val <$> ks).
  { clear - Hes. induction Hes as [|k e ks es H _ IH]; [done|]. rewrite fmap_cons, <- IH. f_equal. unfold val. by rewrite H. }
  rewrite E1, E2. apply fmap_Permutation. apply NoDup_Permutation; [|done|].
  - unfold keys. pose proof (ids_nodup enumL HL (c_map s)) as Hn. revert Hn. generalize (fst <$> enumL (m_landmarks (c_map s))). clear - HE.
    induction l as [|x l IH]; intros Hn; [constructor|]. apply NoDup_cons in Hn as [Hx Hn]. cbn. apply NoDup_app. split_and!; [| |by apply IH].
    + apply (NoDup_fmap_1 snd). rewrite <- list_fmap_compose. change (NoDup (fst <$> enumE (errors_of s x))). rewrite (HE (errors_of s x)). apply NoDup_fst_map_to_list.
    + intros [a b] Ha Hb. apply elem_of_list_fmap in Ha as (? & [= -> ->] & _). apply elem_of_list_join in Hb as (L & Hb & HLin). apply elem_of_list_fmap in HLin as (z & -> & Hz).
      apply elem_of_list_fmap in Hb as (? & [= -> _] & _). done.
  - intros [l y]. rewrite H1. unfold keys. rewrite elem_of_list_join. cbn. split.
    + intros (L & Hin & HLin). apply elem_of_list_fmap in HLin as (z & -> & Hz). apply elem_of_list_fmap in Hin as ([? e] & [= -> ->] & Hin). apply Hent in Hin. by exists e.
    + intros [e He]. exists ((fun se : string * (R * R) => (l, se.1)) <$> enumE (errors_of s l)). split; [apply elem_of_list_fmap; exists (y, e); split; [reflexivity|by apply Hent]|]. apply elem_of_list_fmap. exists l. split; [done|].
      apply ids_in; [done|]. destruct (Hrec _ _ _ He) as (f & x & Hx & _). by exists x.
Qed.
Lemma threshold_ok (s : scored) c t : recorded (err s) (c_map s) -> threshold_of c (err s) t ->
  get_actual_threshold c (mjoin ((fun l => snd <$> enumE (errors_of s l)) <$> (fst <$> enumL (m_landmarks (c_map s))))) = Ok t.
Proof using HE HL.
  intros Hrec H. destruct c as [t'|ratio|]; cbn [threshold_of] in H; [by subst| |by subst]. destruct H as (es & mx & my & d & Hes & Hx & Hy & Hd & ->).
  pose proof (errors_listed s es Hrec Hes) as Hp. cbn [get_actual_threshold]. unfold get_error_distribution.
  set (l := mjoin _) in *. rewrite (median_perm (fst <$> l) (fst <$> es)) by now rewrite Hp. rewrite (median_spec _ _ Hx).
  rewrite (median_perm (snd <$> l) (snd <$> es)) by now rewrite Hp. rewrite (median_spec _ _ Hy).
  rewrite (median_perm _ ((fun e => sqrt ((e.1 - mx) ^ 2 + (e.2 - my) ^ 2)) <$> es)).
  - rewrite (median_spec _ _ Hd). cbn [res_bind]. f_equal. f_equal. f_equal. ring.
  - rewrite Hp. erewrite list_fmap_ext; [reflexivity|]. intros i x _. cbn beta. f_equal. ring.
Qed.

(** ** remove_outliers *)
(** With the threshold of the configuration: exactly the observations of the given points whose error is above it are removed, with
    their errors, then the points which lost an observation and are left with fewer than two; the number of outliers is returned, and
    the rest of the map is as it was. *)
Theorem C53_remove_outliers : forall (s : scored) c t points, reach (c_map s) -> recorded (err s) (c_map s) -> threshold_of c (err s) t ->
  (forall ps, points = Some ps -> NoDup ps /\ forall p, p ∈ ps -> exists_in (c_map s) p) ->
  let out lm x := (forall ps, points = Some ps -> lm ∈ ps) /\ outlier (err s) t lm x in
  let left lm k := (exists o, shot_sees (c_map s) k lm o) /\ ~ (k.1 = false /\ out lm k.2) in
  let gone lm := (exists x, out lm x) /\ ~ exists k1 k2, k1 <> k2 /\ left lm k1 /\ left lm k2 in
  exists n s', remove_outliers c points s = Ok (n, s') /\ number (fun k => out k.1 k.2) n /\
    reach (c_map s') /\ recorded (err s') (c_map s') /\ same_frame (c_map s) (c_map s') /\
    (forall lm, exists_in (c_map s') lm <-> exists_in (c_map s) lm /\ ~ gone lm) /\
    (forall lm, exists_in (c_map s') lm -> (fun x => (lm_pos x, lm_color x)) <$> m_landmarks (c_map s') !! lm = (fun x => (lm_pos x, lm_color x)) <$> m_landmarks (c_map s) !! lm) /\
    (forall k lm o, shot_sees (c_map s') k lm o <-> shot_sees (c_map s) k lm o /\ ~ (k.1 = false /\ out lm k.2) /\ ~ gone lm) /\
    (forall lm x e, err s' lm x = Some e <-> err s lm x = Some e /\ ~ out lm x /\ ~ gone lm).
Proof using All.
  intros s c t points Hm Hrec Ht Hps out left gone. set (ps := default (fst <$> enumL (m_landmarks (c_map s))) points).
  assert (Hps' : NoDup ps /\ forall p, p ∈ ps -> exists_in (c_map s) p).
  { unfold ps. destruct points as [q|]; cbn; [by apply Hps|]. split; [by apply ids_nodup|]. intros p. by apply ids_in. }
  destruct Hps' as [Hnd Hin].
  assert (Hout : forall lm x, out lm x <-> lm ∈ ps /\ outlier (err s) t lm x).
  { intros lm x. unfold out, ps. destruct points as [q|]; cbn; split; intros [H1 H2]; (split; [|done]).
    - by apply H1.
    - by intros ? [= <-].
    - destruct H2 as (e & He & _). destruct (Hrec _ _ _ He) as (f & l & Hl & _). apply ids_in; [done|]. by exists l.
    - done. }
  assert (Hg : good feature_of bias0 pose0 data0 mesh0 pcompose pinverse enumL enumF enumO s) by done.
  destruct (outliers_ok feature_of bias0 pose0 data0 mesh0 pcompose pinverse enumL enumF enumO HL HF HO enumE enumT HE HT t s ps Hg Hnd Hin) as (outs & Eo & [Ho1 Ho2]).
  assert (Ho : forall lm x, (lm, x) ∈ outs <-> out lm x) by (intros lm x; rewrite Ho2, Hout; done).
  destruct (drop_outliers_ok feature_of bias0 pose0 data0 mesh0 pcompose pinverse enumL enumF enumO HL HF HO enumE enumT HE HT outs s Hg Ho1) as (s1 & E1 & G1 & F1 & S1 & L1 & R1).
  { intros lm x H. apply Ho2 in H as [_ (e & He & _)]. by exists e. }
  set (tracks := enumT (list_to_set (fst <$> outs))).
  destruct (drop_unseen_ok feature_of bias0 pose0 data0 mesh0 pcompose pinverse enumL enumF enumO HL HF HO enumE enumT HE HT tracks s1 G1) as (s' & E' & G' & [F' W1 W2 W3] & R').
  assert (Htr : forall lm, lm ∈ tracks <-> exists x, out lm x).
  { intros lm. unfold tracks. rewrite (HT _), elem_of_elements, elem_of_list_to_set, elem_of_list_fmap. split.
    - intros ([a b] & -> & H). exists b. by apply Ho.
    - intros [x Hx]. exists (lm, x). split; [done|by apply Ho]. }
  assert (Hex1 : forall lm, exists_in (c_map s1) lm <-> exists_in (c_map s) lm).
  { intros lm. specialize (L1 lm). unfold exists_in. destruct (m_landmarks (c_map s1) !! lm), (m_landmarks (c_map s) !! lm); try done; split; intros [? ?]; done. }
  assert (Hfew : forall lm x, m_landmarks (c_map s1) !! lm = Some x -> (size (lm_obs x) < 2)%nat <-> ~ exists k1 k2, k1 <> k2 /\ left lm k1 /\ left lm k2).
  { intros lm x Hx.
    assert (Hleft : forall k, left lm k <-> exists f, lm_obs x !! k.2 = Some (k.1, f)).
    { intros k. unfold left. rewrite <- Ho. split.
      - intros [[o Hso] Hno]. assert (shot_sees (c_map s1) k lm o) as H by (apply S1; done). 
        destruct (proj2 (lists_symmetric feature_of bias0 pose0 data0 mesh0 pcompose pinverse enumL enumF enumO HL HF HO enumE enumT HE HT _ (proj1 G1) k lm (feature_of o))) as (x' & Hx' & Hf); [eauto|].
        rewrite Hx in Hx'. injection Hx' as <-. eauto.
      - intros [f Hf]. destruct (proj1 (lists_symmetric feature_of bias0 pose0 data0 mesh0 pcompose pinverse enumL enumF enumO HL HF HO enumE enumT HE HT _ (proj1 G1) k lm f)) as (o & Hso & _); [by exists x|].
        apply S1 in Hso as [Hno Hso]. split; [eauto|done]. }
    split.
    - intros Hsz (k1 & k2 & Hne & H1 & H2). apply Hleft in H1 as [f1 H1]. apply Hleft in H2 as [f2 H2].
      assert (k1.2 <> k2.2) as Hne2. { intros E. rewrite E in H1. rewrite H2 in H1. injection H1 as E1' _. apply Hne. destruct k1, k2. cbn in *. by subst. }
      assert (2 <= size (lm_obs x))%nat; [|lia].
      rewrite <- (insert_delete _ _ _ H1). rewrite map_size_insert_None by apply lookup_delete.
      assert (delete k1.2 (lm_obs x) !! k2.2 = Some (k2.1, f2)) as H3 by (rewrite lookup_delete_ne; done).
      rewrite <- (insert_delete _ _ _ H3). rewrite map_size_insert_None by apply lookup_delete. lia.
    - intros Hno. destruct (decide (size (lm_obs x) < 2)%nat) as [|Hge]; [done|]. exfalso. apply Hno.
      destruct (map_to_list (lm_obs x)) as [|[a [b f]] [|[a' [b' f']] rest]] eqn:E.
      { unfold size, map_size in Hge. rewrite E in Hge. cbn in Hge. lia. }
      { unfold size, map_size in Hge. rewrite E in Hge. cbn in Hge. lia. }
      assert (lm_obs x !! a = Some (b, f)) as Ha by (apply elem_of_map_to_list; rewrite E; by left).
      assert (lm_obs x !! a' = Some (b', f')) as Ha' by (apply elem_of_map_to_list; rewrite E; right; by left).
      pose proof (NoDup_fst_map_to_list (lm_obs x)) as Hn. rewrite E in Hn. cbn in Hn. apply NoDup_cons in Hn as [Hn _].
      exists (b, a), (b', a'). split; [|split; apply Hleft; eauto]. intros [= _ ->]. apply Hn. by left. }
  assert (Hgone : forall lm, (lm ∈ tracks /\ exists x, m_landmarks (c_map s1) !! lm = Some x /\ (size (lm_obs x) < 2)%nat) <-> gone lm).
  { intros lm. rewrite Htr. unfold gone. split.
    - intros [H1 (x & Hx & Hsz)]. split; [done|]. by apply (Hfew lm x).
    - intros [H1 H2]. split; [done|]. destruct H1 as [y Hy]. apply Ho in Hy. apply Ho2 in Hy as [Hy _]. cbn in Hy.
      destruct (proj2 (Hex1 lm) (Hin _ Hy)) as [x Hx]. exists x. split; [done|]. by apply (Hfew lm x). }
  exists (length outs), s'. split.
  { unfold CullModel.remove_outliers. rewrite (threshold_ok s c t Hrec Ht). cbn [res_bind]. fold ps. rewrite Eo. cbn [res_bind]. rewrite E1. cbn [res_bind]. fold tracks. rewrite E'. done. }
  split. { exists outs. split; [|done]. split; [done|]. intros [a b]. apply Ho. }
  destruct G' as [Hm' Hrec']. split; [done|]. split; [done|]. split; [by eapply same_frame_trans|].
  assert (Hkept : forall lm, gone lm -> m_landmarks (c_map s') !! lm = None) by (intros lm H; apply W1; by apply Hgone).
  assert (Hkept' : forall lm, ~ gone lm -> m_landmarks (c_map s') !! lm = m_landmarks (c_map s1) !! lm) by (intros lm H; apply W2; by rewrite Hgone).
  split_and!.
  - intros lm. rewrite <- Hex1. split.
    + intros [x Hx]. assert (~ gone lm) as Hng by (intros H; apply Hkept in H; congruence). split; [|done]. rewrite Hkept' in Hx by done. by exists x.
    + intros [[x Hx] Hng]. exists x. by rewrite Hkept'.
  - intros lm [x Hx]. assert (~ gone lm) as Hng by (intros H; apply Hkept in H; congruence). rewrite Hkept' by done. apply L1.
  - intros k lm o. rewrite W3, S1, Hgone, Ho. tauto.
  - intros lm x e. rewrite R', R1, Hgone, Ho. tauto.
Qed.
(** An automatic threshold without any recorded error is refused; the errors are not looked at otherwise. *)
Theorem C53_auto_refused : forall (s : scored) ratio points, (forall lm x, err s lm x = None) -> remove_outliers (AUTO ratio) points s = Err ValueError.
Proof using HE.
  intros s ratio points H. unfold CullModel.remove_outliers.
  assert (mjoin ((fun l => snd <$> enumE (errors_of s l)) <$> (fst <$> enumL (m_landmarks (c_map s)))) = []) as ->; [|done].
  generalize (fst <$> enumL (m_landmarks (c_map s))). induction l as [|x l IH]; [done|]. rewrite fmap_cons. match goal with |- mjoin (?a :: ?b) = _ => change (a ++ mjoin b = []) end. rewrite IH, app_nil_r.
  assert (errors_of s x = ∅) as ->. { apply map_eq. intros y. rewrite lookup_empty. apply H. }
  assert (enumE ∅ ≡ₚ []) as Hp by (rewrite (HE ∅); by rewrite map_to_list_empty). by apply Permutation_nil_r in Hp as ->.
Qed.

(** ** filter_badly_conditioned_points *)
Variable origin : P -> vec.
Variable condition : list (C * P * O) -> vec -> option R.
Hypothesis Hcond : forall v w p, v ≡ₚ w -> condition v p = condition w p.
Notation filter_badly_conditioned := (FilterBadlyConditionedPoints enumL enumF pcompose origin condition).
(** Removed are the points that no two shots see under the angle asked, those whose covariance fails the numerical checks, and those whose
    condition number exceeds the mean by more than one standard deviation; the number of points removed is returned. At most half of
    the points with a condition number are removed, and not all of them. *)
Theorem C53_badly_conditioned : forall (m : map) degrees, reach m -> 0 <= degrees ->
  forall c : string -> option R, (forall lm, exists_in m lm -> scores pcompose origin condition m (degrees * PI / 180) lm (c lm)) ->
  forall ids, lists (fun lm => exists_in m lm /\ is_Some (c lm)) ids ->
  let cs := omap c ids in
  let gone lm := exists_in m lm /\ forall x, c lm = Some x -> mean cs + std cs < x in
  exists n m', filter_badly_conditioned m degrees = Ok (n, m') /\ reach m' /\ without gone m m' /\ number gone n /\
    (forall k, number (fun lm => gone lm /\ is_Some (c lm)) k -> 2 * k <= length ids)%nat /\
    (ids <> [] -> exists lm x, exists_in m' lm /\ c lm = Some x /\ x <= mean cs).
Proof using HL HF HO Hcond.
  intros m degrees Hm Hdeg c Hc ids [Hids1 Hids2] cs gone. set (a := degrees * PI / 180) in *.
  assert (Ha : 0 <= a). { unfold a. pose proof PI_RGT_0. apply Rmult_le_pos; [apply Rmult_le_pos; lra|lra]. }
  set (lms := enumL (m_landmarks m)). set (sc := (fun '(id, l) => (id, first_pass enumF pcompose origin condition m a id l)) <$> lms).
  assert (Hsc : sc = (fun id => (id, c id)) <$> (fst <$> lms)).
  { unfold sc. rewrite <- list_fmap_compose. apply list_fmap_ext. intros i [id l] Hi. cbn. f_equal.
    assert ((id, l) ∈ lms) as Hin by by eapply elem_of_list_lookup_2. unfold lms in Hin. rewrite (HL (m_landmarks m)) in Hin. apply elem_of_map_to_list in Hin.
    eapply first_pass_ok; try eassumption. apply Hc. by exists l. }
  set (conds := omap (fun '(id, c) => c ← c; Some (id, c)) sc : list (string * R)).
  set (known := filter (fun id => is_Some (c id)) (fst <$> lms)).
  assert (Hconds : conds = (fun id => (id, default 0 (c id))) <$> known).
  { unfold conds, known. rewrite Hsc. clear. induction (fst <$> lms) as [|x l IH]; [done|]. rewrite fmap_cons, filter_cons. cbn [omap list_omap].
    change (list_omap _ _ ?f ?k) with (omap f k). destruct (c x) as [y|] eqn:E; cbn [mbind option_bind].
    - rewrite decide_True by eauto. rewrite fmap_cons, E, IH. done.
    - rewrite decide_False by (intros [? ?]; done). exact IH. }
  assert (Hknown : known ≡ₚ ids).
  { apply NoDup_Permutation; [apply NoDup_filter, ids_nodup; done|done|]. intros x. unfold known, lms. rewrite elem_of_list_filter, Hids2, ids_in by done. tauto. }
  assert (Hvals : forall l : list string, (forall x, x ∈ l -> is_Some (c x)) -> omap c l = (fun id => default 0 (c id)) <$> l).
  { clear. induction l as [|x l IH]; intros H; [done|]. cbn [omap list_omap]. change (list_omap _ _ ?f ?k) with (omap f k). destruct (H x) as [y Hy]; [by left|]. rewrite Hy, fmap_cons, Hy. cbn. f_equal. apply IH. intros z Hz. apply H. by right. }
  assert (Hcs : snd <$> conds ≡ₚ cs).
  { rewrite Hconds, <- list_fmap_compose. change (((fun id => default 0 (c id)) <$> known) ≡ₚ cs). unfold cs. rewrite Hvals by (intros x Hx; apply Hids2 in Hx; tauto). by rewrite Hknown. }
  set (threshold := mean cs + std cs).
  set (culled := match conds with [] => [] | _ => fst <$> filter (fun x => average (snd <$> conds) + 1 * deviation (snd <$> conds) < x.2) conds end).
  assert (Hculled : forall lm, lm ∈ culled <-> exists_in m lm /\ exists x, c lm = Some x /\ threshold < x).
  { intros lm. assert (culled = fst <$> filter (fun x => threshold < x.2) conds) as ->.
    { unfold culled. rewrite average_mean, deviation_std, (mean_perm _ _ Hcs), (std_perm _ _ Hcs), Rmult_1_l. by destruct conds. }
    rewrite elem_of_list_fmap, Hconds. split.
    - intros ([x y] & -> & H). apply elem_of_list_filter in H as [H1 H2]. apply elem_of_list_fmap in H2 as (z & [= -> ->] & Hz). cbn in *. apply elem_of_list_filter in Hz as [[y Hy] Hz].
      rewrite Hy in H1. cbn in H1. apply ids_in in Hz; [|done]. split; [done|]. eauto.
    - intros [Hex (x & Hx & Hlt)]. exists (lm, x). split; [done|]. apply elem_of_list_filter. split; [done|]. apply elem_of_list_fmap. exists lm. rewrite Hx. split; [done|].
      apply elem_of_list_filter. split; [by rewrite Hx|]. by apply ids_in. }
  set (failed := fst <$> filter (fun x => x.2 = None) sc).
  assert (Hfailed : forall lm, lm ∈ failed <-> exists_in m lm /\ c lm = None).
  { intros lm. unfold failed. rewrite elem_of_list_fmap, Hsc. split.
    - intros ([x y] & -> & H). apply elem_of_list_filter in H as [H1 H2]. apply elem_of_list_fmap in H2 as (z & [= -> ->] & Hz). cbn in *. by apply ids_in in Hz.
    - intros [Hex Hn]. exists (lm, None). split; [done|]. apply elem_of_list_filter. split; [done|]. apply elem_of_list_fmap. exists lm. rewrite Hn. split; [done|]. by apply ids_in. }
  destruct (remove_listed_ok feature_of bias0 pose0 data0 mesh0 pcompose pinverse enumL enumF enumO HL HF HO m (failed ++ culled) Hm) as (n & m' & E & Hm' & W & N).
  assert (Hgone : forall lm, lm ∈ failed ++ culled /\ exists_in m lm <-> gone lm).
  { intros lm. rewrite elem_of_app, Hfailed, Hculled. unfold gone. fold threshold. split.
    - intros [[[H1 H2]|[H1 (x & H2 & H3)]] H4]; (split; [done|]); intros y Hy; congruence.
    - intros [H1 H2]. split; [|done]. destruct (c lm) as [x|]; [right|by left]. split; [done|]. exists x. split; [done|]. by apply H2. }
  exists n, m'. split; [exact E|]. split; [done|]. split; [exact (without_iff _ _ _ _ Hgone W)|]. split.
  { destruct N as (L & [N1 N2] & N3). exists L. split; [|done]. split; [done|]. intros x. by rewrite N2, Hgone. }
  assert (Hlen : length cs = length ids). { unfold cs. rewrite Hvals by (intros x Hx; apply Hids2 in Hx; tauto). apply fmap_length. }
  split.
  - intros k (L & [L1 L2] & L3). pose proof (cantelli cs 1 ltac:(lra)) as Hcant. rewrite Hlen in Hcant.
    assert (k <= length (filter (fun x => (mean cs + 1 * std cs < x)%R) cs))%nat as Hk.
    { assert (L ⊆+ filter (fun id => (mean cs + 1 * std cs < default 0 (c id))%R) ids).
      { apply NoDup_submseteq; [done|]. intros x Hx. apply L2 in Hx as [[Hx1 Hx2] [y Hy]]. apply elem_of_list_filter. split; [rewrite Hy; cbn; specialize (Hx2 y Hy); lra|].
        apply Hids2. split; [done|by exists y]. }
      rewrite <- L3. etransitivity; [by apply submseteq_length|]. 
      assert (Ecs : cs = (fun id => default 0%R (c id)) <$> ids) by (unfold cs; apply Hvals; intros x Hx; apply Hids2 in Hx; tauto).
      clear - Ecs. generalize (mean cs + 1 * std cs)%R. intros t. rewrite Ecs. by rewrite <- filter_map_length. }
    apply INR_le. rewrite mult_INR. apply le_INR in Hk. cbn [INR] in *. lra.
  - intros Hne. destruct (some_below_mean cs) as (x & Hx & Hle). { intros E'. apply Hne. apply length_zero_iff_nil. rewrite <- Hlen, E'. done. }
    unfold cs in Hx. apply elem_of_list_omap in Hx as (lm & Hlm & Hcx). exists lm, x. split; [|done]. apply Hids2 in Hlm as [Hex _].
    unfold exists_in. rewrite (wo_kept _ _ _ W); [done|]. rewrite Hgone. intros [_ Hg]. specialize (Hg x Hcx). assert (0 <= std cs) by apply sqrt_pos. lra.
Qed.

(** ** remove_isolated_points *)
(** With more than k points, those whose mean squared distance to their k nearest points exceeds the mean of these by more than 1.25
    standard deviations are removed, and their number returned: at most 16 in 41 of all points. *)
Theorem C53_isolated : forall (m : map) k, reach m -> (k < size (m_landmarks m))%nat ->
  forall a : string -> R, (forall lm, exists_in m lm -> isolation m k lm (a lm)) ->
  forall ids, lists (exists_in m) ids ->
  let gone lm := exists_in m lm /\ mean (a <$> ids) + 1.25 * std (a <$> ids) < a lm in
  exists n m', RemoveIsolatedPoints enumL enumF m (Z.of_nat k) = Ok (n, m') /\ reach m' /\ without gone m m' /\ number gone n /\
    (41 * n <= 16 * size (m_landmarks m))%nat /\ (0 < size (m_landmarks m'))%nat.
Proof using HL HF HO.
  intros m k Hm Hk a Ha ids [Hids1 Hids2] gone. set (lms := enumL (m_landmarks m)).
  assert (Hperm : fst <$> lms ≡ₚ ids). { apply NoDup_Permutation; [apply ids_nodup; done|done|]. intros x. unfold lms. by rewrite ids_in, Hids2. }
  assert (Havg : neighbor_average k ((fun x => lm_pos x.2) <$> lms) <$> ((fun x => lm_pos x.2) <$> lms) = a <$> (fst <$> lms)).
  { unfold lms. rewrite (positions_pos enumL HL m) at 2. rewrite <- list_fmap_compose. apply list_fmap_ext. intros i x Hi. cbn.
    apply isolation_average; [done|]. apply Ha. eapply ids_in; [exact HL|]. by eapply elem_of_list_lookup_2. }
  set (threshold := mean (a <$> ids) + 1.25 * std (a <$> ids)) in *.
  set (bad := fst <$> filter (fun x : string * R => threshold < x.2) (zip (fst <$> lms) (a <$> (fst <$> lms)))).
  assert (Hbad : forall lm, lm ∈ bad /\ exists_in m lm <-> gone lm).
  { intros lm. unfold bad, gone. rewrite elem_of_list_fmap. split.
    - intros [([x y] & -> & H) Hex]. cbn in *. split; [done|]. apply elem_of_list_filter in H as [H1 H2]. cbn in H1. apply elem_of_list_lookup in H2 as (i & Hi). apply lookup_zip_with_Some in Hi as (u & v & [= <- <-] & Hu & Hv).
      rewrite list_lookup_fmap, Hu in Hv. cbn in Hv. injection Hv as <-. done.
    - intros [Hex Hlt]. split; [|done]. exists (lm, a lm). split; [done|]. apply elem_of_list_filter. split; [done|]. eapply ids_in in Hex; [|exact HL]. fold lms in Hex.
      apply elem_of_list_lookup in Hex as (i & Hi). apply elem_of_list_lookup. exists i. apply lookup_zip_with_Some. exists lm, (a lm). split; [done|]. split; [done|]. by rewrite list_lookup_fmap, Hi. }
  destruct (remove_listed_ok feature_of bias0 pose0 data0 mesh0 pcompose pinverse enumL enumF enumO HL HF HO m bad Hm) as (n & m' & E & Hm' & W & (L & [N1 N2] & N3)).
  assert (Hsize : length ids = size (m_landmarks m)) by (rewrite <- Hperm; unfold lms; by apply ids_length).
  exists n, m'. split.
  { unfold RemoveIsolatedPoints. rewrite decide_False by lia. rewrite Nat2Z.id. fold lms. rewrite Havg.
    rewrite average_mean, deviation_std, (mean_perm _ (a <$> ids)), (std_perm _ (a <$> ids)) by (by rewrite Hperm). exact E. }
  split; [done|]. split; [exact (without_iff _ _ _ _ Hbad W)|]. split. { exists L. split; [|done]. split; [done|]. intros x. by rewrite N2, Hbad. }
  split.
  - pose proof (cantelli (a <$> ids) 1.25 ltac:(lra)) as Hcant. rewrite fmap_length, Hsize in Hcant.
    assert (n <= length (filter (fun x => (mean (a <$> ids) + 1.25 * std (a <$> ids) < x)%R) (a <$> ids)))%nat as Hn.
    { fold threshold. assert (L ⊆+ filter (fun id => threshold < a id) ids).
      { apply NoDup_submseteq; [done|]. intros x Hx. apply N2, Hbad in Hx as [Hx1 Hx2]. apply elem_of_list_filter. split; [done|]. by apply Hids2. }
      rewrite <- N3. etransitivity; [by apply submseteq_length|]. by rewrite <- filter_map_length. }
    apply INR_le. rewrite !mult_INR. apply le_INR in Hn. replace (INR 41) with 41 by (cbn; lra). replace (INR 16) with 16 by (cbn; lra). lra.
  - destruct (some_below_mean (a <$> ids)) as (x & Hx & Hle). { intros E'. apply (f_equal length) in E'. rewrite fmap_length in E'. cbn in E'. lia. }
    apply elem_of_list_fmap in Hx as (lm & -> & Hlm). apply Hids2 in Hlm as Hex.
    assert (is_Some (m_landmarks m' !! lm)) as [y Hy].
    { rewrite (wo_kept _ _ _ W); [done|]. rewrite Hbad. intros [_ Hg]. assert (0 <= std (a <$> ids)) by apply sqrt_pos. unfold threshold in Hg. lra. }
    assert (size (m_landmarks m') <> 0%nat); [|lia]. intros Hz. apply map_size_empty_iff in Hz. rewrite Hz, lookup_empty in Hy. done.
Qed.
(** These distances are defined for every point, once. *)
Theorem C53_isolation_defined : forall (m : map) k lm, exists_in m lm -> (k < size (m_landmarks m))%nat ->
  exists a, isolation m k lm a /\ forall b, isolation m k lm b -> b = a.
Proof using HL.
  intros m k lm H Hk. destruct (isolation_exists enumL HL m k lm H Hk) as [a Ha]. exists a. split; [done|]. intros b Hb.
  rewrite <- (isolation_average enumL HL m k lm a Ha). symmetry. by apply isolation_average.
Qed.
Theorem C53_scores_defined : forall (m : map) degrees lm, reach m -> 0 <= degrees -> exists_in m lm ->
  exists c, scores pcompose origin condition m (degrees * PI / 180) lm c /\ forall d, scores pcompose origin condition m (degrees * PI / 180) lm d -> d = c.
Proof using HL HF HO Hcond.
  intros m degrees lm Hm Hd [l Hl]. destruct (scores_exist feature_of bias0 pose0 data0 mesh0 pcompose pinverse enumL enumF enumO HL HF HO origin condition m (degrees * PI / 180) lm Hm) as [c Hc]; [by exists l|].
  exists c. split; [done|]. intros d Hdd. assert (Ha : 0 <= degrees * PI / 180). { pose proof PI_RGT_0. apply Rmult_le_pos; [apply Rmult_le_pos; lra|lra]. }
  pose proof (first_pass_ok feature_of bias0 pose0 data0 mesh0 pcompose pinverse enumL enumF enumO HL HF HO origin condition Hcond m _ lm l c Hm Ha Hl Hc) as E1.
  pose proof (first_pass_ok feature_of bias0 pose0 data0 mesh0 pcompose pinverse enumL enumF enumO HL HF HO origin condition Hcond m _ lm l d Hm Ha Hl Hdd) as E2. congruence.
Qed.
(** Only relative distances matter: the same points are removed after a similarity (all distances multiplied by one factor). *)
Lemma scaled_sum c l : sum ((fun x => c * x) <$> l) = c * sum l.
Proof using Type. induction l as [|x l IH]; [cbn; ring|]. rewrite fmap_cons. cbn [sum]. rewrite IH. ring. Qed.
Lemma scaled_mean c l : mean ((fun x => c * x) <$> l) = c * mean l.
Proof using Type. unfold mean. rewrite scaled_sum, fmap_length. unfold Rdiv. ring. Qed.
Lemma scaled_std c l : 0 < c -> std ((fun x => c * x) <$> l) = c * std l.
Proof using Type.
  intros Hc. unfold std. rewrite scaled_mean, fmap_length, <- list_fmap_compose.
  replace (sum (((fun x => (x - c * mean l) ^ 2) ∘ (fun x => c * x)) <$> l)) with (c * c * sum ((fun x => (x - mean l) ^ 2) <$> l)).
  - unfold Rdiv. rewrite Rmult_assoc. rewrite sqrt_mult_alt by (apply Rmult_le_pos; lra). rewrite sqrt_square by lra. done.
  - rewrite <- scaled_sum, <- list_fmap_compose. f_equal. apply list_fmap_ext. intros i x _. unfold compose. ring.
Qed.
Theorem C53_isolated_similarity : forall (m1 m2 : map) k s, reach m1 -> reach m2 -> (k < size (m_landmarks m1))%nat -> 0 < s ->
  (forall lm, exists_in m1 lm <-> exists_in m2 lm) ->
  (forall x y p q p' q', position m1 x = Some p -> position m1 y = Some q -> position m2 x = Some p' -> position m2 y = Some q' -> dist p' q' = s * dist p q) ->
  exists n m1' m2', RemoveIsolatedPoints enumL enumF m1 (Z.of_nat k) = Ok (n, m1') /\ RemoveIsolatedPoints enumL enumF m2 (Z.of_nat k) = Ok (n, m2') /\
    forall lm, exists_in m1' lm <-> exists_in m2' lm.
Proof using HL HF HO.
  clear Hcond condition origin enumE enumT HE HT. intros m1 m2 k s Hm1 Hm2 Hk Hs Hex Hd.
  assert (Hkeys : fst <$> enumL (m_landmarks m1) ≡ₚ fst <$> enumL (m_landmarks m2)).
  { apply NoDup_Permutation; [by apply ids_nodup..|]. intros x. rewrite !ids_in by done. apply Hex. }
  assert (Hsz : size (m_landmarks m2) = size (m_landmarks m1)). { rewrite <- (ids_length enumL HL m1), <- (ids_length enumL HL m2). symmetry. by apply Permutation_length. }
  set (a := fun lm => neighbor_average k ((fun x => lm_pos x.2) <$> enumL (m_landmarks m1)) (pos m1 lm)).
  assert (Ha : forall lm, exists_in m1 lm -> isolation m1 k lm (a lm)).
  { intros lm H. destruct (isolation_exists enumL HL m1 k lm H Hk) as [b Hb]. unfold a. by rewrite (isolation_average enumL HL m1 k lm b Hb). }
  assert (Ha2 : forall lm, exists_in m2 lm -> isolation m2 k lm ((fun lm => s * s * a lm) lm)).
  { intros lm H. apply Hex in H. destruct (Ha lm H) as (ns & p & (N1 & N2 & N3 & N4 & N5) & Hp & ds & Hds & E). apply Hex in H as H2. apply position_pos in H2.
    exists ns, (pos m2 lm). split.
    - split_and!; try done; [intros x Hx; by apply Hex, N4|]. intros p' x q y r Hp' Hx Hq Hy1 Hy2 Hr. rewrite H2 in Hp'. injection Hp' as <-.
      apply N4 in Hx as Hx'. apply position_pos in Hx'. apply position_in in Hr as Hr'. destruct Hr' as [Hr' _]. apply Hex, position_pos in Hr'.
      rewrite (Hd lm x p (pos m1 x) (pos m2 lm) q), (Hd lm y p (pos m1 y) (pos m2 lm) r) by done. apply Rmult_le_compat_l; [lra|]. by eapply N5.
    - split; [done|]. exists ((fun d => s * s * d) <$> ds). split; [|rewrite E; by rewrite scaled_mean].
      apply Forall2_fmap_r. eapply Forall2_impl; [exact Hds|]. intros x d (q & Hq & ->). apply position_in in Hq as Hq'. destruct Hq' as [Hq' _]. apply Hex, position_pos in Hq'.
      exists (pos m2 x). split; [done|]. rewrite (Hd lm x p q (pos m2 lm) (pos m2 x)) by done. ring. }
  set (ids := fst <$> enumL (m_landmarks m1)).
  assert (H1 : lists (exists_in m1) ids) by (split; [by apply ids_nodup|intros x; by apply ids_in]).
  assert (H2 : lists (exists_in m2) ids) by (split; [by apply ids_nodup|intros x; rewrite <- Hex; by apply ids_in]).
  destruct (C53_isolated m1 k Hm1 Hk a Ha ids H1) as (n1 & m1' & E1 & _ & W1 & (L1 & [A1 B1] & C1) & _).
  destruct (C53_isolated m2 k Hm2 ltac:(rewrite Hsz; exact Hk) _ Ha2 ids H2) as (n2 & m2' & E2 & _ & W2 & (L2 & [A2 B2] & C2) & _).
  assert (Hss : 0 < s * s) by now apply Rmult_lt_0_compat.
  assert (Hg : forall lm, (exists_in m1 lm /\ mean (a <$> ids) + 1.25 * std (a <$> ids) < a lm) <-> (exists_in m2 lm /\ mean ((fun lm => s * s * a lm) <$> ids) + 1.25 * std ((fun lm => s * s * a lm) <$> ids) < s * s * a lm)).
  { intros lm. rewrite Hex. assert (Ef : (fun lm => s * s * a lm) <$> ids = (fun x => s * s * x) <$> (a <$> ids)) by (by rewrite <- list_fmap_compose).
    rewrite Ef, scaled_mean, scaled_std by done. replace (s * s * mean (a <$> ids) + 1.25 * (s * s * std (a <$> ids))) with (s * s * (mean (a <$> ids) + 1.25 * std (a <$> ids))) by ring.
    split; intros [H3 H4]; (split; [done|]); [by apply Rmult_lt_compat_l|by apply Rmult_lt_reg_l in H4]. }
  assert (n1 = n2) as ->. { rewrite <- C1, <- C2. apply Permutation_length. apply NoDup_Permutation; [done|done|]. intros x. by rewrite B1, B2, Hg. }
  exists n2, m1', m2'. split; [done|]. split; [done|]. intros lm. unfold exists_in.
  destruct (Rlt_dec (mean (a <$> ids) + 1.25 * std (a <$> ids)) (a lm)) as [Hlt|Hge].
  - destruct (m_landmarks m1 !! lm) as [x|] eqn:Ex.
    + rewrite (wo_gone _ _ _ W1 lm), (wo_gone _ _ _ W2 lm); [done| |split; [by exists x|done]]. apply Hg. split; [by exists x|done].
    + assert (~ exists_in m1 lm) as Hn1 by (intros [? ?]; congruence). assert (~ exists_in m2 lm) as Hn2 by (by rewrite <- Hex).
      rewrite (wo_kept _ _ _ W1 lm), (wo_kept _ _ _ W2 lm) by tauto. apply Hex.
  - rewrite (wo_kept _ _ _ W1 lm), (wo_kept _ _ _ W2 lm); [apply Hex| |tauto]. rewrite <- Hg. tauto.
Qed.
(** With at most k points, or k = 0, nothing is removed. *)
Theorem C53_isolated_few : forall (m : map) k, (Z.of_nat (size (m_landmarks m)) <= k \/ k <= 0)%Z -> reach m ->
  RemoveIsolatedPoints enumL enumF m k = Ok (0%nat, m).
Proof using HL.
  intros m k H Hm. unfold RemoveIsolatedPoints. destruct (decide _) as [|Hn]; [done|]. assert (k = 0%Z) as -> by lia. cbv zeta.
  set (lms := enumL (m_landmarks m)). set (f := neighbor_average (Z.to_nat 0) ((fun x => lm_pos x.2) <$> lms)). assert (Hf : forall p, f p = 0) by (intros p; done).
  assert (Hz : f <$> ((fun x => lm_pos x.2) <$> lms) = replicate (length lms) 0).
  { clearbody f lms. clear - Hf. induction lms as [|x l IH]; [done|]. rewrite !fmap_cons, IH, Hf. done. }
  rewrite Hz. assert (Hs : forall n, sum (replicate n 0) = 0) by (induction n; cbn; lra).
  assert (Ha : average (replicate (length lms) 0) = 0) by (rewrite average_mean; unfold mean; rewrite Hs; unfold Rdiv; ring).
  assert (Hd : 0 <= deviation (replicate (length lms) 0)) by apply sqrt_pos. rewrite Ha.
  assert (filter (fun x : string * R => 0 + 1.25 * deviation (replicate (length lms) 0) < x.2) (zip (fst <$> lms) (replicate (length lms) 0)) = []) as ->; [|done].
  apply length_zero_iff_nil. destruct (filter _ _) as [|[x y] l] eqn:E; [done|]. exfalso.
  assert ((x, y) ∈ filter (fun x : string * R => 0 + 1.25 * deviation (replicate (length lms) 0) < x.2) (zip (fst <$> lms) (replicate (length lms) 0))) as Hin by (rewrite E; by left).
  apply elem_of_list_filter in Hin as [H1 H2]. apply elem_of_list_lookup in H2 as (i & Hi). apply lookup_zip_with_Some in Hi as (u & v & [= -> ->] & _ & Hv). apply lookup_replicate in Hv as [-> _]. cbn in H1. lra.
Qed.
End Props.
Print Assumptions C53_remove_outliers. Print Assumptions C53_auto_refused. Print Assumptions C53_badly_conditioned.
Print Assumptions C53_isolated. Print Assumptions C53_isolation_defined. Print Assumptions C53_scores_defined. Print Assumptions C53_isolated_few. Print Assumptions C53_isolated_similarity.

(** ** Witnesses *)
Notation exmap := (@map nat nat vec vec nat nat (Z * nat) nat).
Notation exop := (@map_op nat nat vec vec nat nat (Z * nat) nat).
Definition xstep := map_step (C := nat) (B := nat) (P := vec) (V := vec) (D := nat) (X := nat) (O := Z * nat) (R := nat)
  fst 0%nat v0 0%nat 0%nat (fun a b => vadd a b) (fun a => vscale (-1) a) map_to_list map_to_list map_to_list.
Definition xops : list exop :=
  [MCamera "c" 7%nat; MRigCamera "rc" v0; MInstance "i1"; MInstance "i2"; MInstance "i3"; MInstancePose "i1" (Vec 1 0 0); MInstancePose "i2" (Vec 0 1 0);
   MShot (false, "s1") "c" "rc" "i1" None; MShot (false, "s2") "c" "rc" "i2" None; MShot (false, "s3") "c" "rc" "i3" None;
   MLandmark "l1" (Vec 0 0 1); MLandmark "l2" (Vec 0 0 2); MLandmark "l3" (Vec 0 0 3);
   MAddObs (false, "s1") "l1" (10%Z, 100%nat); MAddObs (false, "s2") "l1" (20%Z, 200%nat); MAddObs (false, "s3") "l1" (30%Z, 300%nat);
   MAddObs (false, "s1") "l2" (11%Z, 101%nat); MAddObs (false, "s2") "l2" (21%Z, 101%nat)].
Definition xmap : exmap := foldl xstep map_empty xops.
Definition okx (m : exmap) (op : exop) : bool :=
  match op with
  | MAddObs k lm o =>
      match m_shots m !! k with Some s => bool_decide (map_Forall (fun _ o' => o'.1 <> o.1) (sh_obs s)) | None => true end &&
      match m_landmarks m !! lm with Some l => bool_decide (lm_obs l !! k.2 = None) | None => true end
  | MShot k _ _ inst _ => match m_instances m !! inst with Some i => bool_decide (in_members i !! k.2 = None) | None => true end
  | MRemoveObs _ _ | MRemoveInstance _ => false
  | _ => true
  end.
Lemma okx_allowed m op : okx m op = true -> allowed fst m op.
Proof.
  destruct op; simpl; try done.
  - intros H i Hi. rewrite Hi in H. by apply bool_decide_eq_true in H.
  - intros [H1 H2]%andb_prop. split.
    + intros lm' o' (s & Hs & Ho). rewrite Hs in H1. apply bool_decide_eq_true in H1. by apply (H1 lm' o').
    + intros b f (l & Hl & Hf). rewrite Hl in H2. apply bool_decide_eq_true in H2. simpl in Hf. by rewrite H2 in Hf.
Qed.
Fixpoint okxs (m : exmap) (ops : list exop) : bool := match ops with [] => true | op :: ops' => okx m op && okxs (xstep m op) ops' end.
Lemma okxs_reach ops : forall m, okxs m ops = true -> reachable fst xstep m -> reachable fst xstep (foldl xstep m ops).
Proof.
  induction ops as [|op ops IH]; intros m H Hm; [done|]. simpl in H. apply andb_prop in H as [H1 H2]. simpl.
  apply IH; [done|]. apply reach_step; [done|]. by apply okx_allowed.
Qed.
Definition xerrors : gmap string (gmap string (R * R)) := <["l1" := <["s1" := (3, 4)]> (<["s2" := (0, 1)]> ∅)]> (<["l2" := <["s1" := (1, 0)]> (<["s2" := (6, 8)]> ∅)]> ∅).
(** Three points with two and three observations and errors of 1, 5 and 10: the hypotheses of the theorems hold. *)
Example C53_nonvacuous : reachable fst xstep xmap /\ recorded (err (Scored xmap xerrors)) xmap /\
  outlier (err (Scored xmap xerrors)) 2 "l1" "s1" /\ outlier (err (Scored xmap xerrors)) 2 "l2" "s2" /\ ~ outlier (err (Scored xmap xerrors)) 2 "l2" "s1" /\
  size (m_landmarks xmap) = 3%nat.
Proof.
  split; [apply okxs_reach; [by vm_compute|constructor]|]. split_and!.
  - intros lm s e. unfold err, errors_of. cbn [c_errors]. unfold xerrors.
    destruct (decide (lm = "l1")) as [->|H1]; [|destruct (decide (lm = "l2")) as [->|H2]].
    + rewrite lookup_insert. unfold default, Datatypes.id. intros H. apply lookup_insert_Some in H as [[<- _]|[_ H]]; [|apply lookup_insert_Some in H as [[<- _]|[_ H]]; [|by rewrite lookup_empty in H]].
      * exists 10%Z. eexists. split; by vm_compute.
      * exists 20%Z. eexists. split; by vm_compute.
    + rewrite lookup_insert_ne, lookup_insert by done. unfold default, Datatypes.id. intros H. apply lookup_insert_Some in H as [[<- _]|[_ H]]; [|apply lookup_insert_Some in H as [[<- _]|[_ H]]; [|by rewrite lookup_empty in H]].
      * exists 11%Z. eexists. split; by vm_compute.
      * exists 21%Z. eexists. split; by vm_compute.
    + rewrite !lookup_insert_ne, lookup_empty by done. cbn. by rewrite lookup_empty.
  - exists (3, 4). split; [reflexivity|]. cbn [fst snd]. replace (3 ^ 2 + 4 ^ 2) with (5 * 5) by ring. rewrite sqrt_square, Rabs_pos_eq by lra. lra.
  - exists (6, 8). split; [reflexivity|]. cbn [fst snd]. replace (6 ^ 2 + 8 ^ 2) with (10 * 10) by ring. rewrite sqrt_square, Rabs_pos_eq by lra. lra.
  - intros (e & He & H). change (Some (1, 0) = Some e) in He. injection He as <-. cbn [fst snd] in H. assert (E : sqrt (1 ^ 2 + 0 ^ 2) = 1) by (transitivity (sqrt 1); [f_equal; ring|apply sqrt_1]). rewrite E, Rabs_pos_eq in H by lra. lra.
  - by vm_compute.
Qed.

(** The automatic threshold can be zero whatever the ratio: with three errors about (-1.486, -1.486) every observation is an outlier. *)
Theorem C53_auto_threshold_refuted : forall ratio : R, exists es : list (R * R), length es = 3%nat /\ get_actual_threshold (AUTO ratio) es = Ok 0 /\
  forall e, e ∈ es -> 0 < sqrt (e.1 ^ 2 + e.2 ^ 2).
Proof.
  intros ratio. exists [(-2.486, -1.486); (-1.486, -1.486); (-0.486, -1.486)]. split; [done|].
  assert (M1 : median [-2.486; -1.486; -0.486] = Some (-1.486)).
  { apply median_spec. exists [-2.486], [-1.486; -0.486]. split; [repeat constructor; lra|]. split; [done|]. left. eexists. done. }
  assert (M2 : median [-1.486; -1.486; -1.486] = Some (-1.486)).
  { apply median_spec. exists [-1.486], [-1.486; -1.486]. split; [repeat constructor; lra|]. split; [done|]. left. eexists. done. }
  assert (M3 : median [1; 0; 1] = Some 1).
  { apply median_spec. exists [0], [1; 1]. split; [repeat constructor; lra|]. split; [apply Permutation_swap|]. left. eexists. done. }
  split.
  - cbn [get_actual_threshold]. unfold get_error_distribution. cbn [fmap list_fmap fst snd]. rewrite M1, M2.
    replace [sqrt ((-2.486 - -1.486) * (-2.486 - -1.486) + (-1.486 - -1.486) * (-1.486 - -1.486)); sqrt ((-1.486 - -1.486) * (-1.486 - -1.486) + (-1.486 - -1.486) * (-1.486 - -1.486));
             sqrt ((-0.486 - -1.486) * (-0.486 - -1.486) + (-1.486 - -1.486) * (-1.486 - -1.486))] with [1; 0; 1].
    + rewrite M3. cbn [res_bind]. replace (-1.486 + 1.486 * 1) with 0 by lra. rewrite Rmult_0_l, Rplus_0_l, sqrt_0, Rmult_0_r. done.
    + f_equal; [|f_equal; [|f_equal]].
      * transitivity (sqrt (1 * 1)); [symmetry; apply sqrt_square; lra|f_equal; lra].
      * transitivity (sqrt 0); [symmetry; apply sqrt_0|f_equal; lra].
      * transitivity (sqrt (1 * 1)); [symmetry; apply sqrt_square; lra|f_equal; lra].
  - intros e He. apply sqrt_lt_R0. rewrite !elem_of_cons, elem_of_nil in He. destruct He as [->|[->|[->|[]]]]; cbn [fst snd]; lra.
Qed.
Print Assumptions C53_auto_threshold_refuted.
