(** C20, C21, C22: descriptor matching, masks, match files *)
From stdpp Require Import prelude list sorting gmap strings.
From Coq Require Import QArith.
Local Close Scope Q_scope.
From Verif Require Import Base MatchModel MatchSpec MatchProofs PairsModel PairsSpec PairsProps.

(** ** C20 *)
(** One way brute force: exactly the pairs whose second feature passes the ratio test among the allowed features. *)
Theorem C20_brute_force : forall (D : Type) (le : D -> D -> Prop) (le_dec : RelDecision le) below n1 n2 d mask i j, distances le below ->
  (i, j) ∈ match_brute_force le below n1 n2 d mask <-> i < n1 /\ passes below (d i) (fun j => j < n2 /\ mask i j = true) j.
Proof. intros. by apply brute_force_spec. Qed.
Print Assumptions C20_brute_force.

(** Symmetric: exactly the pairs that pass in both directions; each feature in at most one. *)
Theorem C20_brute_force_symmetric : forall (D : Type) (le : D -> D -> Prop) (le_dec : RelDecision le) below enum n1 n2 d mask, distances le below -> (forall s, enum s ≡ₚ elements s) ->
  let out := match_brute_force_symmetric le below enum n1 n2 d mask in
  one_to_one out /\ forall i j, (i, j) ∈ out <-> i < n1 /\ j < n2 /\ mask i j = true /\
    passes below (d i) (fun j => j < n2 /\ mask i j = true) j /\ passes below (fun i => d i j) (fun i => i < n1 /\ mask i j = true) i.
Proof.
  intros D le le_dec below enum n1 n2 d mask HD He out. split.
  - apply symmetric_one_to_one; [done|intros; by eapply brute_force_functional..].
  - intros i j. unfold out, match_brute_force_symmetric. rewrite symmetric_elem by done. rewrite !brute_force_spec by done.
    unfold passes. naive_solver.
Qed.
Print Assumptions C20_brute_force_symmetric.

(** Whatever the index answers (FLANN is approximate), each feature is in at most one symmetric match, and a match is one
    whose two queries answer each other and pass the ratio test. *)
Theorem C20_flann_symmetric : forall (D : Type) (below : D -> D -> bool) enum search1 search2 n1 n2, (forall s, enum s ≡ₚ elements s) ->
  let out := match_flann_symmetric below enum search1 search2 n1 n2 in
  one_to_one out /\ forall i j, (i, j) ∈ out <-> i < n1 /\ j < n2 /\
    (search1 j).1.1 = i /\ (search2 i).1.1 = j /\ below (search1 j).2.1 (search1 j).2.2 = true /\ below (search2 i).2.1 (search2 i).2.2 = true.
Proof.
  intros D below enum s1 s2 n1 n2 He out. split.
  - apply symmetric_one_to_one_r; [done|intros; by eapply flann_functional..].
  - intros i j. unfold out, match_flann_symmetric. rewrite symmetric_elem by done. unfold match_flann. rewrite !elem_of_omap_seq. split.
    + intros [(q & Hq & E) (q' & Hq' & E')]. destruct (s1 q) as [[a a'] [da db]] eqn:E1. destruct (s2 q') as [[b b'] [dc dd]] eqn:E2.
      destruct (below da db) eqn:?; [|done]. destruct (below dc dd) eqn:?; [|done]. injection E as -> ->. injection E' as -> ->.
      rewrite E1, E2. done.
    + intros (Hi & Hj & E1 & E2 & B1 & B2). split.
      * exists j. split; [done|]. destruct (s1 j) as [[a a'] [da db]]. cbn in *. rewrite B1. by subst.
      * exists i. split; [done|]. destruct (s2 i) as [[a a'] [da db]]. cbn in *. rewrite B2. by subst.
Qed.
Print Assumptions C20_flann_symmetric.

(** Words: feature i of the first image is matched to j exactly when j is below every other feature looked up through the
    words of i. A feature that is alone is accepted without a ratio test. *)
Theorem C20_words : forall (D : Type) (le : D -> D -> Prop) (le_dec : RelDecision le) below d words1 w2 max_checks i j, distances le below ->
  (i, j) ∈ match_words le below d words1 w2 max_checks <-> exists words V, words1 !! i = Some words /\ looked_up w2 max_checks words V /\ best_of below (d i) V j.
Proof. intros. by apply words_spec. Qed.
Print Assumptions C20_words.
Theorem C20_words_symmetric : forall (D : Type) (le : D -> D -> Prop) (le_dec : RelDecision le) below enum d words1 words2 max_checks, distances le below -> (forall s, enum s ≡ₚ elements s) ->
  let out := match_words_symmetric le below enum d words1 words2 max_checks in
  one_to_one out /\ forall i j, (i, j) ∈ out <-> exists ws1 ws2 V1 V2, words1 !! i = Some ws1 /\ words2 !! j = Some ws2 /\
    looked_up (map (hd 0) words2) max_checks ws1 V1 /\ best_of below (d i) V1 j /\
    looked_up (map (hd 0) words1) max_checks ws2 V2 /\ best_of below (fun i => d i j) V2 i.
Proof.
  intros D le le_dec below enum d words1 words2 mc HD He out. split.
  - apply symmetric_one_to_one; [done|intros; by eapply words_functional..].
  - intros i j. unfold out, match_words_symmetric. rewrite symmetric_elem by done. rewrite !words_spec by done. unfold first_column.
    split; [intros [(? & ? & ? & ? & ?) (? & ? & ? & ? & ?)]; eauto 12|intros (? & ? & ? & ? & ? & ? & ? & ? & ? & ?); eauto 12].
Qed.
Print Assumptions C20_words_symmetric.

(** Rational distances and every ratio in [0, 1] meet the hypotheses. *)
Definition Qbelow (ratio : Q) (a b : Q) : bool := negb (Qle_bool (ratio * b) a).
Definition Qnonneg := { q : Q | (0 <=? Qnum q)%Z = true }.
Lemma C20_hypotheses (ratio : Q) : (0 <= ratio)%Q -> (ratio <= 1)%Q ->
  distances (fun a b : Qnonneg => (`a <= `b)%Q) (fun a b => Qbelow ratio (`a) (`b)).
Proof.
  intros H0 H1.
  assert (forall a b, Qbelow ratio a b = true <-> (a < ratio * b)%Q) as Hb.
  { intros a b. unfold Qbelow. rewrite negb_true_iff. split; intros H.
    - apply Qnot_le_lt. intros H'. apply Qle_bool_iff in H'. congruence.
    - destruct (Qle_bool _ _) eqn:E; [|done]. apply Qle_bool_iff in E. exfalso. by eapply Qlt_not_le. }
  assert (forall a : Qnonneg, (0 <= `a)%Q) as Hpos.
  { intros [a Ha]. pose proof (proj1 (Z.leb_le _ _) Ha). unfold Qle. simpl. lia. }
  split.
  - intros a b c. apply Qle_trans.
  - intros a b. destruct (Qlt_le_dec (`a) (`b)); [left; by apply Qlt_le_weak|by right].
  - intros a b c. rewrite !Hb. intros H Hbc. eapply Qlt_le_trans; [exact H|]. 
    rewrite !(Qmult_comm ratio). by apply Qmult_le_compat_r.
  - intros a b. rewrite Hb. intros H Hle. apply (Qlt_not_le _ _ H).
    eapply Qle_trans; [|exact Hle]. setoid_replace (`b)%Q with (1 * `b)%Q at 2 by ring. by apply Qmult_le_compat_r.
Qed.
(** two features each; (0,1) and (1,0) are mutual nearest neighbours *)
Example C20_nonvacuous :
  let d i j := match i, j with 0, 0 => 10 | 0, 1 => 1 | 1, 0 => 2 | _, _ => 9 end in
  let below a b := bool_decide (10 * a < 8 * b) in
  distances Nat.le below /\ match_brute_force_symmetric Nat.le below elements 2 2 d (fun _ _ => true) ≡ₚ [(0, 1); (1, 0)].
Proof.
  split.
  - split; [intros; lia|intros; lia|intros a b c; rewrite !bool_decide_eq_true; lia|intros a b; rewrite bool_decide_eq_true; lia].
  - by apply (bool_decide_unpack _); vm_compute.
Qed.
(** With words a single candidate is matched at any distance: the "ratio test both ways" part of the claim fails there. *)
Theorem C20_words_single_candidate_refuted : exists d words1 words2 (below : nat -> nat -> bool), distances Nat.le below /\
  match_words_symmetric Nat.le below elements d words1 words2 20 = [(0, 0)] /\ ~ passes below (d 0) (fun j => j < 2) 0.
Proof.
  exists (fun _ j => match j with 0 => 1000 | _ => 1 end), [[5]], [[5]; [6]], (fun a b => bool_decide (10 * a < 8 * b)). split_and!.
  - split; [intros; lia|intros; lia|intros a b c; rewrite !bool_decide_eq_true; lia|intros a b; rewrite bool_decide_eq_true; lia].
  - by vm_compute.
  - intros (_ & _ & H). specialize (H 1 ltac:(lia) ltac:(lia)). vm_compute in H. congruence.
Qed.
Print Assumptions C20_words_single_candidate_refuted.

(** ** C21 *)
(** Matches between masked features become matches between the original features: same number and order, and the i-th
    masked feature is reported at its position in the original list. *)
Theorem C21_unfilter : forall matches m1 m2,
  (forall i j, (i, j) ∈ matches -> i < length (select m1 m1) /\ j < length (select m2 m2)) ->
  exists out, unfilter_matches matches m1 m2 = Ok out /\
    Forall2 (fun p q => unmasked_position m1 p.1 q.1 /\ unmasked_position m2 p.2 q.2) matches out.
Proof.
  intros matches m1 m2 H. destruct (unfilter_spec matches m1 m2) as (out & Ho & HF).
  - intros i j Hij. specialize (H i j Hij). by rewrite !select_length in H by done.
  - exists out. split; [done|]. eapply Forall2_impl; [exact HF|]. cbn. intros x y [? ?]. by rewrite <- !flatnonzero_spec.
Qed.
Print Assumptions C21_unfilter.
(** The feature reported is the same feature: any per-feature data [P] (points, descriptors, colours) read through the masked
    index in the masked list equals the one read through the reported index in the full list, and it is not masked out. *)
Theorem C21_same_feature : forall (A B : Type) (P1 : list A) (P2 : list B) m1 m2 matches out,
  length m1 = length P1 -> length m2 = length P2 -> unfilter_matches matches m1 m2 = Ok out ->
  Forall2 (fun p q => (select m1 P1 !! p.1 = P1 !! q.1 /\ m1 !! q.1 = Some true /\ is_Some (P1 !! q.1)) /\
                      (select m2 P2 !! p.2 = P2 !! q.2 /\ m2 !! q.2 = Some true /\ is_Some (P2 !! q.2))) matches out.
Proof.
  intros A B P1 P2 m1 m2 matches. unfold unfilter_matches. induction matches as [|[a b] l IH]; intros out L1 L2 Hout; cbn in Hout; [injection Hout as <-; constructor|].
  destruct (foldr _ _ l) as [r|] eqn:E; [|done]. cbn in Hout. destruct (flatnonzero m1 !! a) as [x|] eqn:E1; [|done]. cbn in Hout.
  destruct (flatnonzero m2 !! b) as [y|] eqn:E2; [|done]. cbn in Hout. injection Hout as <-. constructor; [|by apply IH].
  cbn. assert (m1 !! x = Some true) by (apply flatnonzero_elem; by eapply elem_of_list_lookup_2).
  assert (m2 !! y = Some true) by (apply flatnonzero_elem; by eapply elem_of_list_lookup_2).
  split; (split; [by apply select_lookup|]; split; [done|]; apply lookup_lt_is_Some; (rewrite <- L1 || rewrite <- L2); by eapply lookup_lt_Some).
Qed.
Print Assumptions C21_same_feature.
(** The whole of match(): for every list of matches found between the unmasked features, every filter setting, every answer of
    the robust estimation and every threshold, it does not fail, and it returns nothing or at least [min_match] matches,
    which are matches found between the masked features, carried to the original indices. *)
Theorem C21_match : forall matcher filters ransac min_match m1 m2,
  (forall i j, (i, j) ∈ matcher -> i < length (select m1 m1) /\ j < length (select m2 m2)) ->
  exists out, match_images_pair matcher filters ransac min_match m1 m2 = Ok out /\ (out = [] \/ min_match <= length out) /\
    exists l, sublist l matcher /\ Forall2 (fun p q => unmasked_position m1 p.1 q.1 /\ unmasked_position m2 p.2 q.2) l out.
Proof.
  intros matcher filters ransac mm m1 m2 H. destruct (match_pair_spec matcher filters ransac mm m1 m2) as (out & Ho & Hl & l & Hs & HF).
  - intros i j Hij. specialize (H i j Hij). by rewrite !select_length in H by done.
  - exists out. split; [done|]. split; [done|]. exists l. split; [done|]. eapply Forall2_impl; [exact HF|]. cbn. intros x y [? ?]. by rewrite <- !flatnonzero_spec.
Qed.
Print Assumptions C21_match.
(** With the symmetric brute force matcher, the result is one to one also on the original indices. *)
Theorem C21_match_one_to_one : forall matcher filters ransac min_match m1 m2 out, one_to_one matcher ->
  (forall i j, (i, j) ∈ matcher -> i < length (select m1 m1) /\ j < length (select m2 m2)) ->
  match_images_pair matcher filters ransac min_match m1 m2 = Ok out -> one_to_one out.
Proof.
  intros matcher filters ransac mm m1 m2 out (H1 & H2 & H3) H Hout. destruct (C21_match matcher filters ransac mm m1 m2 H) as (out' & Ho & _ & l & Hs & HF).
  rewrite Hout in Ho. injection Ho as <-.
  assert (forall m i i' a, unmasked_position m i a -> unmasked_position m i' a -> i = i') as Hinj by (intros m i i' a [_ <-] [_ <-]; done).
  assert (forall m i a a', unmasked_position m i a -> unmasked_position m i a' -> a = a') as Hfun.
  { intros m i a a' Ha Ha'. apply flatnonzero_spec in Ha, Ha'. congruence. }
  assert (forall a b, (a, b) ∈ out -> exists i j, (i, j) ∈ l /\ unmasked_position m1 i a /\ unmasked_position m2 j b) as Hin.
  { intros a b Hab. apply elem_of_list_lookup in Hab as [k Hk]. destruct (Forall2_lookup_r _ _ _ _ _ HF Hk) as ([i j] & Hl & ? & ?).
    exists i, j. split; [by eapply elem_of_list_lookup_2|done]. }
  assert (forall p, p ∈ l -> p ∈ matcher) as Hsub by (intros; by eapply sublist_elem).
  split_and!.
  - intros i j j' Hj Hj'. apply Hin in Hj as (x & y & ? & ? & ?), Hj' as (x' & y' & ? & ? & ?).
    assert (x = x') as -> by eauto. assert (y = y') as -> by eauto. eauto.
  - intros i i' j Hj Hj'. apply Hin in Hj as (x & y & ? & ? & ?), Hj' as (x' & y' & ? & ? & ?).
    assert (y = y') as -> by eauto. assert (x = x') as -> by eauto. eauto.
  - assert (NoDup l) as Hl by (by eapply sublist_NoDup). clear -HF Hl Hinj. induction HF as [|[i j] [a b] l out [Ha Hb] HF IH]; [constructor|].
    apply NoDup_cons in Hl as [Hn Hl]. constructor; [|by apply IH]. intros Hab. apply Hn. apply elem_of_list_lookup in Hab as [k Hk].
    destruct (Forall2_lookup_r _ _ _ _ _ HF Hk) as ([i' j'] & Hl' & Ha' & Hb'). cbn in *. rewrite (Hinj _ _ _ _ Ha Ha'), (Hinj _ _ _ _ Hb Hb'). by eapply elem_of_list_lookup_2.
Qed.
Print Assumptions C21_match_one_to_one.
Example C21_nonvacuous : unfilter_matches [(0, 1); (1, 0)] [false; true; false; true] [true; false; true] = Ok [(1, 2); (3, 0)] /\
  match_images_pair (map (fun i => (i, i)) (seq 0 9)) None (fun _ => Some (replicate 9 true)) 9 (false :: replicate 9 true) (replicate 9 true)
    = Ok (map (fun i => (S i, i)) (seq 0 9)).
Proof. by vm_compute. Qed.

(** ** C22 *)
(** save_matches raises exactly when some pair has no image among the references, and then writes nothing. *)
Theorem C22_raises : forall disk refs pairs,
  (exists disk', save_matches disk refs pairs = Ok disk') /\ (forall p, p ∈ pairs -> p.1.1 ∈ refs \/ p.1.2 ∈ refs) \/
  save_matches disk refs pairs = Err RuntimeError /\ exists p, p ∈ pairs /\ p.1.1 ∉ refs /\ p.1.2 ∉ refs.
Proof.
  intros disk refs pairs. unfold save_matches. destruct (assign_raises refs pairs (list_to_map (map (fun im => (im, ∅)) refs))) as [[[f ->] H]|[-> H]]; cbn.
  - left. split; [eauto|]. by apply Forall_forall.
  - right. split; [done|]. unfold assignable in H. apply not_Forall_Exists in H; [|intros; apply _]. apply Exists_exists in H as (p & Hp & H). exists p. cbn in H. split; [done|]. split; intros ?; apply H; auto.
Qed.
Print Assumptions C22_raises.
(** When the first image of every pair is a reference (as for the pairs of pairs_selection, C15), a later load over any list
    of images finds exactly the matches saved for the references, and for other images what was on disk before. *)
Theorem C22_load : forall disk refs pairs disk' images a b m, NoDup (map fst pairs) -> (forall p, p ∈ pairs -> p.1.1 ∈ refs) ->
  save_matches disk refs pairs = Ok disk' ->
  load_matches disk' images !! (a, b) = Some m <-> a ∈ images /\ b ∈ images /\
    (if decide (a ∈ refs) then ((a, b), m) ∈ pairs else load_matches disk images !! (a, b) = Some m).
Proof.
  intros disk refs pairs disk' images a b m Hnd Hr Hs. rewrite !load_matches_lookup.
  destruct (save_lookup refs disk pairs disk' Hs ltac:(by apply Forall_forall) Hnd a b m) as [-> _]. destruct (decide (a ∈ refs)); rewrite ?load_matches_lookup; tauto.
Qed.
Print Assumptions C22_load.
(** find_matches gives the matches back both ways. *)
Theorem C22_find : forall disk refs pairs disk' a b m, NoDup (map fst pairs) -> (forall p, p ∈ pairs -> p.1.1 ∈ refs) ->
  save_matches disk refs pairs = Ok disk' -> ((a, b), m) ∈ pairs ->
  find_matches disk' a b = m /\
  ((b ∈ refs /\ (b, a) ∉ map fst pairs) \/ (b ∉ refs /\ disk !! b = None) -> find_matches disk' b a = map (fun q => (q.2, q.1)) m).
Proof.
  intros disk refs pairs disk' a b m Hnd Hr Hs Hin.
  pose proof Hr as Hr2. rewrite <- Forall_forall in Hr2. pose proof (fun a b m => proj1 (save_lookup refs disk pairs disk' Hs Hr2 Hnd a b m)) as HL.
  assert (disk' !! a ≫= (.!! b) = Some m) as Hab.
  { apply HL. specialize (Hr _ Hin). cbn in Hr. by rewrite decide_True. }
  unfold find_matches. rewrite Hab. split; [done|]. intros Hb.
  assert (disk' !! b ≫= (.!! a) = None) as ->; [|done].
  destruct (disk' !! b ≫= (.!! a)) as [m'|] eqn:E; [|done]. exfalso. apply HL in E. destruct Hb as [[Hb Hn]|[Hb Hn]].
  - rewrite decide_True in E by done. apply Hn. apply elem_of_list_fmap. by exists ((b, a), m').
  - rewrite decide_False in E by done. by rewrite Hn in E.
Qed.
Print Assumptions C22_find.
(** The whole of the matching action on the pairs selected by C15: every selected pair is found again after saving. *)
Theorem C22_action : forall pick pairs images sel mtch disk disk' order, picks pick -> "" ∉ images ->
  ordered_pairs pick pairs images = Ok sel -> order ≡ₚ map_to_list (match_images_with_pairs mtch (elements sel)) ->
  save_matches disk images order = Ok disk' ->
  forall a b, a ∈ images -> b ∈ images -> load_matches disk' images !! (a, b) = if decide ((a, b) ∈ sel) then Some (mtch a b) else None.
Proof.
  intros pick pairs images sel mtch disk disk' order Hp Hne Hsel Hord Hs a b Ha Hb.
  destruct (C15_ordered_pairs pick Hp pairs images Hne) as (sel' & Hsel' & [Hf _ _ _]). rewrite Hsel in Hsel'. injection Hsel' as <-.
  assert (forall a b m, ((a, b), m) ∈ order <-> (a, b) ∈ sel /\ m = mtch a b) as HO.
  { intros a' b' m. rewrite Hord, elem_of_map_to_list, with_pairs_lookup. cbn. case_decide as Hd; rewrite elem_of_elements in Hd; naive_solver. }
  apply option_eq. intros m. rewrite (C22_load disk images order disk' images a b m).
  - rewrite decide_True by done. rewrite HO. case_decide; naive_solver.
  - rewrite Hord. apply NoDup_fst_map_to_list.
  - intros [[a' b'] m'] Hin. apply HO in Hin as [Hin _]. cbn. by eapply Hf.
  - done.
Qed.
Print Assumptions C22_action.
(** Without that, the claim is false: a pair kept under its second image is stored with unswapped columns, so a load gives
    the matches of (a, b) as the matches of (b, a). *)
Theorem C22_second_reference_refuted : exists refs pairs disk' a b m, NoDup (map fst pairs) /\ save_matches ∅ refs pairs = Ok disk' /\
  ((a, b), m) ∈ pairs /\ load_matches disk' [a; b] !! (b, a) = Some m /\ find_matches disk' a b <> m.
Proof.
  exists ["b"], [(("a", "b"), [(0, 1)])]. destruct (save_matches ∅ ["b"] [(("a", "b"), [(0, 1)])]) as [d|] eqn:E; [|by vm_compute in E].
  exists d, "a", "b", [(0, 1)]. revert E. unfold save_matches. cbn [foldl assign_pair map list_to_map foldr res_bind].
  intros [= <-]. split_and!; [by apply (bool_decide_unpack _); vm_compute|done|set_solver|by vm_compute|by vm_compute].
Qed.
Print Assumptions C22_second_reference_refuted.
Example C22_nonvacuous : exists disk', save_matches ∅ ["a"; "b"] [(("a", "b"), [(0, 1)]); (("b", "c"), [(2, 2)])] = Ok disk' /\
  load_matches disk' ["a"; "b"; "c"] !! ("b", "c") = Some [(2, 2)] /\ find_matches disk' "b" "a" = [(1, 0)] /\ find_matches disk' "c" "b" = [(2, 2)].
Proof. eexists. split; [reflexivity|]. by vm_compute. Qed.

(** ** C36 *)
(** The ad hoc filters only drop matches, in order, and a match is kept exactly when it moves between the images (or more than
    85% of the matches do not move), lies off the poles of panoramas and off the watermarks of the cameras that have one. *)
Theorem C36_filters : forall f matches, sublist (apply_adhoc_filters f matches) matches /\ forall m, m ∈ apply_adhoc_filters f matches <->
  m ∈ matches /\ (static f m = false \/ 85 * length matches < 100 * length (filter (fun m => static f m = true) matches)) /\
  (pano1 f = true -> lat1 f m.1 = true) /\ (pano2 f = true -> lat2 f m.2 = true) /\
  (vermont1 f = true -> vermont_valid1 f m.1 = true) /\ (vermont2 f = true -> vermont_valid2 f m.2 = true) /\
  (blackvue1 f = true -> blackvue_valid1 f m.1 = true) /\ (blackvue2 f = true -> blackvue_valid2 f m.2 = true).
Proof.
  intros f matches. split; [apply adhoc_sublist|]. intros m. unfold apply_adhoc_filters.
  assert (forall a b g h l, m ∈ not_on_watermark a b g h l <-> m ∈ l /\ (a = true -> g m.1 = true) /\ (b = true -> h m.2 = true)) as Hw.
  { intros a b g h l. unfold not_on_watermark. destruct a, b; rewrite ?elem_of_list_filter; naive_solver. }
  assert (forall a b g h l, m ∈ not_on_pano_poles a b g h l <-> m ∈ l /\ (a = true -> g m.1 = true) /\ (b = true -> h m.2 = true)) as Hp.
  { intros a b g h l. unfold not_on_pano_poles. destruct a, b; cbn; rewrite ?elem_of_list_filter; destruct (g m.1), (h m.2); naive_solver. }
  rewrite !Hw, Hp.
  assert (m ∈ non_static_matches (static f) matches <-> m ∈ matches /\ (static f m = false \/ 85 * length matches < 100 * length (filter (fun m => static f m = true) matches))) as ->; [|tauto].
  unfold non_static_matches.
  assert (length (filter (fun m => static f m = false) matches) + length (filter (fun m => static f m = true) matches) = length matches) as Hl.
  { clear. induction matches as [|x l IH]; [done|]. rewrite !filter_cons. destruct (static f x); [rewrite (decide_False (P:=true = false)) by done; rewrite decide_True by done|rewrite decide_True by done; rewrite (decide_False (P:=false = true)) by done]; cbn [length]; lia. }
  case_decide as Hd.
  - split; [|tauto]. intros Hm. split; [done|]. right. destruct matches as [|x l]; [set_solver|]. cbn [length] in *. lia.
  - rewrite elem_of_list_filter. split; [tauto|]. intros [Hm [Hs|Hs]]; [tauto|]. exfalso. destruct matches as [|x l]; [set_solver|]. cbn [length] in *. lia.
Qed.
Print Assumptions C36_filters.
Example C36_nonvacuous :
  let f := Adhoc (fun m => bool_decide (m.1 = m.2)) true false (fun i => bool_decide (i < 5)) (fun _ => false) false false (fun _ => false) (fun _ => false) false false (fun _ => false) (fun _ => false) in
  apply_adhoc_filters f [(0, 0); (1, 2); (7, 3); (2, 1)] = [(1, 2); (2, 1)].
Proof. by vm_compute. Qed.
