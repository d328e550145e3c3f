(** C15-C19: selection of the image pairs to match. *)
From stdpp Require Import prelude gmap strings sorting.
From Verif Require Import Base PairsModel PairsSpec PairsProofs PairsKnnProofs.

(** ** C15 *)
(** For every set of pairs in every iteration order, every list of reference images with non-empty names and every
    behaviour of set.pop: the pairs returned are those touching a reference image, once each, from a reference image. *)
Theorem C15_ordered_pairs : forall pick, picks pick -> forall pairs refs, "" ∉ refs ->
  exists out, ordered_pairs pick pairs refs = Ok out /\ orients out (list_to_set pairs) refs.
Proof. exact ordered_pairs_ok. Qed.
Print Assumptions C15_ordered_pairs.

(** The whole selection, whatever the strategies, the metric, the trees and histograms answer: when it returns, every pair
    returned goes from a reference image to a different image, one is a reference and the other a candidate, no pair is
    returned both ways. *)
Theorem C15_match_candidates :
  forall (D Pt T H : Type) (le : D -> D -> Prop) (le_dec : RelDecision le) zero big infinity origin query time_query argsort enumP hdist pick cfg all_gps gps time bow vlad cam graph_images triangles refs cands out,
  (forall s p, p ∈ enumP s <-> p ∈ s) -> picks pick -> "" ∉ refs ->
  @match_candidates D Pt T le le_dec zero big infinity origin query time_query argsort enumP H hdist pick cfg all_gps gps time bow vlad cam graph_images triangles refs cands = Ok out ->
  (forall a b, (a, b) ∈ out -> a ∈ refs /\ a <> b /\ (b ∈ cands \/ b ∈ refs /\ a ∈ cands) /\ (b, a) ∉ out).
Proof.
  intros D Pt T H le le_dec zero big infinity origin query time_query argsort enumP hdist pick cfg all_gps gps time bow vlad cam gi tr refs cands out HP Hpick Hne Hout a b Hab.
  destruct (match_candidates_sel _ _ _ _ _ _ _ _ _ _ _ _ _ _ _ _ _ _ _ _ _ _ _ HP Hpick Hne Hout) as (sel & Hcr & Hor & _).
  destruct Hor as [Hf Hs Ho _].
  assert (a <> b /\ (a ∈ refs /\ b ∈ cands \/ b ∈ refs /\ a ∈ cands)) as [Hd Hc].
  { destruct (Hs a b Hab) as [Hp|Hp]; apply Hcr in Hp as [Hd Hc]; simpl in *; split; try done; intuition. }
  split_and!; [by eapply Hf|done|intuition|]. intros Hba. by apply Hd, Ho.
Qed.
Print Assumptions C15_match_candidates.

(** Nothing selected is lost: unless all strategies are disabled, the result orients the union of what the strategies
    select. *)
Theorem C15_all_strategies :
  forall (D Pt T H : Type) (le : D -> D -> Prop) (le_dec : RelDecision le) zero big infinity (origin : Pt) query (time_query : list T -> T -> nat -> D -> list nat)
    argsort enumP (hdist : H -> H -> D) pick cfg gps time bow vlad cam gi tr refs cands out,
  (forall s p, p ∈ enumP s <-> p ∈ s) -> picks pick -> "" ∉ refs ->
  ~ all_disabled le zero (matching_gps_distance cfg) (matching_gps_neighbors cfg) (matching_time_neighbors cfg)
      (matching_order_neighbors cfg) (matching_bow_neighbors cfg) (matching_vlad_neighbors cfg) (matching_graph_rounds cfg) ->
  match_candidates le zero big infinity origin query time_query argsort enumP hdist pick cfg true gps time bow vlad cam gi tr refs cands = Ok out ->
  exists sorted_refs sel, sorted_refs ≡ₚ refs /\ orients out sel refs /\ exists d t b v,
    candidates_by_distance le zero big origin query gps sorted_refs cands (matching_gps_neighbors cfg) (matching_gps_distance cfg) = Ok d /\
    candidates_by_time time_query infinity time sorted_refs cands (matching_time_neighbors cfg) = Ok t /\
    candidates_with_bow le zero big origin query argsort enumP hdist gps bow cam sorted_refs cands (matching_bow_neighbors cfg) (matching_bow_gps_distance cfg) (matching_bow_gps_neighbors cfg) (matching_bow_other_cameras cfg) = Ok b /\
    candidates_with_vlad le zero big origin query argsort enumP hdist gps vlad cam sorted_refs cands (matching_vlad_neighbors cfg) (matching_vlad_gps_distance cfg) (matching_vlad_gps_neighbors cfg) (matching_vlad_other_cameras cfg) = Ok v /\
    forall p, p ∈ sel <-> p ∈ d \/ p ∈ candidates_by_graph gi tr sorted_refs cands (matching_graph_rounds cfg) \/ p ∈ t \/
      p ∈ candidates_by_order sorted_refs cands (matching_order_neighbors cfg) \/ is_Some (b !! p) \/ is_Some (v !! p).
Proof.
  intros D Pt T H le le_dec zero big infinity origin query time_query argsort enumP hdist pick cfg gps time bow vlad cam gi tr refs cands out HP Hpick Hne Hdis Hout.
  destruct (match_candidates_sel _ _ _ _ _ _ _ _ _ _ _ _ _ _ _ _ _ _ _ _ _ _ _ HP Hpick Hne Hout) as (sel & _ & Hor & Hsel).
  destruct (Hsel Hdis) as (d & t & b & v & Hd & Ht & Hb & Hv & ->).
  eexists _, _. split; [apply (merge_sort_Permutation names_le)|]. split; [exact Hor|]. exists d, t, b, v. split_and!; [done..|].
  intros p. rewrite !elem_of_union, !elem_of_dom. tauto.
Qed.
Print Assumptions C15_all_strategies.

Definition pick_first (_ : nat) (s : gset string) : string := default "" (head (elements s)).
Lemma picks_first : picks pick_first.
Proof.
  intros n s Hs. unfold pick_first. destruct (elements s) as [|x l] eqn:E; [apply elements_empty_iff in E; by apply leibniz_equiv in E|].
  simpl. apply elem_of_elements. rewrite E. by left.
Qed.
Example C15_nonvacuous :
  match ordered_pairs pick_first [("a", "b"); ("b", "c"); ("c", "d"); ("d", "e")] ["b"; "c"] with
  | Ok out => size out = 3 /\ (("b", "c") ∈ out \/ ("c", "b") ∈ out) /\ ("b", "a") ∈ out /\ ("c", "d") ∈ out
  | Err _ => False end.
Proof. vm_compute. repeat split; auto. Qed.
(** An empty image name would stop the loop early: its truth value is False. *)
Theorem C15_empty_name_refuted :
  exists pick, picks pick /\ exists pairs refs, match ordered_pairs pick pairs refs with
    | Ok out => ~ orients out (list_to_set pairs) refs | Err _ => True end.
Proof.
  assert (picks pick_first) as Hpick by apply picks_first. generalize dependent pick_first. intros pick Hpick.
  exists pick. split; [done|]. exists [("", "b")], [""].
  assert (ordered_pairs pick [("", "b")] [""] = Ok ∅) as ->.
  { unfold ordered_pairs. case_decide; [done|]. assert (pick (S (size (list_to_set [""] : gset string))) (list_to_set [""]) = "") as ->.
    { assert (pick (S (size (list_to_set [""] : gset string))) (list_to_set [""]) ∈ (list_to_set [""] : gset string)) as Hp by by apply Hpick. set_solver. }
    unfold visit. destruct (size _); simpl; done. }
  intros [_ _ _ H]. destruct (H "" "b"); set_solver.
Qed.
Print Assumptions C15_empty_name_refuted.

(** ** C16 *)
(** With every strategy disabled (for the GPS ones also when some image has no position), the selection returns, and returns
    every pair of a reference and a different candidate, once, and nothing else. *)
Theorem C16_exhaustive :
  forall (D Pt T H : Type) (le : D -> D -> Prop) (le_dec : RelDecision le) zero big infinity (origin : Pt) query (time_query : list T -> T -> nat -> D -> list nat)
    argsort enumP (hdist : H -> H -> D) pick cfg (all_gps : bool) gps time bow vlad cam gi tr refs cands,
  (forall s p, p ∈ enumP s <-> p ∈ s) -> picks pick -> "" ∉ refs -> le zero zero ->
  (all_gps = true -> le (matching_gps_distance cfg) zero /\ le zero (matching_gps_distance cfg) /\ matching_gps_neighbors cfg = 0%Z /\ matching_graph_rounds cfg = 0%Z) ->
  matching_time_neighbors cfg = 0%Z -> matching_order_neighbors cfg = 0%Z -> matching_bow_neighbors cfg = 0%Z -> matching_vlad_neighbors cfg = 0%Z ->
  exists out, match_candidates le zero big infinity origin query time_query argsort enumP hdist pick cfg all_gps gps time bow vlad cam gi tr refs cands = Ok out /\
    (forall r c, r ∈ refs -> c ∈ cands -> r <> c -> (r, c) ∈ out \/ (c, r) ∈ out) /\
    (forall a b, (a, b) ∈ out -> a ∈ refs /\ a <> b /\ (b ∈ cands \/ b ∈ refs /\ a ∈ cands) /\ (b, a) ∉ out).
Proof.
  intros D Pt T H le le_dec zero big infinity origin query time_query argsort enumP hdist pick cfg all_gps gps time bow vlad cam gi tr refs cands HP Hpick Hne Hz Hg Ht Ho Hb Hv.
  destruct (match_candidates _ _ _ _ _ _ _ _ _ _ _ _ _ _ _ _ _ _ _ _ _ _) as [out|e] eqn:E.
  - exists out. split; [done|]. split; [|by eapply C15_match_candidates].
    intros r c Hr Hc Hrc. revert E. unfold match_candidates. rewrite decide_True.
    2:{ unfold all_disabled. destruct all_gps; [destruct (Hg eq_refl) as (? & ? & ? & ?)|]; split_and!; done. }
    cbn [res_bind]. set (rs := merge_sort names_le refs). assert (rs ≡ₚ refs) as Hrs by apply merge_sort_Permutation. intros E.
    destruct (ordered_pairs_ok pick Hpick (enumP (all_pairs rs cands)) rs) as (out' & E' & Hor); [by rewrite Hrs|]. rewrite E in E'. injection E' as <-.
    destruct Hor as [_ _ _ Hall].
    assert (sorted_pair r c ∈ all_pairs rs cands) as Hin by (apply all_pairs_elem; exists r, c; by rewrite Hrs).
    apply HP, (elem_of_list_to_set (C := gset pair)) in Hin.
    destruct (sorted_pair_cases r c) as [Hs|Hs]; rewrite Hs in Hin; apply Hall in Hin; rewrite ?Hrs; tauto.
  - exfalso. revert E. unfold match_candidates. rewrite decide_True.
    2:{ unfold all_disabled. destruct all_gps; [destruct (Hg eq_refl) as (? & ? & ? & ?)|]; split_and!; done. }
    cbn [res_bind]. set (rs := merge_sort names_le refs). assert (rs ≡ₚ refs) as Hrs by apply merge_sort_Permutation. intros E.
    destruct (ordered_pairs_ok pick Hpick (enumP (all_pairs rs cands)) rs) as (out' & E' & Hor); [by rewrite Hrs|]. congruence.
Qed.
Print Assumptions C16_exhaustive.

(** ** C17 *)
(** For every sequence of distinct images and every n: the pairs of images at distance 1 to ceil(n/2) in the sequence. *)
Theorem C17_order : forall (images : list string) (n : Z), NoDup images ->
  forall i j a b, images !! i = Some a -> images !! j = Some b ->
  (sorted_pair a b ∈ candidates_by_order images images n <-> (0 < n)%Z /\ (1 <= Z.abs (Z.of_nat i - Z.of_nat j) <= (n + 1) / 2)%Z).
Proof.
  intros images n Hnd i j a b Ha Hb. rewrite by_order_elem.
  assert (forall i j x, images !! i = Some x -> images !! j = Some x -> i = j) as Hinj by (intros; by eapply NoDup_lookup).
  split.
  - intros (Hn & i' & j' & r & c & Hr & Hc & Hrc & Hp & Hij). split; [done|].
    assert (0 <= (n + 1) / 2)%Z by (apply Z.div_pos; lia).
    apply sorted_pair_inj in Hp as [[-> ->]|[-> ->]].
    + rewrite (Hinj i' i r) in Hij by done. rewrite (Hinj j' j c) in Hij by done.
      assert (i <> j) by (intros ->; congruence). lia.
    + rewrite (Hinj i' j r) in Hij by done. rewrite (Hinj j' i c) in Hij by done.
      assert (i <> j) by (intros ->; congruence). lia.
  - intros [Hn Hij]. split; [done|]. assert (a <> b) as Hab by (intros ->; rewrite (Hinj i j b) in Hij by done; lia).
    destruct (decide (i < j)).
    + exists j, i, b, a. split_and!; [done|done|done|apply sorted_pair_comm|lia|lia].
    + exists i, j, a, b. split_and!; [done|done|done|done|lia|lia].
Qed.
Print Assumptions C17_order.
(** ... and only such pairs. *)
Theorem C17_order_only : forall (images : list string) (n : Z) p, p ∈ candidates_by_order images images n ->
  exists i j a b, images !! i = Some a /\ images !! j = Some b /\ a <> b /\ p = sorted_pair a b.
Proof. intros images n p (_ & i & j & r & c & ? & ? & ? & ? & _)%by_order_elem. eauto 10. Qed.
Print Assumptions C17_order_only.
Example C17_nonvacuous : NoDup ["a"; "b"; "c"; "d"; "e"] /\
  bool_decide (candidates_by_order ["a"; "b"; "c"; "d"; "e"] ["a"; "b"; "c"; "d"; "e"] 3 = list_to_set [("a", "b"); ("b", "c"); ("c", "d"); ("d", "e"); ("a", "c"); ("b", "d"); ("c", "e")]) = true.
Proof. split; [by apply (bool_decide_unpack _); vm_compute|]. by vm_compute. Qed.
(** When only some of the images are references, the position of a reference among the references is used as its position
    among the candidates: "e", the last image, is paired with the first ones. *)
Theorem C17_reference_subset_refuted :
  exists refs cands n, NoDup cands /\ sublist refs cands /\
    ~ (forall i j a b, cands !! i = Some a -> cands !! j = Some b -> a ∈ refs ->
      sorted_pair a b ∈ candidates_by_order refs cands n -> (1 <= Z.abs (Z.of_nat i - Z.of_nat j) <= (n + 1) / 2)%Z).
Proof.
  exists ["e"], ["a"; "b"; "c"; "d"; "e"], 2%Z. split; [by apply (bool_decide_unpack _); vm_compute|]. split; [repeat constructor|].
  intros H. specialize (H 4 0 "e" "a" eq_refl eq_refl). destruct H as [_ H]; [set_solver| |vm_compute in H; congruence].
  apply by_order_elem. split; [done|]. exists 0, 0, "e", "a". split_and!; [done..|vm_compute; lia|vm_compute; lia].
Qed.
Print Assumptions C17_reference_subset_refuted.

(** ** C18 *)
(** pairs_from_neighbors: for every distance function [d] from the image [im], every list of other images without
    repetition, every sorting function: it keeps, with their distances, the [n] nearest images of the same camera and the
    [n] nearest images of other cameras, and nothing else. *)
Theorem C18_pairs_from_neighbors :
  forall (D : Type) (le : D -> D -> Prop) argsort (cam : string -> string) (d : string -> D) im other n, sorts le argsort -> NoDup other ->
  exists same others,
    n_nearest le d n (filter (fun x => cam x = cam im) other) same /\
    n_nearest le d n (filter (fun x => cam x <> cam im) other) others /\
    forall p v, pairs_from_neighbors cam im (map d other) (argsort (map d other)) other n !! p = Some v <->
      exists x, (x ∈ same \/ x ∈ others) /\ p = sorted_pair im x /\ v = d x.
Proof.
  intros D le argsort cam d im other n Hs Hnd. eexists _, _. split; [by apply filter_nearest|]. split; [by apply filter_nearest|].
  intros p v. rewrite pairs_from_neighbors_kept, put_pairs_some. unfold kept. rewrite lookup_empty. setoid_rewrite elem_of_app. naive_solver.
Qed.
Print Assumptions C18_pairs_from_neighbors.

(** The whole selection by visual words when no GPS preselection is asked for. With other cameras enforced: for each
    reference image with a histogram, exactly the [n] nearest candidates of its camera and the [n] nearest of other cameras;
    otherwise the [n] nearest candidates. [d h c]: the histogram distance of candidate [c]. *)
Theorem C18_bow :
  forall (D Pt H : Type) (le : D -> D -> Prop) (le_dec : RelDecision le) zero big (origin : Pt) query argsort enumP (hdist : H -> H -> D) gps hist cam refs cands n gd gn,
  sorts le argsort -> NoDup cands -> (0 < n)%Z -> le gd zero -> (gn <= 0)%Z ->
  let d h c := match hist c with Some h2 => hdist h h2 | None => zero end in
  let others r := filter (fun c => c <> r /\ is_Some (hist c)) cands in
  (exists m, candidates_with_bow le zero big origin query argsort enumP hdist gps hist cam refs cands n gd gn true = Ok m /\
    exists same other : string -> list string,
      (forall p, is_Some (m !! p) <-> exists r c, r ∈ refs /\ is_Some (hist r) /\ (c ∈ same r \/ c ∈ other r) /\ p = sorted_pair r c) /\
      forall r h, hist r = Some h ->
        n_nearest le (d h) (Z.to_nat n) (filter (fun c => cam c = cam r) (others r)) (same r) /\
        n_nearest le (d h) (Z.to_nat n) (filter (fun c => cam c <> cam r) (others r)) (other r)) /\
  (exists m, candidates_with_bow le zero big origin query argsort enumP hdist gps hist cam refs cands n gd gn false = Ok m /\
    exists sel : string -> list string,
      (forall p, is_Some (m !! p) <-> exists r c, r ∈ refs /\ is_Some (hist r) /\ c ∈ sel r /\ p = sorted_pair r c) /\
      forall r h, hist r = Some h -> n_nearest le (d h) (Z.to_nat n) (others r) (sel r)).
Proof.
  intros D Pt H le le_dec zero big origin query argsort enumP hdist gps hist cam refs cands n gd gn Hs Hnd Hn Hgd Hgn d others.
  assert (forall enforce, exists m, candidates_with_bow le zero big origin query argsort enumP hdist gps hist cam refs cands n gd gn enforce = Ok m /\
    forall p, is_Some (m !! p) <-> exists r c, r ∈ refs /\ is_Some (hist r) /\ c ∈ kept argsort (hd zero hdist hist r) cam r (Z.to_nat n) enforce (others r) /\ p = sorted_pair r c) as Hk.
  { intros enforce. unfold candidates_with_bow. rewrite decide_False by lia. unfold preempt_candidates.
    rewrite (bool_decide_eq_true_2 (le gd zero)) by done. rewrite (bool_decide_eq_false_2 (0 < gn)%Z) by lia. cbn [negb orb res_bind].
    eexists. split; [done|]. intros p. rewrite <- elem_of_dom, (construct_pairs_lookup le argsort Hs (hd zero hdist hist)).
    - rewrite dom_empty. split.
      + intros [?|(im & ds & o & c & Hin & Hc & ->)]; [set_solver|]. apply elem_of_list_fmap in Hin as ([r cs] & Heq & Hin).
        apply elem_of_list_fmap in Hin as (r' & [= -> ->] & Hr). rewrite (hist_distances_eq zero) in Heq. rewrite elem_of_remove_dups in Hr.
        destruct (hist r') as [h|] eqn:E; injection Heq as -> -> ->.
        * exists r', c. split_and!; [done|by eexists|done|done].
        * apply (kept_sub le argsort Hs) in Hc. by apply elem_of_nil in Hc.
      + intros (r & c & Hr & [h Hh] & Hc & ->). right. exists r, (map (hd zero hdist hist r) (others r)), (others r), c. split_and!; [|done|done].
        apply elem_of_list_fmap. exists (r, cands). rewrite (hist_distances_eq zero), Hh. split; [done|]. apply elem_of_list_fmap. exists r. split; [done|]. by apply elem_of_remove_dups.
    - intros im ds o Hin. apply elem_of_list_fmap in Hin as ([r cs] & Heq & Hin). rewrite (hist_distances_eq zero) in Heq. destruct (hist r); by injection Heq as -> -> ->. }
  assert (forall r, NoDup (others r)) as Hno by (intros r; by apply NoDup_filter).
  assert (forall r h, hist r = Some h -> hd zero hdist hist r = d h) as Hhd.
  { intros r h Hh. unfold hd, d. by rewrite Hh. }
  split.
  - destruct (Hk true) as (m & -> & Hm). exists m. split; [done|].
    exists (fun r => take (Z.to_nat n) (filter (fun x => cam x = cam r) (ranked argsort (hd zero hdist hist r) (others r)))),
           (fun r => take (Z.to_nat n) (filter (fun x => cam x <> cam r) (ranked argsort (hd zero hdist hist r) (others r)))).
    split.
    + intros p. rewrite Hm. unfold kept. by setoid_rewrite elem_of_app.
    + intros r h Hh. rewrite (Hhd r h Hh). split; by apply filter_nearest.
  - destruct (Hk false) as (m & -> & Hm). exists m. split; [done|].
    exists (fun r => take (Z.to_nat n) (ranked argsort (hd zero hdist hist r) (others r))). split.
    + exact Hm.
    + intros r h Hh. rewrite (Hhd r h Hh). by apply all_nearest.
Qed.
Print Assumptions C18_bow.

(** A sorting function for distances in Z, and an instance where the classes matter: with n = 1, the two nearest images share
    the camera of "r", only one is kept, and the distant image of the other camera is kept too. *)
Definition zle (ds : list Z) (i j : nat) : Prop := (default 0 (ds !! i) <= default 0 (ds !! j))%Z.
Global Instance zle_dec ds : RelDecision (zle ds).
Proof. intros i j. unfold zle. apply _. Defined.
Definition zsort (ds : list Z) : list nat := merge_sort (zle ds) (seq 0 (length ds)).
Lemma zsort_sorts : sorts Z.le zsort.
Proof.
  intros ds. split; [apply merge_sort_Permutation|]. intros i j a b x y Hij Ha Hb Hx Hy.
  assert (StronglySorted (zle ds) (zsort ds)) as Hs.
  { apply Sorted_StronglySorted; [intros ? ? ?; unfold zle; lia|]. apply Sorted_merge_sort. intros ? ?; unfold zle; lia. }
  pose proof (strongly_sorted_lookup _ _ _ _ _ _ Hs Hij Ha Hb) as H. unfold zle in H. rewrite Hx, Hy in H. done.
Qed.
Example C18_nonvacuous : sorts Z.le zsort /\
  let d := fun x => match x with "a" => 3%Z | "b" => 2%Z | "c" => 9%Z | _ => 0%Z end in
  let cam := fun x => match x with "c" => "cam2" | _ => "cam1" end in
  let m := pairs_from_neighbors cam "r" (map d ["a"; "b"; "c"]) (zsort (map d ["a"; "b"; "c"])) ["a"; "b"; "c"] 1 in
  map_to_list m ≡ₚ [(("b", "r"), 2%Z); (("c", "r"), 9%Z)].
Proof. split; [apply zsort_sorts|]. vm_compute. apply Permutation_swap || done. Qed.

(** ** C19 *)
(** References among the candidates. For every layout [pos], every metric, every correct nearest neighbour query: the
    selection returns, and pairs each reference [r] exactly with the images of [sel r], which are the k nearest candidates
    other than [r] nearer than the maximum distance, k being the number of neighbours asked for (0 standing for no limit;
    the maximum distance 0 standing for no limit too). When another image is as near to [r] as [r] itself (taken at the same
    position), the query may return it in place of [r], and there may be k+1 of them. *)
Theorem C19_distance_partial :
  forall (D Pt : Type) (le : D -> D -> Prop) (le_dec : RelDecision le) zero big (origin : Pt) (dist : Pt -> Pt -> D) query gps pos refs cands (neighbours : Z) (distance : D),
  total_preorder le -> nearest_query le dist query ->
  NoDup cands -> refs ⊆ cands -> (forall im, im ∈ cands -> gps im = Some (pos im)) ->
  (0 <= neighbours)%Z -> (0 < neighbours)%Z \/ ~ le distance zero ->
  let k := if decide (neighbours = 0)%Z then length cands `min` Z.to_nat 99999999 else length cands `min` Z.to_nat neighbours in
  let bound := if decide (le distance zero /\ le zero distance) then big else distance in
  exists out, candidates_by_distance le zero big origin query gps refs cands neighbours distance = Ok out /\
  exists sel : string -> list string,
    (forall p, p ∈ out <-> exists r c, r ∈ refs /\ c ∈ sel r /\ p = sorted_pair r c) /\
    forall r, r ∈ refs -> let class := filter (other_within le dist pos bound r) cands in
      (exists k', (k' = k \/ k' = S k) /\ n_nearest le (fun c => dist (pos r) (pos c)) k' class (sel r)) /\
      ((forall c, c ∈ cands -> c <> r -> ~ le (dist (pos r) (pos c)) (dist (pos r) (pos r))) -> n_nearest le (fun c => dist (pos r) (pos c)) k class (sel r)).
Proof.
  intros D Pt le le_dec zero big origin dist query gps pos refs cands mx md Hle Hq Hnd Hsub Hgps Hmx Hlim k bound.
  assert (forall r, r ∈ refs -> r ∈ cands) as Hsub' by (intros; by apply Hsub).
  destruct (all_neighbours_ok le dist pos Hle query Hq gps refs cands k bound Hnd) as (l & Hl & sel & Hsel & Hnear); [auto|by right|].
  unfold candidates_by_distance. case_decide as Hc.
  - exists ∅. split; [done|]. exists (fun _ => []). subst cands. split.
    + intros p. split; [set_solver|]. intros (? & ? & _ & ?%elem_of_nil & _). done.
    + intros r Hr. apply Hsub' in Hr. by apply elem_of_nil in Hr.
  - replace (bool_decide (mx <= 0)%Z && bool_decide (le md zero)) with false.
    2:{ destruct Hlim as [?|?]; [rewrite bool_decide_eq_false_2 by lia; done|]. rewrite (bool_decide_eq_false_2 (le md zero)) by done. by rewrite andb_false_r. }
    assert (remove_dups (cands ++ refs) ≡ₚ cands) as Hall.
    { apply NoDup_Permutation; [apply NoDup_remove_dups|done|]. intros x. rewrite elem_of_remove_dups, elem_of_app. split; [intros [?|?]; auto|auto]. }
    assert (filter (fun im => is_Some (gps im)) (remove_dups (cands ++ refs)) = remove_dups (cands ++ refs)) as ->.
    { assert (forall L : list string, (forall x, x ∈ L -> is_Some (gps x)) -> filter (fun im => is_Some (gps im)) L = L) as Hf.
      { induction L as [|x L IH]; intros HL; [done|]. rewrite filter_cons, decide_True by (apply HL; by left). f_equal. apply IH. intros; apply HL; by right. }
      apply Hf. intros x. rewrite Hall. intros Hx. rewrite Hgps by done. by eexists. }
    assert (length (remove_dups (cands ++ refs)) = length cands) as HL by by rewrite Hall.
    rewrite decide_False by lia. rewrite decide_False by lia.
    rewrite (rows_ok pos gps cands Hgps). cbn [res_bind]. rewrite HL, Nat.sub_diag. cbn [replicate]. rewrite app_nil_r. fold bound.
    replace (Z.of_nat (length cands) `min` (if decide (mx = 0) then 99999999 else mx))%Z with (Z.of_nat k) by (unfold k; case_decide; lia).
    rewrite Hl. cbn [res_bind]. eexists. split; [done|]. exists sel. split.
    + intros p. rewrite elem_of_list_to_set. apply Hsel.
    + intros r Hr. destruct (Hnear r Hr) as [(k' & Hk' & Hn) Hstr]. split; [|exact Hstr]. exists k'. split; [tauto|done].
Qed.
Print Assumptions C19_distance_partial.

(** The same for capture times, where the references need not be candidates. *)
Theorem C19_time :
  forall (D T : Type) (le : D -> D -> Prop) (le_dec : RelDecision le) infinity (dist : T -> T -> D) query time at_ refs cands (neighbours : Z),
  total_preorder le -> nearest_query le dist query ->
  NoDup cands -> cands <> [] -> (forall im, im ∈ refs \/ im ∈ cands -> time im = Some (at_ im)) -> (0 < neighbours)%Z ->
  let k := length cands `min` Z.to_nat neighbours in
  exists out, candidates_by_time query infinity time refs cands neighbours = Ok out /\
  exists sel : string -> list string,
    (forall p, p ∈ out <-> exists r c, r ∈ refs /\ c ∈ sel r /\ p = sorted_pair r c) /\
    forall r, r ∈ refs -> let class := filter (other_within le dist at_ infinity r) cands in
      (exists k', (k' = k \/ r ∈ cands /\ k' = S k) /\ n_nearest le (fun c => dist (at_ r) (at_ c)) k' class (sel r)) /\
      ((forall c, c ∈ cands -> c <> r -> ~ le (dist (at_ r) (at_ c)) (dist (at_ r) (at_ r))) -> n_nearest le (fun c => dist (at_ r) (at_ c)) k class (sel r)).
Proof.
  intros D T le le_dec infinity dist query time at_ refs cands mx Hle Hq Hnd Hne Ht Hmx k.
  destruct (all_neighbours_ok le dist at_ Hle query Hq time refs cands k infinity Hnd) as (l & Hl & sel & Hsel & Hnear); [auto| |].
  { left. unfold k. destruct cands; [done|]. cbn [length]. lia. }
  unfold candidates_by_time. rewrite decide_False by lia. rewrite (rows_ok at_ time cands) by auto. cbn [res_bind].
  replace (Z.of_nat (length cands) `min` mx)%Z with (Z.of_nat k) by (unfold k; lia). rewrite Hl. cbn [res_bind]. eexists. split; [done|]. exists sel. split; [|done].
  intros p. rewrite elem_of_list_to_set. apply Hsel.
Qed.
Print Assumptions C19_time.

(** The hypotheses can be met: exhaustive search is a correct query, and here is a layout on a line. *)
Definition line_dist (a b : Z) : Z := Z.abs (a - b).
Definition line_query := brute_query Z.le line_dist.
Lemma Zle_total : total_preorder Z.le.
Proof. split_and!; intros; lia. Qed.
Definition line_pos (im : string) : Z := match im with "a" => 0 | "b" => 10 | "c" => 13 | "d" => 40 | _ => 1 end%Z.
Example C19_nonvacuous : total_preorder Z.le /\ nearest_query Z.le line_dist line_query /\
  match candidates_by_distance Z.le 0%Z 99999999%Z 0%Z line_query (fun im => Some (line_pos im)) ["a"; "b"] ["a"; "b"; "c"; "d"] 1 30%Z with
  | Ok out => elements out ≡ₚ [("a", "b"); ("b", "c")] | Err _ => False end.
Proof. split; [apply Zle_total|]. split; [apply brute_nearest, Zle_total|]. vm_compute. apply Permutation_swap || done. Qed.

(** References outside of the candidates: each of them adds a row of zeros to the searched points, and a row at the origin
    hides the nearest candidate. Here "e" at 1 has nearest candidate "b" at 10, but gets no pair at all. *)
Theorem C19_separate_references_refuted :
  exists query refs cands pos k, nearest_query Z.le line_dist query /\ NoDup cands /\ NoDup refs /\ k = 1%Z /\
    candidates_by_distance Z.le 0%Z 99999999%Z 0%Z query (fun im => Some (pos im)) refs cands k 100%Z = Ok ∅ /\
    exists r c, r ∈ refs /\ c ∈ cands /\ (line_dist (pos r) (pos c) < 100)%Z.
Proof.
  exists line_query, ["e"], ["b"; "c"], line_pos, 1%Z. split; [apply brute_nearest, Zle_total|]. split; [by apply (bool_decide_unpack _); vm_compute|].
  split; [by apply (bool_decide_unpack _); vm_compute|]. split; [done|]. split; [by vm_compute|]. exists "e", "b". split_and!; [set_solver|set_solver|done].
Qed.
Print Assumptions C19_separate_references_refuted.
