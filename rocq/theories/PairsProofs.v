From stdpp Require Import prelude gmap strings sorting.
From Verif Require Import Base PairsModel PairsSpec.

(** ** Strings and sorted pairs *)
Lemma str_compare_eq a b : String.compare a b = Eq <-> a = b.
Proof. split; [apply String.compare_eq_iff|]. intros ->. destruct (String.compare b b) eqn:E; [done|..];
  pose proof (String.compare_antisym b b) as H; rewrite E in H; done. Qed.
Lemma ltb_antisym a b : a <> b -> String.ltb a b = negb (String.ltb b a).
Proof.
  intros H. unfold String.ltb. rewrite (String.compare_antisym a b). destruct (String.compare b a) eqn:E; simpl; try done.
  apply str_compare_eq in E. congruence.
Qed.
Lemma sorted_pair_comm a b : sorted_pair a b = sorted_pair b a.
Proof.
  unfold sorted_pair. destruct (decide (a = b)) as [->|Hne]; [done|]. rewrite (ltb_antisym a b Hne). by destruct (String.ltb b a).
Qed.
Lemma sorted_pair_cases a b : sorted_pair a b = (a, b) \/ sorted_pair a b = (b, a).
Proof. unfold sorted_pair. destruct (String.ltb a b); auto. Qed.
Lemma sorted_pair_inj a b c d : sorted_pair a b = sorted_pair c d <-> (a = c /\ b = d) \/ (a = d /\ b = c).
Proof.
  split.
  - destruct (sorted_pair_cases a b) as [->| ->], (sorted_pair_cases c d) as [->| ->]; intros [= -> ->]; auto.
  - intros [[-> ->]|[-> ->]]; [done|apply sorted_pair_comm].
Qed.
Lemma sorted_pair_ref a b c : sorted_pair a b = sorted_pair a c -> b = c.
Proof. rewrite sorted_pair_inj. intuition congruence. Qed.

(** ** ordered_pairs *)
Lemma push_spec m k v x y : y ∈ default [] (push m k v !! x) <-> y ∈ default [] (m !! x) \/ (x = k /\ y = v).
Proof.
  unfold push. destruct (decide (k = x)) as [->|Hne].
  - rewrite lookup_insert. simpl. rewrite elem_of_app, elem_of_list_singleton. naive_solver.
  - rewrite lookup_insert_ne by done. naive_solver.
Qed.
Lemma per_image_spec pairs x y : y ∈ default [] (per_image pairs !! x) <-> (x, y) ∈ pairs \/ (y, x) ∈ pairs.
Proof.
  unfold per_image. assert (forall m, y ∈ default [] (foldl (fun m '(im1, im2) => push (push m im1 im2) im2 im1) m pairs !! x) <->
    y ∈ default [] (m !! x) \/ (x, y) ∈ pairs \/ (y, x) ∈ pairs) as H.
  { induction pairs as [|[a b] pairs IH]; intros m; [set_solver|]. cbn [foldl]. rewrite IH, !push_spec, !elem_of_cons. naive_solver. }
  rewrite H, lookup_empty. set_solver.
Qed.

Section Ordered.
Variable pick : nat -> gset string -> string.
Hypothesis Hpick : picks pick.
Variable pairs : list pair.
Variable refs : gset string.
Hypothesis Hne : "" ∉ refs.
Notation adj x := (default [] (per_image pairs !! x)).

(** [done] : images whose adjacency list has been scanned *)
Record winv (dn : gset string) (w : walk) : Prop := {
  wi_from : forall a b, (a, b) ∈ w_ordered w -> a ∈ dn /\ b ∈ adj a;
  wi_once : forall a b, (a, b) ∈ w_ordered w -> (b, a) ∈ w_ordered w -> a = b;
  wi_all : forall a b, a ∈ dn -> b ∈ adj a -> (a, b) ∈ w_ordered w \/ (b, a) ∈ w_ordered w }.
(** the split of the references *)
Definition wsplit (dn : gset string) (w : walk) : Prop :=
  dn ∪ w_remaining w ∪ (match w_next w with Some x => {[ x ]} | None => ∅ end) = refs /\
  w_remaining w ⊆ refs /\
  match w_next w with Some x => x ∉ dn /\ x ∉ w_remaining w /\ x ∈ refs | None => True end /\ w_remaining w ## dn.

Lemma scan_spec im1 l : forall dn w, im1 ∈ dn -> (forall y, y ∈ l -> y ∈ adj im1) ->
  (forall a b, (a, b) ∈ w_ordered w -> a ∈ dn /\ b ∈ adj a) ->
  (forall a b, (a, b) ∈ w_ordered w -> (b, a) ∈ w_ordered w -> a = b) ->
  wsplit dn w ->
  let w' := scan im1 l w in
  (forall a b, (a, b) ∈ w_ordered w' -> a ∈ dn /\ b ∈ adj a) /\
  (forall a b, (a, b) ∈ w_ordered w' -> (b, a) ∈ w_ordered w' -> a = b) /\
  (forall y, y ∈ l -> (im1, y) ∈ w_ordered w' \/ (y, im1) ∈ w_ordered w') /\
  w_ordered w ⊆ w_ordered w' /\ wsplit dn w'.
Proof.
  induction l as [|y l IH]; intros dn w Hd Hadj H1 H2 H3 w'; [subst w'; split; [done|]; split; [done|]; split; [intros y Hy; by apply elem_of_nil in Hy|done]|].
  subst w'. cbn [scan].
  set (w1 := if decide _ then w else _).
  assert (w_ordered w ⊆ w_ordered w1) as Hsub.
  { subst w1. case_decide; [done|]. destruct (_ && _); simpl; apply union_subseteq_r. }
  assert (w_ordered w1 = w_ordered w \/ ((y, im1) ∉ w_ordered w /\ w_ordered w1 = {[ (im1, y) ]} ∪ w_ordered w)) as Hw1.
  { subst w1. case_decide; [by left|]. right. destruct (_ && _); simpl; done. }
  destruct (IH dn w1) as (I1 & I2 & I3 & I4 & I5).
  - done.
  - intros z Hz. apply Hadj. by right.
  - intros a b. destruct Hw1 as [->|[_ ->]]; [apply H1|]. intros [[= -> ->]%elem_of_singleton|?]%elem_of_union; [|by apply H1].
    split; [done|]. apply Hadj. by left.
  - intros a b. destruct Hw1 as [->|[Hn ->]]; [apply H2|]. intros [[= -> ->]%elem_of_singleton|Ha]%elem_of_union [Hb|Hb]%elem_of_union.
    + by apply elem_of_singleton in Hb as [= -> _].
    + done.
    + apply elem_of_singleton in Hb as [= -> ->]. done.
    + by apply H2.
  - subst w1. case_decide as Hdec; [done|]. destruct (negb (truthy (w_next w)) && bool_decide (y ∈ w_remaining w)) eqn:E; [|done].
    apply andb_prop in E as [E1 E2]. apply bool_decide_eq_true in E2. destruct H3 as (S1 & S2 & S3 & S4).
    assert (w_next w = None) as Hnone.
    { destruct (w_next w) as [x|] eqn:Ex; [|done]. simpl in E1. destruct S3 as (_ & _ & Hx). rewrite bool_decide_eq_true_2 in E1; [done|]. intros ->. done. }
    rewrite Hnone in S1, S3. clear -S1 S2 S4 E2. unfold wsplit. simpl. split_and!; [|set_solver..].
    apply set_eq. intros z. rewrite <- S1. rewrite !elem_of_union, !elem_of_difference, !elem_of_singleton.
    destruct (decide (z = y)) as [->|?]; naive_solver.
  - split; [done|]. split; [done|]. split; [|split; [by etrans|done]].
    intros z Hz. apply elem_of_cons in Hz as [->|Hz]; [|by apply I3].
    assert ((im1, y) ∈ w_ordered w1 \/ (y, im1) ∈ w_ordered w1) as [?|?]; [|by left; apply I4|by right; apply I4].
    subst w1. case_decide; [by right|]. left. destruct (_ && _); simpl; apply elem_of_union_l; by apply elem_of_singleton.
Qed.

Lemma visit_spec fuel : forall dn w, winv dn w -> wsplit dn w ->
  (w_next w = None -> w_remaining w = ∅) ->
  size (w_remaining w) + (if w_next w then 1 else 0) <= fuel ->
  exists out, visit pick fuel (per_image pairs) w = Ok out /\ winv refs (Walk None out ∅).
Proof.
  induction fuel as [|fuel IH]; intros dn w Hw Hs Hn Hf.
  - destruct (w_next w) eqn:E; [lia|]. simpl. rewrite E. exists (w_ordered w). split; [done|].
    assert (dn = refs) as <-. { destruct Hs as (S1 & _). rewrite E in S1. rewrite Hn in S1 by done. clear -S1. set_solver. }
    by destruct Hw as [W1 W2 W3].
  - cbn [visit]. destruct (w_next w) as [x|] eqn:E.
    2:{ exists (w_ordered w). split; [done|]. assert (dn = refs) as <-. { destruct Hs as (S1 & _). rewrite E in S1. rewrite Hn in S1 by done. clear -S1. set_solver. }
        by destruct Hw as [W1 W2 W3]. }
    pose proof Hs as (S1 & S2 & S3 & S4). rewrite E in S1, S3. destruct S3 as (Hx1 & Hx2 & Hx3).
    rewrite decide_False by (intros ->; done).
    set (dn' := {[ x ]} ∪ dn).
    destruct (scan_spec x (adj x) dn' (Walk None (w_ordered w) (w_remaining w))) as (I1 & I2 & I3 & I4 & I5).
    { apply elem_of_union_l. by apply elem_of_singleton. }
    { done. }
    { intros a b Hab. apply Hw in Hab as [Ha Hb]. split; [|done]. by apply elem_of_union_r. }
    { apply Hw. }
    { unfold wsplit. simpl. subst dn'. clear -S1 S2 S4 Hx1 Hx2 Hx3. split_and!; set_solver. }
    set (w1 := scan x (adj x) (Walk None (w_ordered w) (w_remaining w))) in *.
    set (w2 := if negb (truthy (w_next w1)) && bool_decide (w_remaining w1 <> ∅) then _ else w1).
    assert (w_ordered w2 = w_ordered w1) as Ho2 by (subst w2; by destruct (_ && _)).
    assert (forall y, w_next w1 = Some y -> y <> "") as Hy.
    { intros y Ey ->. destruct I5 as (_ & _ & J & _). rewrite Ey in J. by destruct J as (_ & _ & ?). }
    assert (size (w_remaining w1) + (if w_next w1 then 1 else 0) = size (w_remaining w)) as Hsz.
    { assert (w_remaining w = w_remaining w1 ∪ (match w_next w1 with Some y => {[ y ]} | None => ∅ end)) as Heq.
      { destruct I5 as (J1 & J2 & J3 & J4). subst dn'. clearbody w1. clear -J1 J2 J3 J4 S1 S2 S4 Hx1 Hx2 Hx3. apply set_eq. intros z. split; intros Hz.
        - assert (z ∈ refs) as Hzr by set_solver. rewrite <- J1 in Hzr. assert (z ∉ {[ x ]} ∪ dn) by set_solver. clear -Hzr H. set_solver.
        - apply elem_of_union in Hz as [Hz|Hz].
          + assert (z ∈ refs) as Hzr by set_solver. rewrite <- S1 in Hzr. clear -Hzr Hz J4. set_solver.
          + destruct (w_next w1) as [y|]; [|set_solver]. apply elem_of_singleton in Hz as ->. destruct J3 as (K1 & K2 & K3). rewrite <- S1 in K3. clear -K1 K3. set_solver. }
      rewrite Heq. destruct I5 as (_ & _ & J3 & _). clear -J3. destruct (w_next w1) as [y|].
      - rewrite size_union by set_solver. by rewrite size_singleton.
      - rewrite size_union by set_solver. by rewrite size_empty. }
    apply (IH dn' w2).
    + split; rewrite Ho2; [done|done|]. intros a b Ha Hb. subst dn'. apply elem_of_union in Ha as [->%elem_of_singleton|Ha]; [by apply I3|].
      destruct (wi_all _ _ Hw a b Ha Hb) as [?|?]; [left|right]; by apply I4.
    + subst w2. destruct (negb (truthy (w_next w1)) && bool_decide (w_remaining w1 <> ∅)) eqn:E2; [|done].
      apply andb_prop in E2 as [E3 E4]. apply bool_decide_eq_true in E4.
      destruct (w_next w1) as [y|] eqn:Ey. { simpl in E3. rewrite bool_decide_eq_true_2 in E3; [done|by apply Hy]. }
      destruct I5 as (J1 & J2 & J3 & J4). rewrite Ey in J1. pose proof (Hpick (S fuel) _ E4) as Hp. unfold wsplit. cbn [w_next w_ordered w_remaining].
      set (z := pick (S fuel) (w_remaining w1)) in *. clearbody z w1. clear -J1 J2 J4 Hp. split_and!; [|set_solver..].
      rewrite <- J1. apply set_eq. intros u. rewrite !elem_of_union, elem_of_difference, elem_of_singleton, elem_of_empty.
      destruct (decide (u = z)) as [->|?]; tauto.
    + subst w2. destruct (negb (truthy (w_next w1)) && bool_decide (w_remaining w1 <> ∅)) eqn:E2; [done|].
      intros En. rewrite En in E2. simpl in E2. apply bool_decide_eq_false in E2. by destruct (decide (w_remaining w1 = ∅)).
    + assert (size (w_remaining w2) + (if w_next w2 then 1 else 0) <= size (w_remaining w)); [|lia].
      rewrite <- Hsz. subst w2. destruct (negb (truthy (w_next w1)) && bool_decide (w_remaining w1 <> ∅)) eqn:E2; [|lia].
      apply andb_prop in E2 as [E3 E4]. apply bool_decide_eq_true in E4. cbn [w_next w_remaining].
      pose proof (Hpick (S fuel) _ E4) as Hp. clearbody w1. clear -Hp E4. rewrite size_difference by set_solver. rewrite size_singleton.
      assert (size (w_remaining w1) <> 0) by (intros ?%size_empty_inv; set_solver). lia.
Qed.
End Ordered.

Lemma ordered_pairs_ok pick (Hpick : picks pick) pairs refs : "" ∉ refs ->
  exists out, ordered_pairs pick pairs refs = Ok out /\ orients out (list_to_set pairs) refs.
Proof.
  intros Hne. unfold ordered_pairs. set (R := list_to_set refs : gset string).
  assert (forall out, winv pairs R (Walk None out ∅) -> orients out (list_to_set pairs) refs) as Hfin.
  { intros out [W1 W2 W3]. simpl in *. split.
    - intros a b Hab. apply W1 in Hab as [Ha _]. subst R. set_solver.
    - intros a b Hab. apply W1 in Hab as [_ Hb]. apply per_image_spec in Hb. set_solver.
    - done.
    - intros a b Hab [Ha|Hb].
      + apply W3; [subst R; set_solver|]. apply per_image_spec. set_solver.
      + destruct (W3 b a); [subst R; set_solver|apply per_image_spec; set_solver|auto|auto]. }
  case_decide as HR.
  { exists ∅. split; [done|]. apply Hfin. rewrite HR. split; simpl; set_solver. }
  pose proof (Hpick (S (size R)) R HR) as Hp. set (x := pick (S (size R)) R) in *.
  destruct (visit_spec pick Hpick pairs R) with (fuel := size R) (dn := ∅ : gset string) (w := Walk (Some x) ∅ (R ∖ {[ x ]})) as (out & Hout & Hw).
  - subst R. set_solver.
  - split; simpl; set_solver.
  - unfold wsplit. simpl. split_and!; [|set_solver..]. apply set_eq. intros z. rewrite !elem_of_union, elem_of_difference, elem_of_singleton. destruct (decide (z = x)) as [->|?]; set_solver.
  - done.
  - simpl. rewrite size_difference by set_solver. rewrite size_singleton. assert (size R <> 0) by (intros ?%size_empty_inv; set_solver). lia.
  - exists out. split; [done|]. by apply Hfin.
Qed.

(** ** Sequence order *)
Lemma by_order_elem refs cands mx p : p ∈ candidates_by_order refs cands mx <->
  (0 < mx)%Z /\ exists i j r c, refs !! i = Some r /\ cands !! j = Some c /\ r <> c /\ p = sorted_pair r c /\
    i - Z.to_nat ((mx + 1) / 2) <= j < i + Z.to_nat ((mx + 1) / 2).
Proof.
  unfold candidates_by_order. case_decide as Hmx.
  { split; [set_solver|]. intros [? _]. lia. }
  set (n := Z.to_nat ((mx + 1) / 2)). rewrite elem_of_list_to_set, elem_of_list_join. split.
  - intros (l & Hp & Hl). split; [lia|]. apply elem_of_lookup_imap in Hl as (i & r & -> & Hr).
    apply elem_of_list_omap in Hp as (j & Hj & Hc). apply elem_of_seq in Hj.
    destruct (cands !! j) as [c|] eqn:Ec; [|done]. simpl in Hc. case_decide; [|done]. injection Hc as <-.
    exists i, j, r, c. split_and!; try done; lia.
  - intros (_ & i & j & r & c & Hr & Hc & Hne & -> & Hij).
    eexists. split; [|apply elem_of_lookup_imap; exists i, r; split; [reflexivity|done]].
    apply elem_of_list_omap. exists j. split.
    + apply elem_of_seq. apply lookup_lt_Some in Hc. lia.
    + rewrite Hc. simpl. by rewrite decide_True.
Qed.

(** ** All pairs *)
Lemma all_pairs_elem refs cands p : p ∈ all_pairs refs cands <-> exists r c, r ∈ refs /\ c ∈ cands /\ r <> c /\ p = sorted_pair r c.
Proof.
  unfold all_pairs. rewrite elem_of_list_to_set, elem_of_list_join. split.
  - intros (l & Hp & Hl). apply elem_of_list_fmap in Hl as (r & -> & Hr). apply elem_of_list_omap in Hp as (c & Hc & Hd).
    case_decide; [|done]. injection Hd as <-. eauto 10.
  - intros (r & c & Hr & Hc & Hne & ->). eexists. split; [|apply elem_of_list_fmap; exists r; split; [reflexivity|done]].
    apply elem_of_list_omap. exists c. split; [done|]. by rewrite decide_True.
Qed.

Lemma crosses_sorted refs cands r c : r <> c -> r ∈ refs -> c ∈ cands -> crosses refs cands (sorted_pair r c).
Proof. intros. unfold crosses. destruct (sorted_pair_cases r c) as [-> | ->]; simpl; auto. Qed.
Lemma crosses_comm refs cands a b : crosses refs cands (sorted_pair a b) <-> a <> b /\ (a ∈ refs /\ b ∈ cands \/ b ∈ refs /\ a ∈ cands).
Proof. unfold crosses. destruct (sorted_pair_cases a b) as [-> | ->]; simpl; intuition congruence. Qed.

(** ** Nearest neighbours *)
Section Knn.
Context {D Pt : Type} (le : D -> D -> Prop) `{!RelDecision le}.
Variable query : list Pt -> Pt -> nat -> D -> list nat.

Lemma ref_neighbours_elem points point r cands k bound l : ref_neighbours query points point r cands k bound = Ok l ->
  forall p, p ∈ l <-> exists j c, j ∈ query points point (Z.to_nat (if decide (r ∈ cands) then k + 1 else k)) bound /\ cands !! j = Some c /\ c <> r /\ p = sorted_pair r c.
Proof.
  unfold ref_neighbours. intros H. case_decide; [done|]. injection H as <-. intros p. rewrite elem_of_list_omap. split.
  - intros (j & Hj & Hc). destruct (cands !! j) as [c|] eqn:Ec; [|done]. simpl in Hc. case_decide; [|done]. injection Hc as <-. eauto 10.
  - intros (j & c & Hj & Hc & Hne & ->). exists j. split; [done|]. rewrite Hc. simpl. by rewrite decide_True.
Qed.
Lemma all_neighbours_elem points at_ refs cands k bound l : all_neighbours query points at_ refs cands k bound = Ok l ->
  forall p, p ∈ l <-> exists r pt l', r ∈ refs /\ at_ r = Some pt /\ ref_neighbours query points pt r cands k bound = Ok l' /\ p ∈ l'.
Proof.
  revert l. induction refs as [|r rs IH]; intros l H p; cbn [all_neighbours] in H.
  - injection H as <-. split; [intros ?%elem_of_nil; done|]. intros (r & _ & _ & ?%elem_of_nil & _). done.
  - destruct (at_ r) as [pt|] eqn:Ept; cbn [of_option res_bind] in H; [|done].
    destruct (ref_neighbours query points pt r cands k bound) as [l1|e] eqn:E1; cbn [res_bind] in H; [|done].
    destruct (all_neighbours query points at_ rs cands k bound) as [l2|e] eqn:E2; cbn [res_bind] in H; [|done]. injection H as <-.
    rewrite elem_of_app, (IH l2 eq_refl). split.
    + intros [Hp|(r' & pt' & l' & Hr & ?)].
      * exists r, pt, l1. split; [by left|done].
      * exists r', pt', l'. split; [by right|done].
    + intros (r' & pt' & l' & Hr & Hat & Hn & Hp). apply elem_of_cons in Hr as [->|Hr]; [left; congruence|]. right. eauto 10.
Qed.
Lemma all_neighbours_crosses points at_ refs cands k bound l : all_neighbours query points at_ refs cands k bound = Ok l ->
  forall p, p ∈ l -> crosses refs cands p.
Proof.
  intros H p Hp. apply (all_neighbours_elem _ _ _ _ _ _ _ H) in Hp as (r & pt & l' & Hr & _ & Hn & Hp).
  apply (ref_neighbours_elem _ _ _ _ _ _ _ Hn) in Hp as (j & c & _ & Hc & Hne & ->). apply crosses_sorted; [done|done|]. by eapply elem_of_list_lookup_2.
Qed.
Lemma by_distance_crosses zero big origin gps refs cands mx md s :
  candidates_by_distance le zero big origin query gps refs cands mx md = Ok s -> forall p, p ∈ s -> crosses refs cands p.
Proof.
  unfold candidates_by_distance. intros H p Hp. case_decide; [injection H as <-; set_solver|].
  destruct (_ && _); [injection H as <-; set_solver|]. case_decide; [injection H as <-; set_solver|].
  destruct (decide (length (filter _ _) < length cands)); [done|].
  destruct (foldr _ _ cands) as [rows|e]; cbn [res_bind] in H; [|done].
  destruct (all_neighbours _ _ _ _ _ _ _) as [l|e] eqn:E in H; cbn [res_bind] in H; [|done]. injection H as <-.
  apply elem_of_list_to_set in Hp. by eapply all_neighbours_crosses.
Qed.
Lemma by_time_crosses infinity time refs cands mx s :
  candidates_by_time query infinity time refs cands mx = Ok s -> forall p, p ∈ s -> crosses refs cands p.
Proof.
  unfold candidates_by_time. intros H p Hp. case_decide; [injection H as <-; set_solver|].
  destruct (foldr _ _ cands) as [rows|e]; cbn [res_bind] in H; [|done].
  destruct (all_neighbours _ _ _ _ _ _ _) as [l|e] eqn:E in H; cbn [res_bind] in H; [|done]. injection H as <-.
  apply elem_of_list_to_set in Hp. by eapply all_neighbours_crosses.
Qed.
End Knn.

(** ** Visual similarity *)
Section Hist.
Context {D : Type} (le : D -> D -> Prop) `{!RelDecision le}.
Lemma put_pairs_dom im (l : list (image * D)) m p : p ∈ dom (put_pairs im l m) <-> p ∈ dom m \/ exists im2, im2 ∈ l.*1 /\ p = sorted_pair im im2.
Proof.
  unfold put_pairs. revert m. induction l as [|[im2 d] l IH]; intros m; [set_solver|]. cbn [foldl]. rewrite IH, dom_insert, elem_of_union, elem_of_singleton, fmap_cons.
  setoid_rewrite elem_of_cons. naive_solver.
Qed.
(** what split_cameras keeps: the first [n] of each class *)
Lemma split_cameras_spec (cam : image -> string) im n (l : list (image * D)) : forall same other,
  length same <= n -> length other <= n ->
  split_cameras cam im n l same other =
    (take n (same ++ filter (fun x => cam x.1 = cam im) l), take n (other ++ filter (fun x => cam x.1 <> cam im) l)).
Proof.
  induction l as [|[im2 d] l IH]; intros same other Hs Ho; cbn [split_cameras].
  - rewrite !filter_nil, !app_nil_r. by rewrite !take_ge by lia.
  - rewrite !filter_cons. simpl. destruct (decide (cam im2 = cam im)) as [Hc|Hc].
    + rewrite (decide_False (P := cam im2 <> cam im)) by tauto. destruct (decide (length same < n)) as [Hl|Hl].
      * case_decide as H2.
        -- rewrite app_length in H2. simpl in H2. rewrite (take_app_alt other) by lia.
           f_equal. rewrite (app_assoc same [(im2, d)] (filter _ l) : same ++ (im2, d) :: filter _ l = _). by rewrite (take_app_alt (same ++ _)) by (rewrite app_length; simpl; lia).
        -- rewrite IH; [|rewrite app_length; simpl; lia|done]. by rewrite <- app_assoc.
      * assert (length same = n) as Hn by lia. case_decide as H2.
        -- rewrite !take_app_alt by lia. done.
        -- rewrite IH by done. f_equal. by rewrite !take_app_alt by lia.
    + rewrite (decide_True (P := cam im2 <> cam im)) by done. destruct (decide (length other < n)) as [Hl|Hl].
      * case_decide as H2.
        -- rewrite app_length in H2. simpl in H2. rewrite (take_app_alt same) by lia.
           f_equal. rewrite (app_assoc other [(im2, d)] (filter _ l) : other ++ (im2, d) :: filter _ l = _). by rewrite (take_app_alt (other ++ _)) by (rewrite app_length; simpl; lia).
        -- rewrite IH; [|done|rewrite app_length; simpl; lia]. by rewrite <- app_assoc.
      * assert (length other = n) as Hn by lia. case_decide as H2.
        -- rewrite !take_app_alt by lia. done.
        -- rewrite IH by done. f_equal. by rewrite !take_app_alt by lia.
Qed.
Lemma pairs_from_neighbors_eq cam im (ds : list D) order other n :
  pairs_from_neighbors cam im ds order other n =
  put_pairs im (take n (filter (fun x => cam x.1 = cam im) (in_order order ds other)) ++ take n (filter (fun x => cam x.1 <> cam im) (in_order order ds other))) ∅.
Proof. unfold pairs_from_neighbors. rewrite split_cameras_spec by (simpl; lia). done. Qed.
Lemma in_order_elem order (ds : list D) other x : x ∈ in_order order ds other -> x.1 ∈ other.
Proof.
  unfold in_order. intros (i & _ & H)%elem_of_list_omap. destruct (other !! i) as [im2|] eqn:E; [|done]. simpl in H. destruct (ds !! i); [|done].
  injection H as <-. by eapply elem_of_list_lookup_2.
Qed.
Lemma construct_pairs_dom cam n enforce (argsort : list D -> list nat) results : forall m p,
  p ∈ dom (construct_pairs argsort cam results n enforce m) -> p ∈ dom m \/ exists im ds other im2, (im, ds, other) ∈ results /\ im2 ∈ other /\ p = sorted_pair im im2.
Proof.
  induction results as [|[[im ds] other] rs IH]; intros m p Hp; cbn [construct_pairs] in Hp; [by left|].
  apply IH in Hp as [Hp|(im' & ds' & other' & im2 & Hin & ?)]; [|right; exists im', ds', other', im2; split; [by right|done]].
  destruct enforce.
  - rewrite dom_union, elem_of_union in Hp. destruct Hp as [Hp|Hp]; [|by left]. rewrite pairs_from_neighbors_eq in Hp.
    apply put_pairs_dom in Hp as [Hp|(im2 & Hin & ->)]; [set_solver|]. right. exists im, ds, other, im2. split; [by left|]. split; [|done].
    apply elem_of_list_fmap in Hin as (x & -> & Hx). apply elem_of_app in Hx as [Hx|Hx]; apply elem_of_take in Hx as (i & Hx & _);
      apply elem_of_list_lookup_2 in Hx; apply elem_of_list_filter in Hx as [_ Hx]; by eapply in_order_elem.
  - apply put_pairs_dom in Hp as [Hp|(im2 & Hin & ->)]; [by left|]. right. exists im, ds, other, im2. split; [by left|]. split; [|done].
    apply elem_of_list_fmap in Hin as (x & -> & Hx). by eapply in_order_elem.
Qed.
Lemma hist_distances_elem {H} (hdist : H -> H -> D) hist im others im2 : im2 ∈ (hist_distances hdist hist im others).2 -> im2 ∈ others /\ im2 <> im.
Proof.
  unfold hist_distances. destruct (hist im) as [h|]; simpl; [|by intros ?%elem_of_nil].
  intros ([d x] & -> & (y & Hy & Hx)%elem_of_list_omap)%elem_of_list_fmap. case_decide; [|done]. destruct (hist y); [|done]. simpl in Hx. injection Hx as _ <-. done.
Qed.
Lemma hist_distances_image {H} (hdist : H -> H -> D) hist im others : (hist_distances hdist hist im others).1.1 = im.
Proof. unfold hist_distances. by destruct (hist im). Qed.
End Hist.

Lemma push_assoc_elem k v l k' v' vs' : (k', vs') ∈ push_assoc k v l -> v' ∈ vs' -> (k' = k /\ v' = v) \/ exists vs, (k', vs) ∈ l /\ v' ∈ vs.
Proof.
  induction l as [|[k0 vs0] l IH]; cbn [push_assoc].
  - intros [= -> ->]%elem_of_list_singleton ->%elem_of_list_singleton. by left.
  - case_decide as Hk.
    + intros [[= -> ->]|Hin]%elem_of_cons Hv.
      * apply elem_of_app in Hv as [Hv| ->%elem_of_list_singleton]; [|by left]. right. exists vs0. split; [by left|done].
      * right. exists vs'. split; [by right|done].
    + intros [[= -> ->]|Hin]%elem_of_cons Hv.
      * right. exists vs0. split; [by left|done].
      * apply IH in Hin as [?|(vs & ? & ?)]; [by left| |done]. right. exists vs. split; [by right|done].
Qed.

Section Pre.
Context {D Pt : Type} (le : D -> D -> Prop) `{!RelDecision le}.
Variable zero big : D. Variable origin : Pt.
Variable query : list Pt -> Pt -> nat -> D -> list nat.
Variable enumP : gset pair -> list pair.
Hypothesis HP : forall s p, p ∈ enumP s <-> p ∈ s.
Variable argsort : list D -> list nat.
Lemma preempt_elem gps refs cands gn gd pre : preempt_candidates le zero big origin query enumP gps refs cands gn gd = Ok pre ->
  forall im cs c, (im, cs) ∈ pre -> c ∈ cs -> c <> im -> crosses refs cands (sorted_pair im c).
Proof.
  unfold preempt_candidates. intros H im cs c Hin Hc Hne. destruct (_ || _).
  - destruct (candidates_by_distance _ _ _ _ _ _ _ _ _ _) as [s|e] eqn:E; cbn [res_bind] in H; [|done]. injection H as <-.
    assert (forall l acc im cs c, (forall p, p ∈ l -> crosses refs cands p) ->
      (forall im cs c, (im, cs) ∈ acc -> c ∈ cs -> crosses refs cands (sorted_pair im c)) ->
      (im, cs) ∈ foldl (fun acc '(p0, p1) => let acc1 := if decide (p0 ∈ refs) then push_assoc p0 p1 acc else acc in
          if decide (p1 ∈ refs) then push_assoc p1 p0 acc1 else acc1) acc l -> c ∈ cs -> crosses refs cands (sorted_pair im c)) as Hgen.
    { clear. induction l as [|[p0 p1] l IH]; intros acc im cs c Hl Hacc Hin Hc; [by eapply Hacc|]. cbn [foldl] in Hin.
      eapply IH; [intros p Hp; apply Hl; by right| |exact Hin|exact Hc].
      assert (crosses refs cands (sorted_pair p0 p1)) as Hx.
      { specialize (Hl (p0, p1) (elem_of_list_here _ _)). apply crosses_comm. exact Hl. }
      intros im' cs' c' Hin' Hc'. cbn zeta in Hin'.
      assert (forall im cs c, (im, cs) ∈ (if decide (p0 ∈ refs) then push_assoc p0 p1 acc else acc) -> c ∈ cs -> crosses refs cands (sorted_pair im c)) as H1.
      { intros im1 cs1 c1 Hi1 Hc1. case_decide; [|by eapply Hacc]. destruct (push_assoc_elem _ _ _ _ _ _ Hi1 Hc1) as [[-> ->]|(vs & ? & ?)]; [done|by eapply Hacc]. }
      destruct (decide (p1 ∈ refs)); [|by eapply H1].
      destruct (push_assoc_elem _ _ _ _ _ _ Hin' Hc') as [[-> ->]|(vs & ? & ?)]; [by rewrite sorted_pair_comm|by eapply H1]. }
    eapply Hgen; [| |exact Hin|exact Hc].
    + intros p Hp. apply HP in Hp. by eapply by_distance_crosses.
    + intros ? ? ? ?%elem_of_nil. done.
  - injection H as <-. apply elem_of_list_fmap in Hin as (im' & [= -> ->] & Hr). rewrite elem_of_remove_dups in Hr. apply crosses_sorted; [congruence|done|done].
Qed.
Lemma hist_crosses {H} (hdist : H -> H -> D) hist refs cands cam (f : list string -> list string) pre n enforce p :
  (forall l x, x ∈ f l -> x ∈ l) ->
  (forall im cs c, (im, cs) ∈ pre -> c ∈ cs -> c <> im -> crosses refs cands (sorted_pair im c)) ->
  p ∈ dom (construct_pairs argsort cam (map (fun '(im, cs) => hist_distances hdist hist im (f cs)) pre) n enforce ∅) -> crosses refs cands p.
Proof.
  intros Hf Hpre Hp. apply construct_pairs_dom in Hp as [Hp|(im & ds & other & im2 & Hin & Hi2 & ->)]; [set_solver|].
  apply elem_of_list_fmap in Hin as ([im' cs] & Heq & Hin).
  pose proof (hist_distances_image hdist hist im' (f cs)) as H1. pose proof (hist_distances_elem hdist hist im' (f cs) im2) as H2.
  rewrite <- Heq in H1, H2. simpl in H1, H2. subst im'. destruct (H2 Hi2) as [Hic Hne]. eapply Hpre; eauto.
Qed.
Lemma bow_crosses {H} (hdist : H -> H -> D) gps hist cam refs cands n gd gn enforce m :
  candidates_with_bow le zero big origin query argsort enumP hdist gps hist cam refs cands n gd gn enforce = Ok m ->
  forall p, p ∈ dom m -> crosses refs cands p.
Proof.
  unfold candidates_with_bow. intros Hm p Hp. case_decide; [injection Hm as <-; set_solver|].
  destruct (preempt_candidates _ _ _ _ _ _ _ _ _ _ _) as [pre|e] eqn:E; cbn [res_bind] in Hm; [|done]. injection Hm as <-.
  eapply (hist_crosses hdist hist refs cands cam id); [done| |exact Hp]. by eapply preempt_elem.
Qed.
Lemma vlad_crosses {H} (hdist : H -> H -> D) gps hist cam refs cands n gd gn enforce m :
  candidates_with_vlad le zero big origin query argsort enumP hdist gps hist cam refs cands n gd gn enforce = Ok m ->
  forall p, p ∈ dom m -> crosses refs cands p.
Proof.
  unfold candidates_with_vlad. intros Hm p Hp. case_decide; [injection Hm as <-; set_solver|].
  destruct (preempt_candidates _ _ _ _ _ _ _ _ _ _ _) as [pre|e] eqn:E; cbn [res_bind] in Hm; [|done]. injection Hm as <-.
  eapply (hist_crosses hdist hist refs cands cam (fun l => merge_sort names_le (remove_dups l))); [| |exact Hp].
  - intros l x. rewrite merge_sort_Permutation. apply elem_of_remove_dups.
  - case_decide; [|by eapply preempt_elem]. intros im cs c (im' & [= -> ->] & Hr)%elem_of_list_fmap Hc Hne. rewrite elem_of_remove_dups in Hr. apply crosses_sorted; [congruence|done|done].
Qed.
End Pre.

Lemma by_graph_crosses images triangles refs cands rounds p : p ∈ candidates_by_graph images triangles refs cands rounds -> crosses refs cands p.
Proof.
  unfold candidates_by_graph. destruct (_ || _); [set_solver|]. intros Hp. apply elem_of_list_to_set, elem_of_list_omap in Hp as ([v1 v2] & _ & Hp).
  destruct (images !! v1) as [i1|]; [|done]. simpl in Hp. destruct (images !! v2) as [i2|]; [|done]. simpl in Hp.
  case_decide; [done|]. case_decide as Hd; [|done]. injection Hp as <-. apply crosses_comm. tauto.
Qed.
Lemma by_order_crosses refs cands mx p : p ∈ candidates_by_order refs cands mx -> crosses refs cands p.
Proof.
  intros (_ & i & j & r & c & Hr & Hc & Hne & -> & _)%by_order_elem. apply crosses_sorted; [done|by eapply elem_of_list_lookup_2..].
Qed.

(** ** match_candidates *)
Lemma crosses_perm refs refs' cands p : refs ≡ₚ refs' -> crosses refs cands p -> crosses refs' cands p.
Proof. intros Hp [? H]. split; [done|]. by rewrite <- Hp. Qed.
Lemma orients_perm out sel refs refs' : refs ≡ₚ refs' -> orients out sel refs -> orients out sel refs'.
Proof. intros Hp [H1 H2 H3 H4]. split; [|done|done|].
  - intros a b Hab. rewrite <- Hp. by eapply H1.
  - intros a b Hab. rewrite <- Hp. by apply H4.
Qed.
Lemma match_candidates_sel {D Pt T H : Type} (le : D -> D -> Prop) `{!RelDecision le} zero big infinity (origin : Pt) query (time_query : list T -> T -> nat -> D -> list nat)
    argsort enumP (hdist : H -> H -> D) pick cfg all_gps gps time bow vlad cam gi tr refs cands out :
  (forall s p, p ∈ enumP s <-> p ∈ s) -> picks pick -> "" ∉ refs ->
  match_candidates le zero big infinity origin query time_query argsort enumP hdist pick cfg all_gps gps time bow vlad cam gi tr refs cands = Ok out ->
  exists sel : gset pair, (forall p, p ∈ sel -> crosses refs cands p) /\ orients out sel refs /\
    (~ all_disabled le zero (if all_gps then matching_gps_distance cfg else zero) (if all_gps then matching_gps_neighbors cfg else 0%Z) (matching_time_neighbors cfg)
      (matching_order_neighbors cfg) (matching_bow_neighbors cfg) (matching_vlad_neighbors cfg) (if all_gps then matching_graph_rounds cfg else 0%Z) ->
     let rs := merge_sort names_le refs in
     exists d t b v,
      candidates_by_distance le zero big origin query gps rs cands (if all_gps then matching_gps_neighbors cfg else 0%Z) (if all_gps then matching_gps_distance cfg else zero) = Ok d /\
      candidates_by_time time_query infinity time rs cands (matching_time_neighbors cfg) = Ok t /\
      candidates_with_bow le zero big origin query argsort enumP hdist gps bow cam rs cands (matching_bow_neighbors cfg) (matching_bow_gps_distance cfg) (matching_bow_gps_neighbors cfg) (matching_bow_other_cameras cfg) = Ok b /\
      candidates_with_vlad le zero big origin query argsort enumP hdist gps vlad cam rs cands (matching_vlad_neighbors cfg) (matching_vlad_gps_distance cfg) (matching_vlad_gps_neighbors cfg) (matching_vlad_other_cameras cfg) = Ok v /\
      sel = d ∪ candidates_by_graph gi tr rs cands (if all_gps then matching_graph_rounds cfg else 0%Z) ∪ t ∪ candidates_by_order rs cands (matching_order_neighbors cfg) ∪ dom b ∪ dom v).
Proof.
  intros HP Hpick Hne. unfold match_candidates.
  set (rs := merge_sort names_le refs). assert (rs ≡ₚ refs) as Hrs by apply merge_sort_Permutation.
  assert ("" ∉ rs) as Hne' by by rewrite Hrs.
  assert (forall sel, (forall p, p ∈ sel -> crosses rs cands p) -> ordered_pairs pick (enumP sel) rs = Ok out -> (forall p, p ∈ sel -> crosses refs cands p) /\ orients out sel refs) as Hfin.
  { intros sel Hsel Ho. split; [intros p Hp; eapply crosses_perm; [exact Hrs|by apply Hsel]|].
    destruct (ordered_pairs_ok pick Hpick (enumP sel) rs Hne') as (out' & E & Hor). rewrite Ho in E. injection E as <-.
    apply (orients_perm _ _ _ _ Hrs). replace sel with (list_to_set (enumP sel) : gset pair) at 1; [done|]. apply leibniz_equiv. intros p. rewrite elem_of_list_to_set. apply HP. }
  case_decide as Hdis; cbn [res_bind].
  - intros Ho. exists (all_pairs rs cands). destruct (Hfin (all_pairs rs cands)) as [? ?]; [|done|done].
    intros p (r & c & ? & ? & ? & ->)%all_pairs_elem. by apply crosses_sorted.
  - destruct (candidates_by_distance _ _ _ _ _ _ _ _ _ _) as [d|] eqn:Ed; cbn [res_bind]; [|done].
    destruct (candidates_by_time _ _ _ _ _ _) as [t|] eqn:Et; cbn [res_bind]; [|done].
    destruct (candidates_with_bow _ _ _ _ _ _ _ _ _ _ _ _ _ _ _ _ _) as [b|] eqn:Eb; cbn [res_bind]; [|done].
    destruct (candidates_with_vlad _ _ _ _ _ _ _ _ _ _ _ _ _ _ _ _ _) as [v|] eqn:Ev; cbn [res_bind]; [|done].
    set (sel := _ ∪ dom v). intros Ho. exists sel. destruct (Hfin sel) as [H1 H2]; [|exact Ho|split; [exact H1|split; [exact H2|intros _; exists d, t, b, v; done]]]. unfold sel.
    intros p. rewrite !elem_of_union. intros [[[[[Hp|Hp]|Hp]|Hp]|Hp]|Hp].
    + by eapply by_distance_crosses.
    + by eapply by_graph_crosses.
    + by eapply by_time_crosses.
    + by eapply by_order_crosses.
    + by eapply bow_crosses.
    + by eapply vlad_crosses.
Qed.
