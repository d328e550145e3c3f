(** Nearest neighbour selections: what the k-d tree queries and the sorted histogram distances keep. *)
From stdpp Require Import prelude gmap strings sorting.
From Verif Require Import Base PairsModel PairsSpec PairsProofs.

Lemma filter_ne_length (r : string) (l : list string) : NoDup l -> (r ∈ l -> S (length (filter (fun c => c <> r) l)) = length l) /\ (r ∉ l -> filter (fun c => c <> r) l = l).
Proof.
  induction l as [|x l IH]; intros Hnd; [split; [by intros ?%elem_of_nil|done]|].
  apply NoDup_cons in Hnd as [Hx Hnd]. destruct (IH Hnd) as [IH1 IH2]. rewrite filter_cons. case_decide as Hxr.
  - split.
    + intros [->|Hr]%elem_of_cons; [done|]. cbn [length]. by rewrite IH1.
    + intros Hr. f_equal. apply IH2. set_solver.
  - subst x. split; [|set_solver]. intros _. cbn [length]. by rewrite IH2.
Qed.
Lemma omap_lookup_length {A} (l : list A) (is_ : list nat) : (forall i, i ∈ is_ -> i < length l) -> length (omap (fun i => l !! i) is_) = length is_.
Proof.
  induction is_ as [|i is_ IH]; intros H; [done|]. cbn. destruct (lookup_lt_is_Some_2 l i) as [x ->]; [apply H; by left|]. cbn. f_equal. apply IH. intros. apply H. by right.
Qed.
Lemma omap_lookup_nodup {A} (l : list A) (is_ : list nat) : NoDup l -> NoDup is_ -> NoDup (omap (fun i => l !! i) is_).
Proof.
  intros Hl. induction is_ as [|i is_ IH]; intros H; [constructor|]. apply NoDup_cons in H as [Hi H]. cbn. destruct (l !! i) as [x|] eqn:E; [|by apply IH].
  constructor; [|by apply IH]. intros (j & Hj & Ej)%elem_of_list_omap. pose proof (NoDup_lookup _ _ _ _ Hl E Ej) as ->. done.
Qed.

Section Knn.
Context {D Pt : Type} (le : D -> D -> Prop) `{!RelDecision le}.
Variable dist : Pt -> Pt -> D.
Variable pos : string -> Pt.
Hypothesis Hle : total_preorder le.

Definition near (cands : list string) (r : string) (js : list nat) : list string := filter (fun c => c <> r) (omap (fun j => cands !! j) js).

Lemma near_ok cands r k bound js : NoDup cands ->
  answers le dist (map pos cands) (pos r) (if decide (r ∈ cands) then S k else k) bound js ->
  let class := filter (other_within le dist pos bound r) cands in
  (exists k', (k' = k \/ r ∈ cands /\ k' = S k) /\ n_nearest le (fun c => dist (pos r) (pos c)) k' class (near cands r js)) /\
  ((forall c, c ∈ cands -> c <> r -> ~ le (dist (pos r) (pos c)) (dist (pos r) (pos r))) -> n_nearest le (fun c => dist (pos r) (pos c)) k class (near cands r js)).
Proof.
  intros Hnd (hits & -> & Hlen & Hnh & Hin & Hmiss) class. set (nn := if decide (r ∈ cands) then S k else k) in *.
  rewrite map_length in *.
  assert (forall j, j ∈ hits -> exists c, cands !! j = Some c /\ ~ le bound (dist (pos r) (pos c))) as Hin'.
  { intros j Hj. destruct (Hin j Hj) as (q & Hq & Hb). apply list_lookup_fmap_inv in Hq as (c & -> & Hc). eauto. }
  assert (omap (fun j => cands !! j) (hits ++ replicate (nn - length hits) (length cands)) = omap (fun j => cands !! j) hits) as Hnames.
  { rewrite omap_app. replace (omap _ (replicate _ _)) with (@nil string); [by rewrite app_nil_r|]. generalize (nn - length hits). intros m. induction m as [|m IH]; [done|].
    cbn. rewrite lookup_ge_None_2 by lia. done. }
  unfold near. rewrite Hnames. set (names := omap (fun j => cands !! j) hits).
  assert (NoDup names) as Hnn by by apply omap_lookup_nodup.
  assert (length names = length hits) as Hln.
  { apply omap_lookup_length. intros i Hi. destruct (Hin' i Hi) as (c & Hc & _). by eapply lookup_lt_Some. }
  assert (forall c, c ∈ names -> c ∈ cands /\ ~ le bound (dist (pos r) (pos c))) as Hname.
  { intros c (j & Hj & Hc)%elem_of_list_omap. destruct (Hin' j Hj) as (c' & Hc' & Hb). rewrite Hc in Hc'. injection Hc' as ->. split; [by eapply elem_of_list_lookup_2|done]. }
  assert (forall c, c ∈ cands -> ~ le bound (dist (pos r) (pos c)) -> c ∉ names -> length names = nn /\ forall c', c' ∈ names -> le (dist (pos r) (pos c')) (dist (pos r) (pos c))) as Hmiss'.
  { intros c Hc Hb Hnin. apply elem_of_list_lookup in Hc as [j Hj].
    destruct (Hmiss j (pos c)) as [Hl Hd]; [by rewrite list_lookup_fmap, Hj|done| |].
    - intros Hj'. apply Hnin. apply elem_of_list_omap. eauto.
    - split; [congruence|]. intros c' (i & Hi & Hc')%elem_of_list_omap. apply (Hd i); [done|]. by rewrite list_lookup_fmap, Hc'. }
  destruct (filter_ne_length r names Hnn) as [Hf1 Hf2].
  assert (forall k', length (filter (fun c => c <> r) names) <= k' -> (length names = nn -> length (filter (fun c => c <> r) names) = k') ->
    n_nearest le (fun c => dist (pos r) (pos c)) k' class (filter (fun c => c <> r) names)) as Hfin.
  { intros k' Hk1 Hk2. split.
    - by apply NoDup_filter.
    - intros x [Hxr Hx]%elem_of_list_filter. apply Hname in Hx as [Hx Hb]. apply elem_of_list_filter. split; [by split|done].
    - done.
    - intros x [[Hxr Hb] Hx]%elem_of_list_filter Hns. destruct (Hmiss' x Hx Hb) as [Hl Hd].
      { intros Hxn. apply Hns, elem_of_list_filter. done. }
      split; [by apply Hk2|]. intros y [_ Hy]%elem_of_list_filter. by apply Hd. }
  split.
  - destruct (decide (r ∈ cands)) as [Hr|Hr]; subst nn.
    + destruct (decide (r ∈ names)) as [Hrn|Hrn].
      * exists k. split; [by left|]. specialize (Hf1 Hrn). apply Hfin; lia.
      * exists (S k). split; [by right|]. rewrite (Hf2 Hrn) in *. apply Hfin; lia.
    + exists k. split; [by left|]. assert (r ∉ names) as Hrn by (intros Hx; by apply Hr, Hname). rewrite (Hf2 Hrn) in *. apply Hfin; lia.
  - intros Hstrict. destruct (decide (r ∈ cands)) as [Hr|Hr]; subst nn.
    + destruct (decide (r ∈ names)) as [Hrn|Hrn]; [specialize (Hf1 Hrn); apply Hfin; lia|].
      (* the own point is missed although it is the nearest: nothing is within the bound *)
      assert (names = []) as Hnil.
      { destruct names as [|c names']; [done|]. exfalso. assert (c ∈ c :: names') as Hc by by left. destruct (Hname c Hc) as [Hcc Hb].
        assert (c <> r) as Hcr by (intros ->; by apply Hrn).
        assert (~ le bound (dist (pos r) (pos r))) as Hbr.
        { intros Hbr. apply Hb. destruct Hle as (_ & Htr & Htot). apply (Htr _ _ _ Hbr). destruct (Htot (dist (pos r) (pos r)) (dist (pos r) (pos c))); [done|].
          exfalso. by apply (Hstrict c Hcc Hcr). }
        destruct (Hmiss' r Hr Hbr Hrn) as [_ Hd]. by apply (Hstrict c Hcc Hcr), Hd. }
      assert (length (filter (fun c => c <> r) names) = 0) as Hz by by rewrite Hnil.
      assert (~ exists c, c ∈ cands /\ ~ le bound (dist (pos r) (pos c))) as Hno.
      { intros (c & Hc & Hb). destruct (Hmiss' c Hc Hb) as [Hl _]; [rewrite Hnil; set_solver|]. rewrite Hnil in Hl. done. }
      split; [by apply NoDup_filter|rewrite Hnil; set_solver|lia|].
      intros x [[Hxr Hb] Hx]%elem_of_list_filter _. exfalso. apply Hno. eauto.
    + assert (r ∉ names) as Hrn by (intros Hx; by apply Hr, Hname). rewrite (Hf2 Hrn) in *. apply Hfin; lia.
Qed.

Variable query : list Pt -> Pt -> nat -> D -> list nat.
Hypothesis Hq : nearest_query le dist query.

Lemma all_neighbours_ok at_ refs cands (k : nat) bound : NoDup cands -> (forall im, im ∈ refs -> at_ im = Some (pos im)) ->
  (0 < k \/ forall r, r ∈ refs -> r ∈ cands) ->
  exists l, all_neighbours query (map pos cands) at_ refs cands (Z.of_nat k) bound = Ok l /\
    exists sel : string -> list string,
      (forall p, p ∈ l <-> exists r c, r ∈ refs /\ c ∈ sel r /\ p = sorted_pair r c) /\
      forall r, r ∈ refs -> let class := filter (other_within le dist pos bound r) cands in
        (exists k', (k' = k \/ r ∈ cands /\ k' = S k) /\ n_nearest le (fun c => dist (pos r) (pos c)) k' class (sel r)) /\
        ((forall c, c ∈ cands -> c <> r -> ~ le (dist (pos r) (pos c)) (dist (pos r) (pos r))) -> n_nearest le (fun c => dist (pos r) (pos c)) k class (sel r)).
Proof.
  intros Hnd Hat Hk.
  set (sel := fun r => near cands r (query (map pos cands) (pos r) (if decide (r ∈ cands) then S k else k) bound)).
  assert (forall r, r ∈ refs -> exists l, ref_neighbours query (map pos cands) (pos r) r cands (Z.of_nat k) bound = Ok l) as Hok.
  { intros r Hr. unfold ref_neighbours. case_decide as Hn; [exfalso|by eauto]. destruct Hk as [Hk|Hk]; [|specialize (Hk r Hr)]; case_decide; try lia; done. }
  assert (exists l, all_neighbours query (map pos cands) at_ refs cands (Z.of_nat k) bound = Ok l) as [l Hl].
  { clear Hk. induction refs as [|r rs IH]; [by eexists|]. cbn [all_neighbours]. rewrite Hat by by left. cbn [of_option res_bind].
    destruct (Hok r) as [l ->]; [by left|]. cbn [res_bind]. destruct IH as [ls ->]; [intros; apply Hat; by right|intros; apply Hok; by right|]. by eexists. }
  exists l. split; [done|]. exists sel. split.
  - intros p. rewrite (all_neighbours_elem _ _ _ _ _ _ _ _ Hl). split.
    + intros (r & pt & l' & Hr & Hpt & Hl' & Hp). rewrite Hat in Hpt by done. injection Hpt as <-.
      apply (ref_neighbours_elem _ _ _ _ _ _ _ _ Hl') in Hp as (j & c & Hj & Hc & Hne & ->). exists r, c. split; [done|]. split; [|done].
      apply elem_of_list_filter. split; [done|]. apply elem_of_list_omap. exists j. split; [|done].
      replace (if decide (r ∈ cands) then S k else k) with (Z.to_nat (if decide (r ∈ cands) then Z.of_nat k + 1 else Z.of_nat k)%Z); [done|]. case_decide; lia.
    + intros (r & c & Hr & Hc & ->). destruct (Hok r Hr) as [l' Hl']. exists r, (pos r), l'. split_and!; [done|by apply Hat|done|].
      apply (ref_neighbours_elem _ _ _ _ _ _ _ _ Hl'). apply elem_of_list_filter in Hc as [Hne Hc]. apply elem_of_list_omap in Hc as (j & Hj & Hc).
      exists j, c. split_and!; [|done..].
      replace (Z.to_nat (if decide (r ∈ cands) then Z.of_nat k + 1 else Z.of_nat k)%Z) with (if decide (r ∈ cands) then S k else k); [done|]. case_decide; lia.
  - intros r Hr. apply near_ok; [done|]. apply Hq.
Qed.

Lemma rows_ok at_ cands : (forall im, im ∈ cands -> at_ im = Some (pos im)) ->
  foldr (fun im acc => try l := acc in try p := of_option KeyError (at_ im) in Ok (p :: l)) (Ok []) cands = Ok (map pos cands).
Proof.
  induction cands as [|c cs IH]; intros H; [done|]. cbn [foldr map]. rewrite IH by (intros; apply H; by right). cbn [res_bind]. rewrite H by by left. done.
Qed.
End Knn.

Lemma strongly_sorted_lookup {A} (R : A -> A -> Prop) l i j a b : StronglySorted R l -> i < j -> l !! i = Some a -> l !! j = Some b -> R a b.
Proof.
  intros Hs. revert i j. induction Hs as [|x l Hs IH Hx]; intros i j Hij Ha Hb; [done|].
  destruct j as [|j]; [lia|]. cbn in Hb. destruct i as [|i]; cbn in Ha.
  - injection Ha as ->. rewrite Forall_forall in Hx. apply Hx. by eapply elem_of_list_lookup_2.
  - apply (IH i j); [lia|done|done].
Qed.
(** A query by exhaustive search answers every query correctly. *)
Section Brute.
Context {D Pt : Type} (le : D -> D -> Prop) `{!RelDecision le}.
Variable dist : Pt -> Pt -> D.
Definition nearer (pts : list Pt) (p : Pt) (i j : nat) : Prop :=
  match pts !! i, pts !! j with Some a, Some b => le (dist p a) (dist p b) | Some _, None => True | None, Some _ => False | None, None => True end.
Global Instance nearer_dec pts p : RelDecision (nearer pts p).
Proof. intros i j. unfold nearer. destruct (pts !! i), (pts !! j); apply _. Defined.
Definition inside (pts : list Pt) (p : Pt) (bound : D) (j : nat) : Prop := match pts !! j with Some q => ~ le bound (dist p q) | None => False end.
Global Instance inside_dec pts p bound j : Decision (inside pts p bound j).
Proof. unfold inside. destruct (pts !! j); apply _. Defined.
Definition brute_query (pts : list Pt) (p : Pt) (nn : nat) (bound : D) : list nat :=
  let hits := take nn (merge_sort (nearer pts p) (filter (inside pts p bound) (seq 0 (length pts)))) in
  hits ++ replicate (nn - length hits) (length pts).
Lemma brute_nearest : total_preorder le -> nearest_query le dist brute_query.
Proof.
  intros (Hr & Ht & Htot) pts p nn bound. set (L := merge_sort (nearer pts p) (filter (inside pts p bound) (seq 0 (length pts)))).
  assert (Transitive (nearer pts p)) as Htr.
  { intros i j k. unfold nearer. destruct (pts !! i), (pts !! j), (pts !! k); try done. apply Ht. }
  assert (Total (nearer pts p)) as Hto.
  { intros i j. unfold nearer. destruct (pts !! i), (pts !! j); auto. }
  assert (StronglySorted (nearer pts p) L) as Hs by (apply Sorted_StronglySorted; [done|apply Sorted_merge_sort; done]).
  assert (L ≡ₚ filter (inside pts p bound) (seq 0 (length pts))) as Hp by apply merge_sort_Permutation.
  assert (NoDup L) as Hnd by (rewrite Hp; apply NoDup_filter, NoDup_seq).
  assert (forall j, j ∈ L <-> inside pts p bound j) as HL.
  { intros j. rewrite Hp, elem_of_list_filter, elem_of_seq. split; [tauto|]. intros H. split; [done|]. unfold inside in H. destruct (pts !! j) eqn:E; [|done]. apply lookup_lt_Some in E. lia. }
  exists (take nn L). split_and!.
  - done.
  - rewrite take_length. lia.
  - rewrite <- (take_drop nn L) in Hnd. by apply NoDup_app in Hnd as [? _].
  - intros j Hj. assert (j ∈ L) as HjL by (rewrite <- (take_drop nn L), elem_of_app; by left). apply HL in HjL. unfold inside in HjL. destruct (pts !! j); [eauto|done].
  - intros j q Hq Hb Hj. assert (j ∈ L) as HjL by (apply HL; unfold inside; by rewrite Hq).
    assert (j ∈ drop nn L) as Hd by (rewrite <- (take_drop nn L), elem_of_app in HjL; tauto). split.
    + rewrite take_length. destruct (decide (nn <= length L)); [lia|]. rewrite drop_ge in Hd by lia. by apply elem_of_nil in Hd.
    + intros i qi Hi Hqi. apply elem_of_list_lookup in Hi as [a Ha], Hd as [b Hb'].
      rewrite lookup_drop in Hb'. pose proof (lookup_lt_Some _ _ _ Ha) as Ha'. rewrite take_length in Ha'. rewrite lookup_take in Ha by lia.
      assert (nearer pts p i j) as Hn by (eapply (strongly_sorted_lookup _ L a (nn + b)); [done|lia|done|done]).
      unfold nearer in Hn. by rewrite Hqi, Hq in Hn.
Qed.
End Brute.

(** ** Ranking by histogram distance *)
Section Rank.
Context {D : Type} (le : D -> D -> Prop).
Variable argsort : list D -> list nat.
Hypothesis Hsort : sorts le argsort.
Variable d : string -> D.
Definition ranked (other : list string) : list string := omap (fun i => other !! i) (argsort (map d other)).
Lemma in_order_ranked order other : in_order order (map d other) other = map (fun x => (x, d x)) (omap (fun i => other !! i) order).
Proof.
  unfold in_order. induction order as [|i order IH]; [done|]. cbn. change (@map string D) with (@fmap list _ string D). rewrite list_lookup_fmap.
  destruct (other !! i); cbn; [|apply IH]. f_equal. apply IH.
Qed.
Lemma ranked_perm other : ranked other ≡ₚ other.
Proof.
  unfold ranked. destruct (Hsort (map d other)) as [-> _]. rewrite map_length. replace (omap _ (seq 0 _)) with other; [done|].
  induction other as [|x l IH]; [done|]. cbn. f_equal. rewrite <- fmap_S_seq. rewrite IH at 1. clear. generalize (seq 0 (length l)). intros s. induction s as [|i s IH]; [done|].
  cbn. destruct (l !! i); [f_equal|]; apply IH.
Qed.
Lemma omap_sorted (f : nat -> option string) (R : string -> string -> Prop) l :
  (forall i j a b x y, i < j -> l !! i = Some a -> l !! j = Some b -> f a = Some x -> f b = Some y -> R x y) -> StronglySorted R (omap f l).
Proof.
  induction l as [|a l IH]; intros H; cbn; [constructor|].
  assert (StronglySorted R (omap f l)) as Hl by (apply IH; intros i j; intros; eapply (H (S i) (S j)); [lia|done..]).
  destruct (f a) as [x|] eqn:E; [|done]. constructor; [done|]. rewrite Forall_forall. intros y (b & Hb & Ey)%elem_of_list_omap.
  apply elem_of_list_lookup in Hb as [j Hj]. eapply (H 0 (S j)); [lia|done..].
Qed.
Lemma ranked_sorted other : StronglySorted (fun a b => le (d a) (d b)) (ranked other).
Proof.
  apply omap_sorted. intros i j a b x y Hij Ha Hb Hx Hy. destruct (Hsort (map d other)) as [_ H]. apply (H i j a b); [done..| |].
  - by rewrite list_lookup_fmap, Hx.
  - by rewrite list_lookup_fmap, Hy.
Qed.
Lemma sorted_filter {A} (R : A -> A -> Prop) (P : A -> Prop) `{!forall x, Decision (P x)} l : StronglySorted R l -> StronglySorted R (filter P l).
Proof.
  induction 1 as [|x l Hs IH Hx]; [constructor|]. rewrite filter_cons. case_decide; [|done]. constructor; [done|].
  rewrite Forall_forall in Hx |- *. intros y [_ Hy]%elem_of_list_filter. by apply Hx.
Qed.
Lemma take_nearest l n : NoDup l -> StronglySorted (fun a b => le (d a) (d b)) l -> n_nearest le d n l (take n l).
Proof.
  intros Hnd Hs. split.
  - rewrite <- (take_drop n l) in Hnd. by apply NoDup_app in Hnd as [? _].
  - intros x Hx. rewrite <- (take_drop n l), elem_of_app. by left.
  - rewrite take_length. lia.
  - intros x Hx Hn. rewrite <- (take_drop n l), elem_of_app in Hx. destruct Hx as [?|Hd]; [done|]. split.
    + rewrite take_length. destruct (decide (n <= length l)); [lia|]. rewrite drop_ge in Hd by lia. by apply elem_of_nil in Hd.
    + intros y Hy. apply elem_of_list_lookup in Hy as [a Ha], Hd as [b Hb]. rewrite lookup_drop in Hb.
      pose proof (lookup_lt_Some _ _ _ Ha) as Ha'. rewrite take_length in Ha'. rewrite lookup_take in Ha by lia.
      apply (strongly_sorted_lookup _ l a (n + b) y x Hs); [lia|done|done].
Qed.
Lemma n_nearest_perm n class class' sel : class ≡ₚ class' -> n_nearest le d n class sel -> n_nearest le d n class' sel.
Proof. intros Hp [H1 H2 H3 H4]. split; [done| |done|]; intros x; rewrite <- Hp; auto. Qed.
Lemma filter_nearest (P : string -> Prop) `{!forall x, Decision (P x)} other n : NoDup other -> n_nearest le d n (filter P other) (take n (filter P (ranked other))).
Proof.
  intros Hnd. apply (n_nearest_perm _ (filter P (ranked other))).
  - by rewrite ranked_perm.
  - apply take_nearest; [apply NoDup_filter; by rewrite ranked_perm|]. apply sorted_filter, ranked_sorted.
Qed.
Lemma all_nearest other n : NoDup other -> n_nearest le d n other (take n (ranked other)).
Proof.
  intros Hnd. apply (n_nearest_perm _ (ranked other)).
  - by rewrite ranked_perm.
  - apply take_nearest; [by rewrite ranked_perm|]. apply ranked_sorted.
Qed.
Lemma filter_graph (P : string -> Prop) `{!forall x, Decision (P x)} l :
  filter (fun x : string * D => P x.1) (map (fun x => (x, d x)) l) = map (fun x => (x, d x)) (filter P l).
Proof. induction l as [|x l IH]; [done|]. cbn [map]. rewrite !filter_cons. cbn. case_decide; cbn [map]; by rewrite IH. Qed.
Lemma put_pairs_some im l m p v : put_pairs im (map (fun x => (x, d x)) l) m !! p = Some v <->
  (exists c, c ∈ l /\ p = sorted_pair im c /\ v = d c) \/ (~ (exists c, c ∈ l /\ p = sorted_pair im c) /\ m !! p = Some v).
Proof.
  unfold put_pairs. revert m. induction l as [|c l IH]; intros m; cbn [map foldl].
  - split; [intros ?; right; split; [intros (? & ?%elem_of_nil & _)|]; done|]. intros [(? & ?%elem_of_nil & _)|[_ ?]]; done.
  - rewrite IH. split.
    + intros [(x & Hx & -> & ->)|[Hno Hm]]; [left; exists x; split; [by right|done]|].
      destruct (decide (p = sorted_pair im c)) as [->|Hc].
      * rewrite lookup_insert in Hm. injection Hm as <-. left. exists c. split; [by left|done].
      * rewrite lookup_insert_ne in Hm by done. right. split; [|done]. intros (x & [->|Hx]%elem_of_cons & ?); [done|]. destruct Hno. eauto.
    + intros [(x & [->|Hx]%elem_of_cons & -> & ->)|[Hno Hm]].
      * destruct (decide (c ∈ l)) as [Hcl|Hcl]; [left; eauto|]. right. rewrite lookup_insert. split; [|done].
        intros (y & Hy & E%sorted_pair_ref). congruence.
      * left. eauto.
      * right. split; [intros (x & Hx & ?); apply Hno; exists x; split; [by right|done]|]. rewrite lookup_insert_ne; [done|].
        intros <-. apply Hno. exists c. split; [by left|done].
Qed.

Variable cam : string -> string.
(** the images kept for [im] *)
Definition kept (im : string) (n : nat) (enforce : bool) (other : list string) : list string :=
  if enforce then take n (filter (fun x => cam x = cam im) (ranked other)) ++ take n (filter (fun x => cam x <> cam im) (ranked other))
  else take n (ranked other).
Lemma pairs_from_neighbors_kept im other n :
  pairs_from_neighbors cam im (map d other) (argsort (map d other)) other n = put_pairs im (map (fun x => (x, d x)) (kept im n true other)) ∅.
Proof.
  rewrite pairs_from_neighbors_eq, in_order_ranked. f_equal. unfold kept, ranked.
  set (L := omap _ _). pose proof (filter_graph (fun x => cam x = cam im) L) as E1. pose proof (filter_graph (fun x => cam x <> cam im) L) as E2. cbn beta in E1, E2. rewrite E1, E2.
  change (@map string (string * D)) with (@fmap list _ string (string * D)). by rewrite fmap_app, !fmap_take.
Qed.
Lemma kept_sub im n enforce other x : x ∈ kept im n enforce other -> x ∈ other.
Proof.
  unfold kept. intros Hx. rewrite <- (ranked_perm other). destruct enforce.
  - apply elem_of_app in Hx as [Hx|Hx]; apply elem_of_take in Hx as (i & Hx & _); apply elem_of_list_lookup_2 in Hx; by apply elem_of_list_filter in Hx as [_ Hx].
  - apply elem_of_take in Hx as (i & Hx & _). by eapply elem_of_list_lookup_2.
Qed.
Lemma put_kept im n order other m : put_pairs im (in_order (take n order) (map d other) other) m =
  put_pairs im (map (fun x => (x, d x)) (omap (fun i => other !! i) (take n order))) m.
Proof. by rewrite in_order_ranked. Qed.
Lemma omap_take_valid (other : list string) n order : (forall i, i ∈ order -> i < length other) ->
  omap (fun i => other !! i) (take n order) = take n (omap (fun i => other !! i) order).
Proof.
  revert n. induction order as [|i order IH]; intros n H; [by destruct n|]. destruct n as [|n]; [done|]. cbn.
  destruct (lookup_lt_is_Some_2 other i) as [x ->]; [apply H; by left|]. cbn. f_equal. apply IH. intros; apply H; by right.
Qed.
Lemma step_kept im n other m :
  put_pairs im (in_order (take n (argsort (map d other))) (map d other) other) m = put_pairs im (map (fun x => (x, d x)) (kept im n false other)) m.
Proof.
  rewrite put_kept, omap_take_valid; [done|]. intros i Hi. destruct (Hsort (map d other)) as [Hp _]. rewrite Hp, map_length, elem_of_seq in Hi. lia.
Qed.
End Rank.

Section Construct.
Context {D : Type} (le : D -> D -> Prop).
Variable argsort : list D -> list nat.
Hypothesis Hsort : sorts le argsort.
Variable d : string -> string -> D.
Variable cam : string -> string.
Lemma construct_pairs_lookup n enforce results : (forall im ds other, (im, ds, other) ∈ results -> ds = map (d im) other) ->
  forall m p, p ∈ dom (construct_pairs argsort cam results n enforce m) <-> p ∈ dom m \/ exists im ds other c, (im, ds, other) ∈ results /\
    c ∈ kept argsort (d im) cam im n enforce other /\ p = sorted_pair im c.
Proof.
  induction results as [|[[im ds] other] rs IH]; intros Hres m p; cbn [construct_pairs].
  - split; [by left|]. intros [?|(? & ? & ? & ? & ?%elem_of_nil & _)]; done.
  - rewrite IH by (intros; apply Hres; by right). rewrite (Hres im ds other) by by left.
    assert (forall q, q ∈ dom (if enforce then pairs_from_neighbors cam im (map (d im) other) (argsort (map (d im) other)) other n ∪ m
      else put_pairs im (in_order (take n (argsort (map (d im) other))) (map (d im) other) other) m) <->
      q ∈ dom m \/ exists c, c ∈ kept argsort (d im) cam im n enforce other /\ q = sorted_pair im c) as Hstep.
    { intros q. destruct enforce.
      - rewrite dom_union, elem_of_union, pairs_from_neighbors_kept, put_pairs_dom, dom_empty.
        setoid_rewrite elem_of_list_fmap. split.
        + intros [[?|(c & (x & -> & Hx) & ->)]|?]; [set_solver| |by left]. right. apply elem_of_list_fmap in Hx as (y & -> & Hy). eauto.
        + intros [?|(c & Hc & ->)]; [by right|]. left. right. exists c. split; [|done]. exists (c, d im c). split; [done|]. apply elem_of_list_fmap. eauto.
      - rewrite (step_kept le argsort Hsort (d im) cam), put_pairs_dom. setoid_rewrite elem_of_list_fmap. split.
        + intros [?|(c & (x & -> & Hx) & ->)]; [by left|]. right. apply elem_of_list_fmap in Hx as (y & -> & Hy). eauto.
        + intros [?|(c & Hc & ->)]; [by left|]. right. exists c. split; [|done]. exists (c, d im c). split; [done|]. apply elem_of_list_fmap. eauto. }
    rewrite Hstep. split.
    + intros [[?|(c & Hc & ->)]|(im' & ds' & o' & c & Hin & Hc & ->)]; [by left| |].
      * right. eexists im, _, other, c. split_and!; [|done|done]. left.
      * right. exists im', ds', o', c. split_and!; [by right|done..].
    + intros [?|(im' & ds' & o' & c & [[= -> -> ->]|Hin]%elem_of_cons & Hc & ->)]; [by left; left| |].
      * left. right. eauto.
      * right. eauto 10.
Qed.
End Construct.

Section Hist.
Context {D H : Type} (le : D -> D -> Prop).
Variable zero : D.
Variable hdist : H -> H -> D.
Variable hist : string -> option H.
Definition hd (r c : string) : D := match hist r, hist c with Some h, Some h2 => hdist h h2 | _, _ => zero end.
Definition comparable (r c : string) : Prop := c <> r /\ is_Some (hist c).
Global Instance comparable_dec r c : Decision (comparable r c).
Proof. unfold comparable. apply _. Defined.
Lemma hist_distances_eq r cs : hist_distances hdist hist r cs = if hist r then (r, map (hd r) (filter (comparable r) cs), filter (comparable r) cs) else (r, [], []).
Proof.
  unfold hist_distances. destruct (hist r) as [h|] eqn:Er; [|done].
  assert (omap (fun im2 => if decide (im2 <> r) then h2 ← hist im2; Some (hdist h h2, im2) else None) cs = map (fun c => (hd r c, c)) (filter (comparable r) cs)) as ->.
  { induction cs as [|c cs IH]; [done|]. rewrite filter_cons. cbn [omap list_omap]. case_decide as Hc.
    - destruct (hist c) as [h2|] eqn:Ec; cbn.
      + rewrite decide_True by (split; [done|by eexists]). cbn [map]. f_equal; [|exact IH]. unfold hd. by rewrite Er, Ec.
      + rewrite decide_False by (intros [_ [? ?]]; congruence). exact IH.
    - rewrite decide_False by (intros [? _]; done). exact IH. }
  change (@map string (D * string)) with (@fmap list _ string (D * string)). rewrite <- !list_fmap_compose. f_equal.
  rewrite <- (list_fmap_id (filter (comparable r) cs)) at 2. done.
Qed.
End Hist.
