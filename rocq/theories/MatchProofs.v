From stdpp Require Import prelude list sorting gmap strings.
From Verif Require Import Base MatchModel MatchSpec.

Lemma elem_of_omap_seq {B} (f : nat -> option B) n x : x ∈ omap f (seq 0 n) <-> exists i, i < n /\ f i = Some x.
Proof. rewrite elem_of_list_omap. split; intros (i & Hi & ?); exists i; [rewrite elem_of_seq in Hi|rewrite elem_of_seq]; split; try done; lia. Qed.

Section S.
Context {D : Type} (le : relation D) `{!RelDecision le} (below : D -> D -> bool) (HD : distances le below).

Lemma nearer_total d : Total (nearer le d).
Proof. intros a b. apply (dist_total _ _ HD). Qed.
Lemma nearer_trans d : Transitive (nearer le d).
Proof. intros a b c. apply (dist_trans _ _ HD). Qed.

Lemma knn2_spec d L : NoDup L -> forall m, (exists n, knn2 le d L = [m; n] /\ below (d m) (d n) = true) <-> passes below d (.∈ L) m.
Proof using HD.
  intros HL m. unfold knn2.
  pose proof (merge_sort_Permutation (nearer le d) L) as Hp.
  pose proof (nearer_total d) as Ht. pose proof (nearer_trans d) as Htr.
  pose proof (Sorted_merge_sort (nearer le d) L) as Hs.
  apply Sorted_StronglySorted in Hs; [|done].
  destruct (merge_sort (nearer le d) L) as [|x [|y s]] eqn:E.
  - split; [intros (n & ? & _); done|]. intros (Hm & _). rewrite <- Hp in Hm. set_solver.
  - split; [intros (n & ? & _); done|]. intros (Hm & (j & Hj & Hj') & _). rewrite <- Hp in Hm, Hj'. set_solver.
  - assert (NoDup (x :: y :: s)) as Hnd by (by rewrite Hp). simpl.
    apply StronglySorted_inv in Hs as [Hs Hx]. apply StronglySorted_inv in Hs as [Hs Hy].
    rewrite Forall_forall in Hx, Hy.
    apply NoDup_cons in Hnd as [Hnx Hnd]. apply NoDup_cons in Hnd as [Hny Hnd].
    split.
    + intros (n & [= <- <-] & Hb). split_and!.
      * rewrite <- Hp. set_solver.
      * exists y. split; [set_solver|]. rewrite <- Hp. set_solver.
      * intros j Hj Hin. rewrite <- Hp in Hin. apply elem_of_cons in Hin as [->|Hin]; [done|].
        eapply below_mono; [done|done|]. apply elem_of_cons in Hin as [->|Hin]; [by destruct (dist_total _ _ HD (d y) (d y))|by apply Hy].
    + intros (Hm & _ & Hall). exists y.
      assert (m = x) as ->.
      { rewrite <- Hp in Hm. destruct (decide (m = x)) as [->|Hne]; [done|]. exfalso.
        assert (below (d m) (d x) = true) as Hb by (apply Hall; [done|rewrite <- Hp; set_solver]).
        apply (below_less _ _ HD _ _ Hb). apply Hx. set_solver. }
      split; [done|]. apply Hall; [set_solver|]. rewrite <- Hp. set_solver.
Qed.

Lemma brute_force_spec n1 n2 d mask i j : (i, j) ∈ match_brute_force le below n1 n2 d mask <-> i < n1 /\ passes below (d i) (fun j => j < n2 /\ mask i j = true) j.
Proof using HD.
  unfold match_brute_force. rewrite elem_of_omap_seq.
  assert (forall i j, passes below (d i) (fun j => j < n2 /\ mask i j = true) j <-> passes below (d i) (.∈ filter (fun j => mask i j = true) (seq 0 n2)) j) as Hal.
  { intros i' j'. assert (forall j, j ∈ filter (fun j => mask i' j = true) (seq 0 n2) <-> j < n2 /\ mask i' j = true) as H.
    { intros k. rewrite elem_of_list_filter, elem_of_seq. intuition lia. }
    unfold passes. setoid_rewrite H. done. }
  assert (forall i, NoDup (filter (fun j => mask i j = true) (seq 0 n2))) as Hnd by (intros; apply NoDup_filter, NoDup_seq).
  rewrite Hal. rewrite <- knn2_spec by done. split.
  - intros (i' & Hi & Hm). destruct (knn2 _ _ _) as [|m [|n [|]]] eqn:E; try done.
    destruct (below (d i' m) (d i' n)) eqn:Eb; [|done]. injection Hm as -> ->. split; [done|]. eauto.
  - intros (Hi & n & Hk & Hb). exists i. split; [done|]. by rewrite Hk, Hb.
Qed.
End S.

Lemma flatnonzero_elem m i : i ∈ flatnonzero m <-> m !! i = Some true.
Proof. unfold flatnonzero. rewrite elem_of_list_filter, elem_of_seq. split; [naive_solver|]. intros H. split; [done|]. apply lookup_lt_Some in H. lia. Qed.

Lemma symmetric_elem enum (He : forall s, enum s ≡ₚ elements s) ij ji i j : (i, j) ∈ keep_symmetric enum ij ji <-> (i, j) ∈ ij /\ (j, i) ∈ ji.
Proof.
  unfold keep_symmetric. rewrite He, elem_of_elements, elem_of_intersection, !elem_of_list_to_set, elem_of_list_fmap. split.
  - intros [H ([a b] & [= -> ->] & H')]. done.
  - intros [H H']. split; [done|]. by exists (j, i).
Qed.
Lemma symmetric_nodup enum (He : forall s, enum s ≡ₚ elements s) ij ji : NoDup (keep_symmetric enum ij ji).
Proof. unfold keep_symmetric. rewrite He. apply NoDup_elements. Qed.
Lemma symmetric_one_to_one enum (He : forall s, enum s ≡ₚ elements s) ij ji :
  (forall i j j', (i, j) ∈ ij -> (i, j') ∈ ij -> j = j') -> (forall i j j', (i, j) ∈ ji -> (i, j') ∈ ji -> j = j') -> one_to_one (keep_symmetric enum ij ji).
Proof.
  intros H1 H2. split_and!; [| |by apply symmetric_nodup].
  - intros i j j' Ha Hb. apply symmetric_elem in Ha, Hb; try done. destruct Ha, Hb. eauto.
  - intros i i' j Ha Hb. apply symmetric_elem in Ha, Hb; try done. destruct Ha, Hb. eauto.
Qed.

Lemma symmetric_one_to_one_r enum (He : forall s, enum s ≡ₚ elements s) ij ji :
  (forall i j j', (j, i) ∈ ij -> (j', i) ∈ ij -> j = j') -> (forall i j j', (j, i) ∈ ji -> (j', i) ∈ ji -> j = j') -> one_to_one (keep_symmetric enum ij ji).
Proof.
  intros H1 H2. split_and!; [| |by apply symmetric_nodup].
  - intros i j j' Ha Hb. apply symmetric_elem in Ha, Hb; try done. destruct Ha, Hb. eauto.
  - intros i i' j Ha Hb. apply symmetric_elem in Ha, Hb; try done. destruct Ha, Hb. eauto.
Qed.

(** omap over indices gives at most one match per query, whatever the test *)
Lemma brute_force_functional {D} (le : relation D) `{!RelDecision le} below n1 n2 d mask i j j' :
  (i, j) ∈ match_brute_force le below n1 n2 d mask -> (i, j') ∈ match_brute_force le below n1 n2 d mask -> j = j'.
Proof.
  unfold match_brute_force. rewrite !elem_of_omap_seq. intros (k & Hk & Ek) (k' & Hk' & Ek').
  destruct (knn2 le (d k) _) as [|m [|n [|]]] eqn:E; try done. destruct (knn2 le (d k') _) as [|m' [|n' [|]]] eqn:E'; try done.
  repeat case_match; simplify_eq. congruence.
Qed.
Lemma flann_functional {D} (below : D -> D -> bool) search n i j j' :
  (j, i) ∈ match_flann below search n -> (j', i) ∈ match_flann below search n -> j = j'.
Proof.
  unfold match_flann. rewrite !elem_of_omap_seq. intros (k & Hk & Ek) (k' & Hk' & Ek').
  repeat case_match; simplify_eq; congruence.
Qed.

(** ** Words *)
Section Words.
Context {D : Type} (le : relation D) `{!RelDecision le} (below : D -> D -> bool) (HD : distances le below) (d : nat -> D).
(** the state holds the smallest and second smallest distances of the positions of [V] *)
Definition best_inv (V : list nat) (st : best2 (D:=D)) : Prop :=
  match st with
  | (None, None) => V = []
  | (None, Some _) => False
  | (Some (j, x), s) => x = d j /\ exists p, V !! p = Some j /\ (forall q j', q <> p -> V !! q = Some j' -> le (d j) (d j')) /\
      match s with
      | None => length V = 1
      | Some y => (exists q j', q <> p /\ V !! q = Some j' /\ y = d j') /\ forall q j', q <> p -> V !! q = Some j' -> le y (d j')
      end
  end.
Lemma le_refl a : le a a.
Proof using HD. by destruct (dist_total _ _ HD a a). Qed.
Lemma not_le a b : ~ le a b -> le b a.
Proof using HD. intros. by destruct (dist_total _ _ HD a b). Qed.
Lemma lookup_snoc {A} (V : list A) x q y : (V ++ [x]) !! q = Some y <-> V !! q = Some y \/ q = length V /\ x = y.
Proof. rewrite lookup_app_Some, list_lookup_singleton_Some. split; [intros [?|[? [? ?]]]; [auto|right; split; [lia|done]]|intros [?|[-> ->]]; [auto|right; split; [lia|split; [lia|done]]]]. Qed.
Lemma visit_inv V st j : best_inv V st -> best_inv (V ++ [j]) (visit_word le d st j).
Proof using HD.
  destruct st as [[[b x]|] s]; unfold visit_word; simpl.
  - intros (-> & p & Hp & Hle & Hs). pose proof (lookup_lt_Some _ _ _ Hp) as Hlt.
    case_bool_decide as Hlt1; simpl.
    + split; [done|]. exists (length V). split; [by apply lookup_snoc; auto|]. split.
      * intros q j' Hq [Hq'|[-> _]]%lookup_snoc; [|done].
        destruct (decide (q = p)) as [->|]; [rewrite Hp in Hq'; injection Hq' as <-; by apply not_le|].
        eapply dist_trans; [exact HD|by apply not_le|]. by eapply Hle.
      * split; [exists p, b; split_and!; [lia|by apply lookup_snoc; auto|done]|].
        intros q j' Hq [Hq'|[-> _]]%lookup_snoc; [|done].
        destruct (decide (q = p)) as [->|]; [rewrite Hp in Hq'; injection Hq' as <-; apply le_refl|]. by eapply Hle.
    + assert (le (d b) (d j)) as Hbj by (destruct (decide (le (d b) (d j))); [done|tauto]).
      assert (forall q j', q <> p -> (V ++ [j]) !! q = Some j' -> le (d b) (d j')) as Hle'.
      { intros q j' Hq [Hq'|[-> <-]]%lookup_snoc; [by eapply Hle|done]. }
      destruct s as [y|]; simpl.
      * destruct Hs as [(q0 & j0 & Hq0 & Hj0 & ->) Hs].
        case_bool_decide as Hy; simpl; (split; [done|]); exists p; (split; [by apply lookup_snoc; auto|]); (split; [done|]).
        -- split; [exists (length V), j; split_and!; [lia|by apply lookup_snoc; auto|done]|].
           intros q j' Hq [Hq'|[-> <-]]%lookup_snoc; [|apply le_refl].
           eapply dist_trans; [exact HD|by apply not_le|]. by eapply Hs.
        -- split; [exists q0, j0; split_and!; [done|by apply lookup_snoc; auto|done]|].
           intros q j' Hq [Hq'|[-> <-]]%lookup_snoc; [by eapply Hs|]. destruct (decide (le (d j0) (d j))); [done|tauto].
      * split; [done|]. exists p. split; [by apply lookup_snoc; auto|]. split; [done|].
        split; [exists (length V), j; split_and!; [lia|by apply lookup_snoc; auto|done]|].
        intros q j' Hq [Hq'|[-> <-]]%lookup_snoc; [|apply le_refl]. apply lookup_lt_Some in Hq'. lia.
  - destruct s; [done|]. intros ->. simpl. split; [done|]. exists 0. split; [done|]. split; [|done].
    intros q j' Hq Hq'. apply lookup_lt_Some in Hq'. simpl in *. lia.
Qed.
Lemma visits_inv L V st : best_inv V st -> best_inv (V ++ L) (foldl (visit_word le d) st L).
Proof using HD.
  revert V st. induction L as [|j L IH]; intros V st H; simpl; [by rewrite app_nil_r|].
  rewrite (assoc app V [j] L : V ++ j :: L = _). by apply IH, visit_inv.
Qed.
Lemma word_match_spec V st i a j : best_inv V st -> word_match below i st = Some (a, j) <-> a = i /\ best_of below d V j.
Proof using HD.
  destruct st as [[[b x]|] s]; simpl.
  - intros (-> & p & Hp & Hle & Hs).
    assert (forall j, best_of below d V j -> j = b) as Huniq.
    { intros k (p' & Hp' & Hk). destruct (decide (p' = p)) as [->|Hne]; [congruence|].
      exfalso. eapply below_less; [exact HD|by apply (Hk p b)|]. by eapply Hle. }
    destruct s as [y|].
    + destruct Hs as [(q0 & j0 & Hq0 & Hj0 & ->) Hs].
      destruct (below (d b) (d j0)) eqn:Eb; split; try done.
      * intros [= <- <-]. split; [done|]. exists p. split; [done|]. intros q j' Hq Hq'. eapply below_mono; [exact HD|exact Eb|by eapply Hs].
      * intros [-> Hb]. by rewrite (Huniq j).
      * intros [-> Hb]. pose proof (Huniq _ Hb) as ->. destruct Hb as (p' & Hp' & Hk).
        destruct (decide (p' = q0)) as [->|]; [|by rewrite (Hk q0 j0) in Eb].
        assert (below (d b) (d b) = true) as Hbb by (apply (Hk p); [done|done]). exfalso. eapply below_less; [exact HD|exact Hbb|apply le_refl].
    + split.
      * intros [= <- <-]. split; [done|]. exists p. split; [done|]. intros q j' Hq Hq'. apply lookup_lt_Some in Hp, Hq'. lia.
      * intros [-> Hb]. by rewrite (Huniq j).
  - destruct s; [done|]. intros ->. split; [done|]. intros [_ (p & Hp & _)]. done.
Qed.

(** the features met from a state of the loop *)
Definition looked_from (w2 : list nat) (max_checks : Z) (checks : nat) (words : list nat) (V : list nat) : Prop :=
  exists k, k <= length words /\ V = mjoin (map (with_word w2) (take k words)) /\
    (k = length words \/ 0 < k /\ (max_checks <= Z.of_nat (checks + length V))%Z) /\
    forall k', 0 < k' -> k' < k -> (Z.of_nat (checks + length (mjoin (map (with_word w2) (take k' words)))) < max_checks)%Z.
Lemma visit_words_spec w2 mc words : forall checks V0 st, best_inv V0 st ->
  exists V, looked_from w2 mc checks words V /\ best_inv (V0 ++ V) (visit_words le d w2 mc words checks st).
Proof using HD.
  induction words as [|w rest IH]; intros checks V0 st H; simpl.
  - exists []. rewrite app_nil_r. split; [|done]. exists 0. split_and!; [done|done|by left|lia].
  - change (filter (fun j => w2 !! j = Some w) (seq 0 (length w2))) with (with_word w2 w).
    pose proof (visits_inv (with_word w2 w) _ _ H) as H1. case_decide as Hc.
    + exists (with_word w2 w). split; [|done]. exists 1. cbn [take map fmap list_fmap length]. rewrite take_0. cbn. rewrite app_nil_r. split_and!; [lia|done|right; lia|lia].
    + destruct (IH (checks + length (with_word w2 w)) _ _ H1) as (V & (k & Hk & -> & Hend & Hall) & HV).
      exists (with_word w2 w ++ mjoin (map (with_word w2) (take k rest))). split; [|by rewrite (assoc app)].
      exists (S k). simpl. split_and!; [lia|done| |].
      * destruct Hend as [->|[? ?]]; [by left|right]. rewrite app_length. lia.
      * intros [|k'] ? ?; [lia|]. simpl. destruct (decide (k' = 0)) as [->|].
        -- rewrite take_0. simpl. rewrite app_nil_r. lia.
        -- rewrite app_length. specialize (Hall k' ltac:(lia) ltac:(lia)). lia.
Qed.
End Words.

Lemma looked_up_functional w2 mc words V V' : looked_up w2 mc words V -> looked_up w2 mc words V' -> V = V'.
Proof.
  intros (k & Hk & -> & He & Hl) (k' & Hk' & -> & He' & Hl').
  assert (k = k') as ->; [|done].
  destruct (Nat.lt_trichotomy k k') as [Hlt|[?|Hlt]]; [|done|].
  - destruct He as [?|[? ?]]; [lia|]. specialize (Hl' k). lia.
  - destruct He' as [?|[? ?]]; [lia|]. specialize (Hl k'). lia.
Qed.
Lemma elem_of_imap_pair {A} (l : list A) i x : (i, x) ∈ imap pair l <-> l !! i = Some x.
Proof.
  rewrite elem_of_list_lookup. setoid_rewrite list_lookup_imap. split.
  - intros (k & (y & H & [= -> ->])%fmap_Some). done.
  - intros H. exists i. by rewrite H.
Qed.
Lemma words_spec {D} (le : relation D) `{!RelDecision le} (below : D -> D -> bool) (HD : distances le below) d words1 w2 mc i j :
  (i, j) ∈ match_words le below d words1 w2 mc <-> exists words V, words1 !! i = Some words /\ looked_up w2 mc words V /\ best_of below (d i) V j.
Proof.
  unfold match_words. rewrite elem_of_list_omap.
  assert (forall i words, exists V, looked_up w2 mc words V /\ best_inv le (d i) V (visit_words le (d i) w2 mc words 0 (None, None))) as Hv.
  { intros i' words. destruct (visit_words_spec le below HD (d i') w2 mc words 0 [] (None, None) eq_refl) as (V & Hl & Hb). by exists V. }
  split.
  - intros ([k words] & Hin & Hm). apply elem_of_imap_pair in Hin. destruct (Hv k words) as (V & Hl & Hb).
    destruct (proj1 (word_match_spec le below HD (d k) V _ k i j Hb) Hm) as [-> Hm']. eauto.
  - intros (words & V & Hw & Hl & Hb). exists (i, words). split; [by apply elem_of_imap_pair|].
    destruct (Hv i words) as (V' & Hl' & Hb'). rewrite (looked_up_functional _ _ _ _ _ Hl Hl') in Hb.
    by apply (word_match_spec le below HD (d i) V').
Qed.
Lemma words_functional {D} (le : relation D) `{!RelDecision le} (below : D -> D -> bool) d words1 w2 mc i j j' :
  (i, j) ∈ match_words le below d words1 w2 mc -> (i, j') ∈ match_words le below d words1 w2 mc -> j = j'.
Proof.
  unfold match_words. rewrite !elem_of_list_omap. intros ([k ws] & Hk & Ek) ([k' ws'] & Hk' & Ek').
  apply elem_of_imap_pair in Hk, Hk'.
  assert (forall i st a b, word_match below (D:=D) i st = Some (a, b) -> a = i) as Hi.
  { intros i0 [[[? ?]|] [?|]] a b; simpl; repeat case_match; naive_solver. }
  pose proof (Hi _ _ _ _ Ek) as <-. pose proof (Hi _ _ _ _ Ek') as <-. assert (ws = ws') as <- by congruence. rewrite Ek in Ek'. congruence.
Qed.

(** ** Masks *)
Lemma flatnonzero_cons b m : flatnonzero (b :: m) = (if b then [0] else []) ++ map S (flatnonzero m).
Proof.
  unfold flatnonzero. cbn [length seq]. rewrite filter_cons. cbn [lookup list_lookup].
  assert (filter (fun i => (b :: m) !! i = Some true) (seq 1 (length m)) = map S (filter (fun i => m !! i = Some true) (seq 0 (length m)))) as ->.
  { rewrite <- seq_shift. generalize (seq 0 (length m)). intros l. induction l as [|x l IH]; [done|]. cbn [map fmap list_fmap].
    rewrite !filter_cons. rewrite IH. change ((b :: m) !! S x) with (m !! x). by case_decide. }
  destruct b; [by rewrite decide_True|by rewrite decide_False].
Qed.
Lemma flatnonzero_spec m : forall i a, flatnonzero m !! i = Some a <-> unmasked_position m i a.
Proof.
  induction m as [|b m IH]; intros i a.
  - unfold unmasked_position. rewrite lookup_nil. split; [done|intros [? _]; done].
  - rewrite flatnonzero_cons. unfold unmasked_position in *. destruct b; cbn [app].
    + destruct i as [|i].
      * cbn [lookup list_lookup]. split; [intros [= <-]; done|]. intros [H1 H2]. destruct a; [done|]. cbn [take] in H2. rewrite filter_cons, decide_True in H2 by done. done.
      * change ((0 :: map S (flatnonzero m)) !! S i) with ((S <$> flatnonzero m) !! i). rewrite list_lookup_fmap, fmap_Some. setoid_rewrite IH. split.
        -- intros (x & [Hx1 Hx2] & ->). split; [done|]. cbn [take]. rewrite filter_cons, decide_True by done. cbn [length]. lia.
        -- intros [H1 H2]. destruct a as [|a]; [done|]. cbn [take] in H2. rewrite filter_cons, decide_True in H2 by done. cbn [length] in H2. exists a. split; [split; [done|lia]|done].
    + change (map S (flatnonzero m)) with (S <$> flatnonzero m). rewrite list_lookup_fmap, fmap_Some. setoid_rewrite IH. split.
      -- intros (x & [Hx1 Hx2] & ->). split; [done|]. cbn [take]. rewrite filter_cons, decide_False by done. done.
      -- intros [H1 H2]. destruct a as [|a]; [done|]. cbn [take] in H2. rewrite filter_cons, decide_False in H2 by done. exists a. by split.
Qed.
Lemma select_length {A} mask (l : list A) : length mask = length l -> length (select mask l) = length (flatnonzero mask).
Proof.
  revert l. induction mask as [|b mask IH]; intros [|x l] H; try done. rewrite flatnonzero_cons, app_length, map_length. cbn [select]. simpl in H.
  destruct b; cbn [length]; rewrite IH by lia; done.
Qed.
(** the features kept by a mask, FeaturesData.mask *)
Lemma select_lookup {A} mask (l : list A) i a : length mask = length l -> flatnonzero mask !! i = Some a -> select mask l !! i = l !! a.
Proof.
  revert l i a. induction mask as [|b mask IH]; intros [|x l] i a H Hf; try done. rewrite flatnonzero_cons in Hf. simpl in H. cbn [select].
  destruct b; cbn [app] in Hf.
  - destruct i as [|i]; [by injection Hf as <-|]. change ((S <$> flatnonzero mask) !! i = Some a) in Hf.
    rewrite list_lookup_fmap, fmap_Some in Hf. destruct Hf as (y & Hy & ->). cbn [lookup list_lookup]. apply IH; [lia|done].
  - change ((S <$> flatnonzero mask) !! i = Some a) in Hf. rewrite list_lookup_fmap, fmap_Some in Hf. destruct Hf as (y & Hy & ->). cbn [lookup list_lookup]. apply IH; [lia|done].
Qed.
Lemma flatnonzero_NoDup m : NoDup (flatnonzero m).
Proof. apply NoDup_filter, NoDup_seq. Qed.

Lemma unfilter_spec matches m1 m2 : (forall i j, (i, j) ∈ matches -> i < length (flatnonzero m1) /\ j < length (flatnonzero m2)) ->
  exists out, unfilter_matches matches m1 m2 = Ok out /\
    Forall2 (fun p q => flatnonzero m1 !! p.1 = Some q.1 /\ flatnonzero m2 !! p.2 = Some q.2) matches out.
Proof.
  unfold unfilter_matches. induction matches as [|[a b] l IH]; intros H; simpl; [by exists []|].
  destruct IH as (out & -> & Hout); [intros i j ?; apply H; set_solver|].
  destruct (H a b) as [Ha Hb]; [set_solver|]. apply lookup_lt_is_Some in Ha as [x Hx]. apply lookup_lt_is_Some in Hb as [y Hy].
  rewrite Hx, Hy. simpl. exists ((x, y) :: out). split; [done|]. by constructor.
Qed.
Lemma unfilter_err matches m1 m2 e : unfilter_matches matches m1 m2 = Err e -> e = IndexError.
Proof.
  unfold unfilter_matches. induction matches as [|[a b] l IH]; simpl; [done|]. destruct (foldr _ _ _) as [r|e']; simpl; [|naive_solver].
  destruct (flatnonzero m1 !! a), (flatnonzero m2 !! b); simpl; naive_solver.
Qed.

(** ** Filters *)
Lemma select_sublist {A} mask (l : list A) : sublist (select mask l) l.
Proof. revert l. induction mask as [|[] mask IH]; intros [|x l]; simpl; try apply sublist_nil_l; by constructor. Qed.
Lemma sublist_filter {A} (P : A -> Prop) `{!forall x, Decision (P x)} (l : list A) : sublist (filter P l) l.
Proof. induction l as [|x l IH]; [done|]. rewrite filter_cons. case_decide; by constructor. Qed.
Lemma non_static_sublist s l : sublist (non_static_matches s l) l.
Proof. unfold non_static_matches. case_decide; [done|]. apply sublist_filter. Qed.
Lemma poles_sublist a b f g l : sublist (not_on_pano_poles a b f g l) l.
Proof. unfold not_on_pano_poles. case_match; [apply sublist_filter|done]. Qed.
Lemma watermark_sublist a b f g l : sublist (not_on_watermark a b f g l) l.
Proof. unfold not_on_watermark. destruct a, b; try done; try apply sublist_filter. etrans; apply sublist_filter. Qed.
Lemma adhoc_sublist f l : sublist (apply_adhoc_filters f l) l.
Proof.
  unfold apply_adhoc_filters. etrans; [apply watermark_sublist|]. etrans; [apply watermark_sublist|].
  etrans; [apply poles_sublist|]. apply non_static_sublist.
Qed.
Lemma robust_sublist r l : sublist (robust_match r l) l.
Proof. unfold robust_match. case_decide; [apply sublist_nil_l|]. case_match; [apply select_sublist|apply sublist_nil_l]. Qed.

Lemma sublist_elem {A} (l k : list A) x : sublist l k -> x ∈ l -> x ∈ k.
Proof. induction 1; set_solver. Qed.

(** ** The pipeline *)
Lemma match_pair_spec matcher filters ransac min_match m1 m2 :
  (forall i j, (i, j) ∈ matcher -> i < masked_count m1 /\ j < masked_count m2) ->
  exists out, match_images_pair matcher filters ransac min_match m1 m2 = Ok out /\ (out = [] \/ min_match <= length out) /\
    exists l, sublist l matcher /\ Forall2 (fun p q => flatnonzero m1 !! p.1 = Some q.1 /\ flatnonzero m2 !! p.2 = Some q.2) l out.
Proof.
  intros H. unfold match_images_pair.
  set (ms := if decide (masked_count m1 < 2 \/ masked_count m2 < 2) then _ else _).
  assert (sublist ms matcher) as Hms.
  { unfold ms. case_decide; [apply sublist_nil_l|]. destruct filters; [apply adhoc_sublist|done]. }
  clearbody ms. case_decide; [exists []; split; [done|]; split; [by left|]; exists []; split; [apply sublist_nil_l|done]|].
  pose proof (robust_sublist ransac ms) as Hr.
  destruct (unfilter_spec (robust_match ransac ms) m1 m2) as (out & -> & Hout).
  { intros i j Hij. apply H. eapply sublist_elem; [|exact Hij]. by etrans. }
  simpl. case_decide.
  - exists []. split; [done|]; split; [by left|]. exists []. split; [apply sublist_nil_l|done].
  - exists out. split; [done|]. split; [right; lia|]. exists (robust_match ransac ms). split; [by etrans|done].
Qed.

(** ** Saving and loading *)
Section Save.
Context (refs : list string).
Notation pairs_t := (list ((string * string) * list (nat * nat))).
Definition assignable (ps : pairs_t) : Prop := Forall (fun p => p.1.1 ∈ refs \/ p.1.2 ∈ refs) ps.

Lemma assign_err ps e : foldl (assign_pair refs) (Err e) ps = Err e.
Proof. by induction ps. Qed.
Lemma assign_raises (ps : pairs_t) f : (exists f', foldl (assign_pair refs) (Ok f) ps = Ok f') /\ assignable ps \/ foldl (assign_pair refs) (Ok f) ps = Err RuntimeError /\ ~ assignable ps.
Proof.
  revert f. induction ps as [|[[a b] m] ps IH]; intros f; simpl; [left; split; [eauto|constructor]|].
  unfold assignable. rewrite Forall_cons. simpl. destruct (decide (a ∈ refs)) as [Ha|Ha]; [|destruct (decide (b ∈ refs)) as [Hb|Hb]].
  - destruct (IH (<[a:=<[b:=m]> (default ∅ (f !! a))]> f)) as [[? ?]|[? ?]]; [left|right]; tauto.
  - destruct (IH (<[b:=<[a:=m]> (default ∅ (f !! b))]> f)) as [[? ?]|[? ?]]; [left|right]; tauto.
  - right. rewrite assign_err. split; [done|]. tauto.
Qed.
(** the file in which a pair goes *)
Lemma assign_lookup (ps : pairs_t) : forall f f', (forall im, im ∈ refs -> is_Some (f !! im)) -> foldl (assign_pair refs) (Ok f) ps = Ok f' ->
  Forall (fun p => p.1.1 ∈ refs) ps -> NoDup (map fst ps) ->
  forall a, f' !! a = (fun g : gmap string _ => list_to_map (omap (fun p => if decide (p.1.1 = a) then Some (p.1.2, p.2) else None) ps) ∪ g) <$> f !! a.
Proof.
  induction ps as [|[[a b] m] ps IH]; intros f f' Hf Hps Hin Hnd c.
  - injection Hps as <-. cbn. destruct (f !! c); simpl; [|done]. by rewrite (left_id_L ∅ (∪)).
  - apply Forall_cons in Hin as [Ha Hin]. cbn [map] in Hnd. apply NoDup_cons in Hnd as [Hn Hnd]. simpl in Ha.
    cbn [foldl] in Hps. unfold assign_pair at 2 in Hps. cbn [res_bind] in Hps. rewrite decide_True in Hps by done.
    set (f1 := <[a := _]> f) in Hps.
    assert (forall im, im ∈ refs -> is_Some (f1 !! im)) as Hf1.
    { intros im Him. unfold f1. destruct (decide (a = im)) as [->|]; [rewrite lookup_insert; eauto|rewrite lookup_insert_ne by done; auto]. }
    rewrite (IH _ _ Hf1 Hps Hin Hnd). unfold f1.
    cbn [omap list_omap fst snd]. destruct (decide (a = c)) as [<-|Hac].
    + rewrite lookup_insert. destruct (Hf a Ha) as [g ->]. cbn. f_equal.
      rewrite <- insert_union_r; [by rewrite <- insert_union_l|].
      apply not_elem_of_list_to_map_1. intros Hb. apply Hn.
      apply elem_of_list_fmap in Hb as ([b' m'] & -> & Hb). apply elem_of_list_omap in Hb as ([[a' b''] m''] & Hb & Hd). cbn in Hd.
      case_decide; [|done]. simplify_eq. apply elem_of_list_fmap. eexists. by split; [|exact Hb].
    + by rewrite lookup_insert_ne.
Qed.
Lemma elem_of_omap_first (ps : pairs_t) a b m : NoDup (map fst ps) ->
  (list_to_map (omap (fun p => if decide (p.1.1 = a) then Some (p.1.2, p.2) else None) ps) : gmap string _) !! b = Some m <-> ((a, b), m) ∈ ps.
Proof.
  intros Hnd. rewrite <- elem_of_list_to_map.
  - rewrite elem_of_list_omap. split.
    + intros ([[a' b'] m'] & Hin & Hd). cbn in Hd. case_decide; [|done]. by simplify_eq.
    + intros Hin. exists ((a, b), m). cbn. by rewrite decide_True.
  - induction ps as [|[[a' b'] m'] ps IH]; [constructor|]. cbn [map] in Hnd. apply NoDup_cons in Hnd as [Hn Hnd]. cbn [omap list_omap fst snd].
    case_decide as Hd; [|by apply IH]. cbn. constructor; [|by apply IH]. intros Hb. apply Hn.
    apply elem_of_list_fmap in Hb as ([b'' m''] & Hb' & Hb). apply elem_of_list_omap in Hb as ([[a3 b3] m3] & Hb & He). cbn in He, Hb'.
    case_decide; [|done]. simplify_eq. apply elem_of_list_fmap. eexists. by split; [|exact Hb].
Qed.
Lemma empty_files_lookup a : (list_to_map (map (fun im => (im, ∅)) refs) : files) !! a = if decide (a ∈ refs) then Some ∅ else None.
Proof.
  induction refs as [|x l IH]; [done|]. cbn [map list_to_map foldr]. cbn.
  destruct (decide (x = a)) as [->|Hne]; [rewrite lookup_insert, decide_True by set_solver; done|].
  rewrite lookup_insert_ne by done. etrans; [exact IH|]. repeat case_decide; set_solver.
Qed.
Lemma save_lookup disk (ps : pairs_t) disk' : save_matches disk refs ps = Ok disk' -> Forall (fun p => p.1.1 ∈ refs) ps -> NoDup (map fst ps) ->
  forall a b m, (disk' !! a ≫= (.!! b) = Some m <-> if decide (a ∈ refs) then ((a, b), m) ∈ ps else disk !! a ≫= (.!! b) = Some m) /\ (a ∉ refs -> disk' !! a = disk !! a).
Proof.
  unfold save_matches. intros Hs Hin Hnd a b m. destruct (foldl _ _ _) as [f'|] eqn:E; [|done]. cbn in Hs. injection Hs as <-.
  assert (forall im, im ∈ refs -> is_Some ((list_to_map (map (fun im => (im, ∅)) refs) : files) !! im)) as Hf.
  { intros im Him. rewrite empty_files_lookup, decide_True by done. eauto. }
  pose proof (assign_lookup ps _ _ Hf E Hin Hnd a) as Ha.
  rewrite empty_files_lookup in Ha. case_decide as Hd.
  - cbn in Ha. split; [|done]. rewrite (lookup_union_Some_l _ _ _ _ Ha). cbn. rewrite (right_id_L ∅ (∪)). by apply elem_of_omap_first.
  - cbn in Ha. rewrite lookup_union, Ha. split; [by rewrite (left_id_L None _)|]. intros _. by rewrite (left_id_L None _).
Qed.
End Save.

Lemma load_image_lookup disk images im1 acc a b :
  load_image disk images im1 acc !! (a, b) = if decide (a = im1 /\ b ∈ images /\ is_Some (disk !! im1 ≫= (.!! b))) then disk !! im1 ≫= (.!! b) else acc !! (a, b).
Proof.
  unfold load_image. destruct (disk !! im1) as [f|] eqn:Ef; [|rewrite decide_False; [done|]; cbn; intros (_ & _ & [? ?]); done]. cbn.
  pose (P := fun (r : gmap (string * string) (list fmatch)) (f : gmap string (list fmatch)) => r !! (a, b) = if decide (a = im1 /\ b ∈ images /\ is_Some (f !! b)) then f !! b else acc !! (a, b)).
  change (P (map_fold (fun im2 m acc => if decide (im2 ∈ images) then <[(im1, im2) := m]> acc else acc) acc f) f).
  apply (map_fold_ind P); unfold P; clear P.
  - rewrite decide_False; [done|]. rewrite lookup_empty. intros (_ & _ & [? ?]). done.
  - intros j m g r Hj IH. destruct (decide (b = j)) as [->|Hne].
    + rewrite (lookup_insert g). destruct (decide (j ∈ images)) as [Hi|Hi].
      * destruct (decide (a = im1)) as [->|Ha].
        -- by rewrite lookup_insert, decide_True by eauto.
        -- rewrite lookup_insert_ne by congruence. rewrite IH. rewrite !decide_False by tauto. done.
      * rewrite IH. rewrite !decide_False by tauto. done.
    + rewrite lookup_insert_ne by done. rewrite <- IH. destruct (decide (j ∈ images)); [|done]. by rewrite lookup_insert_ne by congruence.
Qed.
Lemma load_matches_lookup disk images a b m :
  load_matches disk images !! (a, b) = Some m <-> a ∈ images /\ b ∈ images /\ disk !! a ≫= (.!! b) = Some m.
Proof.
  unfold load_matches.
  assert (forall l acc, foldl (fun acc im1 => load_image disk images im1 acc) acc l !! (a, b) = if decide (a ∈ l /\ b ∈ images /\ is_Some (disk !! a ≫= (.!! b))) then disk !! a ≫= (.!! b) else acc !! (a, b)) as H.
  { induction l as [|x l IH]; intros acc; cbn [foldl]; [rewrite decide_False; [done|]; set_solver|]. rewrite IH, load_image_lookup.
    destruct (decide (a = x)) as [<-|Hne].
    - destruct (decide (b ∈ images /\ is_Some (disk !! a ≫= (.!! b)))) as [[? ?]|Hn].
      + rewrite (decide_True (P:=a = a /\ _)) by done. rewrite (decide_True (P:=a ∈ a :: l /\ _)) by (split; [set_solver|done]). by case_decide.
      + rewrite !decide_False by tauto. done.
    - rewrite (decide_False (P:=a = x /\ _)) by tauto. destruct (decide (a ∈ l)).
      + destruct (decide (b ∈ images /\ is_Some (disk !! a ≫= (.!! b)))) as [[? ?]|Hn].
        * rewrite !decide_True; [done|split; [set_solver|done]|done].
        * rewrite !decide_False by tauto. done.
      + rewrite !decide_False; [done|rewrite elem_of_cons; tauto|tauto]. }
  rewrite H. clear H. destruct (decide (a ∈ images /\ b ∈ images /\ is_Some (disk !! a ≫= (.!! b)))) as [(? & ? & ?)|Hd]; [split; [by intros ->|by intros (_ & _ & ->)]|].
  rewrite lookup_empty. split; [done|]. intros (? & ? & Hm). exfalso. apply Hd. rewrite Hm. split_and!; eauto.
Qed.
Lemma with_pairs_lookup mtch pairs p : match_images_with_pairs mtch pairs !! p = if decide (p ∈ pairs) then Some (mtch p.1 p.2) else None.
Proof.
  unfold match_images_with_pairs.
  assert (forall acc : gmap (string * string) (list fmatch), foldl (fun acc '(im1, im2) => <[(im1, im2) := mtch im1 im2]> acc) acc pairs !! p = if decide (p ∈ pairs) then Some (mtch p.1 p.2) else acc !! p) as H.
  { induction pairs as [|[a b] l IH]; intros acc; cbn [foldl]; [rewrite decide_False; [done|set_solver]|]. rewrite IH.
    destruct (decide (p ∈ l)) as [Hp|Hp]; [rewrite decide_True; [done|set_solver]|].
    destruct (decide (p = (a, b))) as [->|Hne]; [rewrite lookup_insert, decide_True; [done|set_solver]|].
    rewrite lookup_insert_ne by done. rewrite decide_False; [done|set_solver]. }
  by rewrite H, lookup_empty.
Qed.
Lemma sublist_NoDup {A} (l k : list A) : sublist l k -> NoDup k -> NoDup l.
Proof. induction 1 as [|x l k Hs IH|x l k Hs IH]; intros Hn; [done| |]; apply NoDup_cons in Hn as [Hx Hn]; [constructor; [|by apply IH]|by apply IH]. intros Hl. apply Hx. by eapply sublist_elem. Qed.
