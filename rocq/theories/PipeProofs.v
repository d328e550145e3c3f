(** Proofs about the depth maps of a dataset *)
From stdpp Require Import prelude gmap strings sorting.
From Coq Require Import Reals Lra Psatz.
From Verif Require Import Base Lin GeoProps DenseModel DenseSpec DenseProofs DenseProps CleanProofs PipeModel PipeSpec.
Local Open Scope R_scope.

(** ** Angles *)
Lemma angle_spec p c1 c2 : 0 < norm (vsub c1 p) -> 0 < norm (vsub c2 p) -> angle_at p c1 c2 (angle_between_points p c1 c2).
Proof.
  intros H1 H2. unfold angle_at, angle_between_points. cbv zeta. set (a := vsub c1 p) in *. set (b := vsub c2 p) in *. pose proof (dot_nonneg a) as Da. pose proof (dot_nonneg b) as Db.
  assert (sqrt (dot a a * dot b b) = norm a * norm b) as E by (unfold norm; by rewrite sqrt_mult). rewrite E.
  assert (0 < norm a * norm b) as P by nra. pose proof (dot_le_norm a b) as U. pose proof (dot_le_norm (vopp a) b) as L.
  assert (dot (vopp a) b = - dot a b) as E1 by (unfold dot, vopp; cbn; ring). assert (norm (vopp a) = norm a) as E2 by (unfold norm, dot, vopp; cbn; f_equal; ring). rewrite E1, E2 in L.
  assert (-1 <= dot a b / (norm a * norm b) <= 1) as B.
  { split; apply (Rmult_le_reg_r (norm a * norm b)); try done; unfold Rdiv; rewrite Rmult_assoc, Rinv_l by lra; lra. }
  split; [apply acos_bound|]. split; [done|]. split; [done|]. rewrite cos_acos by done. field. split; lra.
Qed.
Lemma angle_unique p c1 c2 t1 t2 : angle_at p c1 c2 t1 -> angle_at p c1 c2 t2 -> t1 = t2.
Proof.
  intros (B1 & P1 & P2 & E1) (B2 & _ & _ & E2). rewrite E1 in E2. assert (cos t1 = cos t2) as E by (apply (Rmult_eq_reg_l (norm (vsub c1 p) * norm (vsub c2 p))); nra).
  rewrite <-(acos_cos t1), <-(acos_cos t2) by lra. by rewrite E.
Qed.
Lemma in_range_useful points c1 c2 t : in_range points c1 c2 t = true <-> useful_track points c1 c2 t.
Proof.
  unfold in_range, useful_track. destruct (points !! t) as [p|] eqn:E; [|split; [done|by intros (? & ? & ? & _)]]. cbv zeta.
  assert (PI / 60 = 3 / 180 * PI) as -> by field. assert (PI / 6 = 30 / 180 * PI) as -> by field. pose proof PI_RGT_0 as PP.
  destruct (Rle_lt_or_eq_dec _ _ (norm_nonneg (vsub c1 p))) as [H1|H1]; [destruct (Rle_lt_or_eq_dec _ _ (norm_nonneg (vsub c2 p))) as [H2|H2]|].
  - pose proof (angle_spec p c1 c2 H1 H2) as A. split.
    + destruct (Rlt_dec _ _); [|done]. destruct (Rlt_dec _ _); [|done]. intros _. exists p, (angle_between_points p c1 c2). done.
    + intros (p' & theta & E' & A' & L & U). assert (p' = p) as -> by congruence. rewrite (angle_unique _ _ _ _ _ A A'). destruct (Rlt_dec _ _); [|lra]. destruct (Rlt_dec _ _); [done|lra].
  - split; [|intros (p' & theta & E' & (_ & _ & Z & _) & _); assert (p' = p) as -> by congruence; lra]. symmetry in H2. apply norm_0 in H2. unfold angle_between_points. cbv zeta. rewrite H2.
    assert (forall u, dot u v0 = 0) as Z by (intros u; unfold dot, v0; cbn; ring). rewrite !Z. assert (forall y, 0 / y = 0) as Z' by (intros y; unfold Rdiv; ring). rewrite !Z', acos_0. destruct (Rlt_dec (PI / 2) _); [lra|]. by rewrite andb_false_r.
  - split; [|intros (p' & theta & E' & (_ & Z & _) & _); assert (p' = p) as -> by congruence; lra]. symmetry in H1. apply norm_0 in H1. unfold angle_between_points. cbv zeta. rewrite H1.
    assert (forall u, dot v0 u = 0) as Z by (intros u; unfold dot, v0; cbn; ring). rewrite !Z. assert (forall y, 0 / y = 0) as Z' by (intros y; unfold Rdiv; ring). rewrite !Z', acos_0. destruct (Rlt_dec (PI / 2) _); [lra|]. by rewrite andb_false_r.
Qed.
Lemma angle_at_sym p c1 c2 t : angle_at p c1 c2 t -> angle_at p c2 c1 t.
Proof.
  intros (B & P1 & P2 & E). split; [done|]. split; [done|]. split; [done|]. assert (dot (vsub c2 p) (vsub c1 p) = dot (vsub c1 p) (vsub c2 p)) as -> by (unfold dot; ring). rewrite E. ring.
Qed.
Lemma useful_sym points c1 c2 t : useful_track points c1 c2 t -> useful_track points c2 c1 t.
Proof. intros (p & theta & E & A & B). exists p, theta. split; [done|]. split; [by apply angle_at_sym|done]. Qed.
Lemma filter_exactly {A} (P Q : A -> Prop) `{forall a, Decision (P a)} l : (forall a, P a <-> Q a) -> exactly (length (filter P l)) Q l.
Proof.
  intros HPQ. induction l as [|a l (ks & ND & L & Hk)].
  - exists []. split; [constructor|]. split; [done|]. intros k. split; [by intros ?%elem_of_nil|]. by intros (? & ? & _).
  - rewrite filter_cons. destruct (decide (P a)) as [Pa|Pa].
    + exists (0%nat :: (S <$> ks)). split; [constructor; [by intros (? & ? & ?)%elem_of_list_fmap|apply NoDup_fmap_2; [intros ??; lia|done]]|]. split; [cbn; by rewrite fmap_length, L|].
      intros [|k]; [split; [intros _; exists a; split; [done|by apply HPQ]|intros _; left]|]. rewrite elem_of_cons, elem_of_list_fmap. cbn. rewrite <-Hk. split; [intros [?|(k' & [= ->] & ?)]; done|]. intros. right. eauto.
    + exists (S <$> ks). split; [apply NoDup_fmap_2; [intros ??; lia|done]|]. split; [by rewrite fmap_length|]. intros [|k].
      * split; [by intros (? & ? & ?)%elem_of_list_fmap|]. intros (a' & [= <-] & Qa). by apply HPQ in Qa.
      * rewrite elem_of_list_fmap. cbn. rewrite <-Hk. split; [by intros (k' & [= ->] & ?)|]. intros. eauto.
Qed.

(** ** Dicts *)
Section Dict.
Context {V : Type}.
Lemma get_cons (k k' : string) (v : V) d : dict_get k ((k', v) :: d) = if decide (k' = k) then Some v else dict_get k d.
Proof. unfold dict_get. rewrite filter_cons. cbn [fst]. by destruct (decide (k' = k)). Qed.
Lemma get_none (k : string) (d : list (string * V)) : dict_get k d = None <-> k ∉ fst <$> d.
Proof.
  induction d as [|[k' v] d IH]; [split; [intros _ ?%elem_of_nil; done|done]|]. rewrite get_cons. cbn. rewrite not_elem_of_cons. destruct (decide (k' = k)) as [-> |N]; [split; [done|by intros [? _]]|]. rewrite IH. naive_solver.
Qed.
Lemma get_set (k k' : string) (v : V) d : dict_get k' (dict_set k v d) = if decide (k' = k) then Some v else dict_get k' d.
Proof.
  unfold dict_set. destruct (decide (k ∈ fst <$> d)) as [H|H].
  - induction d as [|[a w] d IH]; [by apply elem_of_nil in H|]. cbn [fmap list_fmap fst]. destruct (decide (a = k)) as [-> |N].
    + rewrite !get_cons. destruct (decide (k = k')) as [-> |N']; [by rewrite decide_True|]. rewrite (decide_False (P := k' = k)) by congruence.
      destruct (decide (k ∈ fst <$> d)) as [H'|H']; [rewrite IH by done; by rewrite decide_False by congruence|].
      assert ((fun e : string * V => if decide (e.1 = k) then (k, v) else e) <$> d = d) as ->; [|done]. clear -H'. induction d as [|[a w] d IH]; [done|]. cbn in *. apply not_elem_of_cons in H' as [H1 H2]. rewrite decide_False by done. by rewrite IH.
    + rewrite !get_cons. assert (k ∈ fst <$> d) as H' by (cbn in H; apply elem_of_cons in H as [|]; [congruence|done]). rewrite IH by done. destruct (decide (a = k')) as [-> |]; [by rewrite decide_False|done].
  - induction d as [|[a w] d IH]; [cbn; rewrite get_cons; destruct (decide (k = k')) as [-> |]; [by rewrite decide_True|by rewrite decide_False by congruence]|].
    cbn in H. apply not_elem_of_cons in H as [H1 H2]. cbn [app]. rewrite !get_cons, IH by done. destruct (decide (a = k')) as [-> |]; [by rewrite decide_False by congruence|done].
Qed.
Lemma set_keys (k : string) (v : V) d : NoDup (fst <$> d) -> NoDup (fst <$> dict_set k v d) /\ forall k', k' ∈ fst <$> dict_set k v d <-> k' = k \/ k' ∈ fst <$> d.
Proof.
  intros ND. unfold dict_set. destruct (decide (k ∈ fst <$> d)) as [H|H].
  - assert (fst <$> ((fun e : string * V => if decide (e.1 = k) then (k, v) else e) <$> d) = fst <$> d) as ->.
    { clear. induction d as [|[a w] d IH]; [done|]. cbn. rewrite IH. f_equal. by destruct (decide (a = k)). }
    split; [done|]. intros k'. split; [by right|]. intros [-> |]; done.
  - rewrite fmap_app. split.
    + apply NoDup_app. split; [done|]. split; [|apply NoDup_singleton]. intros k' Hk' ->%elem_of_list_singleton. done.
    + intros k'. rewrite elem_of_app. cbn. rewrite elem_of_list_singleton. tauto.
Qed.
End Dict.
Definition common_of (res : list (string * list (string * list string))) (a b : string) : option (list string) := dict_get a res ≫= dict_get b.
Lemma add_pair_common res a b v x y : a <> b -> common_of (add_pair res ((a, b), v)) x y =
  if decide ((x, y) = (a, b) \/ (x, y) = (b, a)) then Some v else common_of res x y.
Proof.
  intros N. unfold add_pair, common_of. rewrite !get_set. destruct (decide (b = a)) as [->|_]; [done|].
  destruct (decide (x = b)) as [-> |Nb].
  - cbn. rewrite get_set. destruct (decide (y = a)) as [-> |Na]; [rewrite decide_True by (by right); done|]. rewrite decide_False by (intros [[= -> ->]|[= ->]]; done). destruct (dict_get b res); done.
  - destruct (decide (x = a)) as [-> |Na].
    + cbn. rewrite get_set. destruct (decide (y = b)) as [-> |N']; [rewrite decide_True by (by left); done|]. rewrite decide_False by (intros [[= ->]|[= -> ->]]; done). destruct (dict_get a res); done.
    + rewrite decide_False by (intros [[= -> ->]|[= -> ->]]; done). done.
Qed.
Lemma common_start ids x y : common_of ((fun im => (im, [])) <$> ids) x y = None.
Proof. unfold common_of. induction ids as [|i ids IH]; [done|]. cbn [fmap list_fmap]. rewrite get_cons. destruct (decide (i = x)); [done|exact IH]. Qed.
Lemma common_all ids pairs x y : Forall (fun e : (string * string) * list string => e.1.1 <> e.1.2) pairs -> NoDup (fst <$> pairs) -> (forall a b, (a, b) ∈ fst <$> pairs -> (b, a) ∉ fst <$> pairs) ->
  forall v, common_of (common_tracks_double_dict ids pairs) x y = Some v <-> ((x, y), v) ∈ pairs \/ ((y, x), v) ∈ pairs.
Proof.
  unfold common_tracks_double_dict. intros HN ND HS. induction pairs as [|[[a b] w] pairs IH] using rev_ind; intros v.
  - cbn. rewrite common_start. rewrite !elem_of_nil. split; [done|tauto].
  - rewrite foldl_app. cbn [foldl]. apply Forall_app in HN as [HN HN2]. assert (a <> b) as HN3 by (by inversion HN2). rewrite fmap_app in ND, HS. apply NoDup_app in ND as (ND & D & _).
    rewrite (add_pair_common _ _ _ _ _ _ HN3). rewrite !elem_of_app, !elem_of_list_singleton. specialize (IH HN ND).
    assert (forall u, ((a, b), u) ∉ pairs) as F1. { intros u Hu. apply (D (a, b)); [apply elem_of_list_fmap; eexists; split; [|exact Hu]; done|cbn; apply elem_of_list_singleton; done]. }
    assert (forall u, ((b, a), u) ∉ pairs) as F2. { intros u Hu. apply (HS b a); [apply elem_of_app; left; apply elem_of_list_fmap; eexists; split; [|exact Hu]; done|apply elem_of_app; right; cbn; by apply elem_of_list_singleton]. }
    destruct (decide ((x, y) = (a, b) \/ (x, y) = (b, a))) as [[[= -> ->]|[= -> ->]]|N].
    + split; [intros [= ->]; left; by right|]. intros [[H|[= ->]]|[H|[= -> _]]]; [by apply F1 in H|done|by apply F2 in H|done].
    + split; [intros [= ->]; right; by right|]. intros [[H|[= -> _]]|[H|[= ->]]]; [by apply F2 in H|done|by apply F1 in H|done].
    + rewrite IH.
      * split; [tauto|]. intros [[H|[= -> -> ->]]|[H|[= -> -> ->]]]; [by left| |by right|]; exfalso; apply N; tauto.
      * intros c d Hcd Hdc. apply (HS c d); apply elem_of_app; by left.
Qed.
Lemma double_dict_keys ids pairs a d : dict_get a (common_tracks_double_dict ids pairs) = Some d -> NoDup (fst <$> d).
Proof.
  unfold common_tracks_double_dict. revert a d. induction pairs as [|[[x y] v] pairs IH] using rev_ind; intros a d.
  - cbn. intros H. assert (d = []) as ->; [|constructor]. revert H. induction ids as [|i ids IH]; [done|]. cbn [fmap list_fmap]. rewrite get_cons. destruct (decide (i = a)); [by intros [= <-]|exact IH].
  - rewrite foldl_app. cbn [foldl]. unfold add_pair. set (res := foldl add_pair _ pairs) in *. assert (forall k, NoDup (fst <$> default [] (dict_get k res))) as G.
    { intros k. destruct (dict_get k res) as [e|] eqn:E; [by eapply IH|constructor]. }
    rewrite !get_set. destruct (decide (a = y)) as [->|]; [intros [= <-]|].
    + destruct (decide (y = x)) as [->|]; cbn; apply set_keys; [apply set_keys; apply G|apply G].
    + destruct (decide (a = x)) as [->|]; [intros [= <-]; apply set_keys, G|]. apply IH.
Qed.

(** ** Percentiles *)
Global Instance Rle_total : Total Rle. Proof. intros x y. destruct (Rle_lt_dec x y); [by left|right; lra]. Qed.
Global Instance Rle_transitive : Transitive Rle. Proof. intros x y z. apply Rle_trans. Qed.
Lemma sorted_lookup {A} (rel : A -> A -> Prop) l : StronglySorted rel l -> forall i j a b, (i < j)%nat -> l !! i = Some a -> l !! j = Some b -> rel a b.
Proof.
  induction 1 as [|c l S IH F]; [done|]. intros [|i] [|j] a b L Ha Hb; try lia; cbn in *.
  - injection Ha as ->. rewrite Forall_forall in F. apply F. by eapply elem_of_list_lookup_2.
  - apply (IH i j a b); [lia|done|done].
Qed.
Lemma sorted_lookup_le l i j a b : StronglySorted Rle l -> (i <= j)%nat -> l !! i = Some a -> l !! j = Some b -> a <= b.
Proof. intros S L Ha Hb. destruct (decide (i = j)) as [-> |N]; [assert (a = b) by congruence; lra|]. eapply (sorted_lookup Rle l S i j); [lia|done|done]. Qed.
(** the value at the position x of a sorted list *)
Definition value_at (l : list R) (x : R) : option R :=
  let k := Z.to_nat (Int_part x) in a ← l !! k; Some (match l !! S k with Some b => a + (x - INR k) * (b - a) | None => a end).
Lemma percentile_value l q : percentile l q = value_at (merge_sort Rle l) (q / 100 * (INR (length l) - 1)). Proof. done. Qed.
Lemma floor_nat x : 0 <= x -> INR (Z.to_nat (Int_part x)) <= x < INR (Z.to_nat (Int_part x)) + 1.
Proof.
  intros H. destruct (base_Int_part x) as [H1 H2]. assert (0 <= Int_part x)%Z. { apply Z.lt_succ_r, lt_IZR. rewrite succ_IZR. lra. }
  rewrite INR_IZR_INZ, Z2Nat.id by done. lra.
Qed.
Lemma value_cases l x : 0 <= x <= INR (length l) - 1 -> exists k a, l !! k = Some a /\
  ((x = INR k /\ value_at l x = Some a) \/ (exists b, INR k < x < INR k + 1 /\ l !! S k = Some b /\ value_at l x = Some (a + (x - INR k) * (b - a)))).
Proof.
  intros [H0 H1]. pose proof (floor_nat x H0) as [F1 F2]. unfold value_at. cbv zeta. set (k := Z.to_nat (Int_part x)) in *.
  assert (k < length l)%nat as Hk by (apply INR_lt; lra). destruct (lookup_lt_is_Some_2 l k Hk) as [a Ha]. exists k, a. split; [done|]. rewrite Ha. cbn.
  destruct (Rle_lt_or_eq_dec _ _ F1) as [L|E].
  - right. assert (S k < length l)%nat as Hk' by (apply INR_lt; rewrite S_INR; lra). destruct (lookup_lt_is_Some_2 l (S k) Hk') as [b Hb]. exists b. rewrite Hb. split; [lra|done].
  - left. split; [done|]. destruct (l !! S k) as [b|]; [|done]. f_equal. rewrite <-E. ring.
Qed.
Lemma value_splits l x : StronglySorted Rle l -> 0 <= x <= INR (length l) - 1 -> exists m, value_at l x = Some m /\
  (exists n, x < INR n /\ at_least n (fun d => d <= m) l) /\ (exists n, INR (length l) - 1 - x < INR n /\ at_least n (fun d => m <= d) l).
Proof.
  intros S H. destruct (value_cases l x H) as (k & a & Ha & [[Ex Ev]|(b & Bx & Hb & Ev)]).
  - exists a. split; [done|]. assert (k < length l)%nat as Hk by (by eapply lookup_lt_Some). split.
    + exists (1 + k)%nat. split; [rewrite plus_INR; cbn; lra|]. exists (seq 0 (1 + k)). split; [apply NoDup_seq|]. rewrite seq_length. split; [done|]. intros i [_ Hi]%elem_of_seq.
      destruct (lookup_lt_is_Some_2 l i ltac:(lia)) as [d Hd]. exists d. split; [done|]. eapply (sorted_lookup_le l i k); [done|lia|done|done].
    + exists (length l - k)%nat. split; [rewrite minus_INR by lia; lra|]. exists (seq k (length l - k)). split; [apply NoDup_seq|]. rewrite seq_length. split; [done|]. intros i Hi%elem_of_seq.
      destruct (lookup_lt_is_Some_2 l i ltac:(lia)) as [d Hd]. exists d. split; [done|]. eapply (sorted_lookup_le l k i); [done|lia|done|done].
  - exists (a + (x - INR k) * (b - a)). split; [done|]. assert (a <= b) as Hab by (eapply (sorted_lookup_le l k (1 + k)); [done|lia|done|done]). assert (1 + k < length l)%nat as Hk by (by eapply lookup_lt_Some). split.
    + exists (1 + k)%nat. split; [rewrite plus_INR; cbn; lra|]. exists (seq 0 (1 + k)). split; [apply NoDup_seq|]. rewrite seq_length. split; [done|]. intros i [_ Hi]%elem_of_seq.
      destruct (lookup_lt_is_Some_2 l i ltac:(lia)) as [d Hd]. exists d. split; [done|]. assert (d <= a) by (eapply (sorted_lookup_le l i k); [done|lia|done|done]). nra.
    + exists (length l - (1 + k))%nat. split; [rewrite minus_INR, plus_INR by lia; cbn; lra|]. exists (seq (1 + k) (length l - (1 + k))). split; [apply NoDup_seq|]. rewrite seq_length. split; [done|]. intros i Hi%elem_of_seq.
      destruct (lookup_lt_is_Some_2 l i ltac:(lia)) as [d Hd]. exists d. split; [done|]. assert (b <= d) by (eapply (sorted_lookup_le l (1 + k) i); [done|lia|done|done]). nra.
Qed.
Lemma value_mono l x y m m' : StronglySorted Rle l -> 0 <= x <= y -> y <= INR (length l) - 1 -> value_at l x = Some m -> value_at l y = Some m' -> m <= m'.
Proof.
  intros S Hx Hy Em Em'. destruct (value_cases l x ltac:(lra)) as (k & a & Ha & C). destruct (value_cases l y ltac:(lra)) as (k' & a' & Ha' & C').
  assert (k <= k')%nat as Lk. { apply Nat.lt_succ_r, INR_lt. rewrite S_INR. destruct C as [[? _]|(? & ? & _)], C' as [[? _]|(? & ? & _)]; lra. }
  destruct (decide (k = k')) as [<-|N].
  - assert (a' = a) as -> by congruence. destruct C as [[Ex Ev]|(b & Bx & Hb & Ev)], C' as [[Ex' Ev']|(b' & Bx' & Hb' & Ev')]; rewrite Ev in Em; rewrite Ev' in Em'; injection Em as <-; injection Em' as <-.
    + lra.
    + assert (a <= b') by (eapply (sorted_lookup_le l k (1 + k)); [done|lia|done|done]). nra.
    + lra.
    + assert (b' = b) as -> by congruence. assert (a <= b) by (eapply (sorted_lookup_le l k (1 + k)); [done|lia|done|done]). nra.
  - assert (a' <= m'). { destruct C' as [[Ex' Ev']|(b' & Bx' & Hb' & Ev')]; rewrite Ev' in Em'; injection Em' as <-; [lra|]. assert (a' <= b') by (eapply (sorted_lookup_le l k' (1 + k')); [done|lia|done|done]). nra. }
    assert (m <= a'); [|lra]. destruct C as [[Ex Ev]|(b & Bx & Hb & Ev)]; rewrite Ev in Em; injection Em as <-; [eapply (sorted_lookup_le l k k'); [done|lia|done|done]|].
    assert (a <= b) by (eapply (sorted_lookup_le l k (1 + k)); [done|lia|done|done]). assert (b <= a') by (eapply (sorted_lookup_le l (1 + k) k'); [done|lia|done|done]). nra.
Qed.
Lemma sort_sorted l : StronglySorted Rle (merge_sort Rle l). Proof. apply (StronglySorted_merge_sort Rle). Qed.
Lemma sort_length l : length (merge_sort Rle l) = length l. Proof. apply Permutation_length, merge_sort_Permutation. Qed.
Lemma at_least_perm (P : R -> Prop) `{forall d, Decision (P d)} n l l' : l ≡ₚ l' -> at_least n P l -> at_least n P l'.
Proof. intros HP HA. apply (filter_at_least P P) in HA; [|done]. apply (filter_at_least P P); [done|]. by rewrite <-HP. Qed.
Lemma percentile_splits l q : l <> [] -> 0 <= q <= 100 -> exists m, percentile l q = Some m /\ splits l q m.
Proof.
  intros N Q. set (x := q / 100 * (INR (length l) - 1)). assert (1 <= INR (length l)) as L. { destruct l; [done|]. cbn [length]. rewrite S_INR. pose proof (pos_INR (length l)). lra. }
  assert (0 <= x <= INR (length (merge_sort Rle l)) - 1) as X by (rewrite sort_length; unfold x; nra).
  destruct (value_splits _ _ (sort_sorted l) X) as (m & E & (n1 & L1 & A1) & (n2 & L2 & A2)). exists m. split; [done|]. rewrite sort_length in L2.
  apply (at_least_perm _ _ _ l) in A1; [|apply merge_sort_Permutation]. apply (at_least_perm _ _ _ l) in A2; [|apply merge_sort_Permutation]. destruct A1 as (ks1 & N1 & Len1 & K1). destruct A2 as (ks2 & N2 & Len2 & K2).
  split.
  - exists ks1. split; [done|]. split; [|done]. apply le_INR in Len1. fold x. lra.
  - exists ks2. split; [done|]. split; [|done]. apply le_INR in Len2. assert ((100 - q) / 100 * (INR (length l) - 1) = INR (length l) - 1 - x) as -> by (unfold x; field). lra.
Qed.
Lemma percentile_mono l q q' m m' : l <> [] -> 0 <= q <= q' -> q' <= 100 -> percentile l q = Some m -> percentile l q' = Some m' -> m <= m'.
Proof.
  intros N Q Q'. rewrite !percentile_value. assert (1 <= INR (length l)) as L. { destruct l; [done|]. cbn [length]. rewrite S_INR. pose proof (pos_INR (length l)). lra. }
  apply value_mono; [apply sort_sorted|nra|]. rewrite sort_length. nra.
Qed.
Lemma percentile_within l q m : l <> [] -> 0 <= q <= 100 -> percentile l q = Some m -> exists a b, a ∈ l /\ b ∈ l /\ a <= m <= b.
Proof.
  intros N Q E. destruct (percentile_splits l q N Q) as (m' & E' & (ks1 & N1 & L1 & K1) & (ks2 & N2 & L2 & K2)). assert (m' = m) as -> by congruence.
  assert (1 <= INR (length l)) as L. { destruct l; [done|]. cbn [length]. rewrite S_INR. pose proof (pos_INR (length l)). lra. }
  destruct ks1 as [|k1 ks1]; [cbn in L1; nra|]. destruct ks2 as [|k2 ks2]; [cbn in L2; nra|]. destruct (K1 k1 ltac:(left)) as (a & Ha & La). destruct (K2 k2 ltac:(left)) as (b & Hb & Lb).
  exists a, b. split; [by eapply elem_of_list_lookup_2|]. split; [by eapply elem_of_list_lookup_2|]. lra.
Qed.
Lemma percentile_none l q : l = [] -> percentile l q = None. Proof. by intros ->. Qed.

(** ** Positions in a list *)
Lemma exactly_unique {A} n m (P : A -> Prop) l : exactly n P l -> exactly m P l -> n = m.
Proof.
  intros (ks & N & <- & H) (ks' & N' & <- & H'). apply Permutation_length, NoDup_Permutation; [done|done|]. intros k. by rewrite H, H'.
Qed.
Lemma grid_lookup rs cs i j k l : rs !! i = Some k -> cs !! j = Some l -> grid rs cs !! (i * length cs + j)%nat = Some (k, l).
Proof.
  intros Hr Hc. revert i Hr. unfold grid. induction rs as [|r rs IH]; [done|]. intros [|i] Hr; cbn [mbind list_bind].
  - injection Hr as ->. rewrite lookup_app_l by (rewrite fmap_length; by eapply lookup_lt_Some). cbn [Nat.mul Nat.add]. by rewrite list_lookup_fmap, Hc.
  - rewrite lookup_app_r by (rewrite fmap_length; lia). rewrite fmap_length. replace (S i * length cs + j - length cs)%nat with (i * length cs + j)%nat by lia. by apply IH.
Qed.
Lemma zrange_lookup b i : (0 <= i < b)%Z -> zrange 0 b !! Z.to_nat i = Some i.
Proof. intros H. unfold zrange. rewrite list_lookup_fmap, lookup_seq_lt by lia. cbn. f_equal. lia. Qed.
Lemma grid_length rs cs : length (grid rs cs) = (length rs * length cs)%nat.
Proof. unfold grid. induction rs as [|r rs IH]; [done|]. cbn. rewrite app_length, fmap_length. f_equal. exact IH. Qed.
Lemma zrange_length b : length (zrange 0 b) = Z.to_nat b. Proof. unfold zrange. rewrite fmap_length, seq_length. f_equal. lia. Qed.
Lemma pixels_lookup {A} (im : image A) i j : (0 <= i < im_rows im)%Z -> (0 <= j < im_cols im)%Z -> pixels im !! Z.to_nat (i * im_cols im + j) = Some (i, j).
Proof.
  intros Hi Hj. unfold pixels. replace (Z.to_nat (i * im_cols im + j)) with (Z.to_nat i * length (zrange 0 (im_cols im)) + Z.to_nat j)%nat by (rewrite zrange_length; nia).
  apply grid_lookup; by apply zrange_lookup.
Qed.
Lemma pixels_elem {A} (im : image A) i j : (i, j) ∈ pixels im <-> (0 <= i < im_rows im)%Z /\ (0 <= j < im_cols im)%Z.
Proof. unfold pixels. by rewrite grid_elem, !zrange_elem. Qed.
Lemma pixels_nodup {A} (im : image A) : NoDup (pixels im). Proof. apply grid_nodup; apply zrange_nodup. Qed.
