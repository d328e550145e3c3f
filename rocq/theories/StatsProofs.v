From stdpp Require Import prelude strings gmap sorting.
From Coq Require Import Reals Lra Lia.
From Verif Require Import Base Lin RotModel PoseModel StatsModel StatsSpec.
Local Open Scope R_scope.

(** Counts *)
Section Counts.
Context {K : Type} `{Countable K}.
Definition weight (f : K -> nat) (h : gmap K nat) : nat := nsum ((fun kv => f kv.1 * kv.2)%nat <$> map_to_list h).
Lemma nsum_perm l k : l ≡ₚ k -> nsum l = nsum k.
Proof. induction 1; unfold nsum in *; cbn in *; lia. Qed.
Lemma nsum_app l k : nsum (l ++ k) = (nsum l + nsum k)%nat.
Proof. unfold nsum. induction l; cbn in *; lia. Qed.
Lemma weight_insert f h k v : h !! k = None -> weight f (<[k := v]> h) = (f k * v + weight f h)%nat.
Proof. intros Hk. unfold weight. erewrite nsum_perm by (apply fmap_Permutation, map_to_list_insert, Hk). done. Qed.
Lemma weight_add f h k v : weight f (add_count k v h) = (weight f h + f k * v)%nat.
Proof.
  unfold add_count. destruct (h !! k) as [w|] eqn:E; cbn [default from_option Datatypes.id].
  - rewrite <- (insert_delete h k w E) at 2. rewrite <- insert_delete_insert. rewrite !weight_insert by apply lookup_delete. lia.
  - rewrite weight_insert by done. lia.
Qed.
Definition positive (h : gmap K nat) : Prop := forall k v, h !! k = Some v -> (0 < v)%nat.
Lemma positive_add k v h : positive h -> (0 < v)%nat -> positive (add_count k v h).
Proof. intros Hh Hv j w. unfold add_count. destruct (decide (k = j)) as [-> |Hne]; [rewrite lookup_insert; intros [= <-]; lia|rewrite lookup_insert_ne by done; apply Hh]. Qed.
Lemma weight_single h j : weight (fun k => if decide (k = j) then 1%nat else 0%nat) h = default 0%nat (h !! j).
Proof.
  induction h as [|k v h Hk IH] using map_ind; [unfold weight; by rewrite map_to_list_empty, lookup_empty|]. rewrite weight_insert, IH by done.
  destruct (decide (k = j)) as [-> |Hne]; [rewrite lookup_insert, Hk|rewrite lookup_insert_ne by done]; cbn; lia.
Qed.
Lemma adds_weight {A} (key : A -> K) f (l : list A) : forall h, weight f (foldl (fun h p => add_count (key p) 1 h) h l) = (weight f h + nsum (f <$> (key <$> l)))%nat.
Proof. induction l as [|a l IH]; intros h; cbn [foldl fmap list_fmap nsum foldr]; [lia|]. rewrite IH, weight_add. fold (nsum (f <$> (key <$> l))). unfold nsum. cbn. lia. Qed.
Lemma adds_positive {A} (key : A -> K) (l : list A) : forall h, positive h -> positive (foldl (fun h p => add_count (key p) 1 h) h l).
Proof. induction l as [|a l IH]; intros h Hh; cbn [foldl]; [done|]. apply IH, positive_add; [done|lia]. Qed.
Lemma merge_weight f (l : list (K * nat)) : forall h, weight f (foldl (fun acc kv => add_count kv.1 kv.2 acc) h l) = (weight f h + nsum ((fun kv => f kv.1 * kv.2)%nat <$> l))%nat.
Proof. induction l as [|[k v] l IH]; intros h; cbn [foldl fmap list_fmap nsum foldr]; [lia|]. rewrite IH, weight_add. cbn. unfold nsum. lia. Qed.
Lemma merge_positive (l : list (K * nat)) : (forall kv, kv ∈ l -> (0 < kv.2)%nat) -> forall h, positive h -> positive (foldl (fun acc kv => add_count kv.1 kv.2 acc) h l).
Proof. induction l as [|[k v] l IH]; intros Hl h Hh; cbn [foldl]; [done|]. apply IH; [intros; apply Hl; by right|]. apply positive_add; [done|]. apply (Hl (k, v)). left. Qed.
End Counts.

(** The histogram *)
Section Tracks.
Context (tl : string -> nat).
Lemma one_weight f points : weight f (length_histogram tl points) = nsum (f <$> (point_length tl <$> points)).
Proof. unfold length_histogram. rewrite adds_weight. unfold weight at 1. by rewrite map_to_list_empty. Qed.
Lemma one_positive points : positive (length_histogram tl points).
Proof. apply adds_positive. intros k v. by rewrite lookup_empty. Qed.
Definition agg (recs : list (list (string * nat))) (h : gmap nat nat) : gmap nat nat :=
  foldl (fun acc points => foldl (fun acc kv => add_count kv.1 kv.2 acc) acc (map_to_list (length_histogram tl points))) h recs.
Lemma agg_cons points recs h : agg (points :: recs) h = agg recs (foldl (fun acc kv => add_count kv.1 kv.2 acc) h (map_to_list (length_histogram tl points))).
Proof. done. Qed.
Lemma agg_weight f recs : forall h, weight f (agg recs h) = (weight f h + nsum (f <$> lengths tl recs))%nat.
Proof.
  unfold lengths. induction recs as [|points recs IH]; intros h; [cbn; lia|]. cbn [concat]. rewrite agg_cons, IH, merge_weight, !fmap_app, nsum_app. fold (weight f (length_histogram tl points)). rewrite one_weight. lia.
Qed.
Lemma agg_positive recs : forall h, positive h -> positive (agg recs h).
Proof.
  induction recs as [|points recs IH]; intros h Hh; [done|]. rewrite agg_cons. apply IH. apply merge_positive; [|done]. intros [k v] Hkv. apply elem_of_map_to_list in Hkv. by apply one_positive in Hkv.
Qed.
Lemma hist_perm recs : hist_agg tl recs ≡ₚ map_to_list (agg recs ∅).
Proof. apply merge_sort_Permutation. Qed.
Lemma hist_weight f recs : nsum ((fun kv => f kv.1 * kv.2)%nat <$> hist_agg tl recs) = nsum (f <$> lengths tl recs).
Proof. erewrite nsum_perm by (apply fmap_Permutation, hist_perm). fold (weight f (agg recs ∅)). rewrite agg_weight. unfold weight. by rewrite map_to_list_empty. Qed.
Lemma nsum_occurrences k l : nsum ((fun x => if decide (x = k) then 1%nat else 0%nat) <$> l) = occurrences k l.
Proof. unfold occurrences. induction l as [|x l IH]; [done|]. cbn [fmap list_fmap nsum foldr]. rewrite filter_cons. unfold nsum in IH. cbn. destruct (decide (x = k)); cbn; by rewrite IH. Qed.
Lemma hist_elem recs k v : (k, v) ∈ hist_agg tl recs <-> (0 < v)%nat /\ v = occurrences k (lengths tl recs).
Proof.
  rewrite hist_perm, elem_of_map_to_list. pose proof (weight_single (agg recs ∅) k) as Hw. rewrite agg_weight, nsum_occurrences in Hw. unfold weight in Hw. rewrite map_to_list_empty in Hw. cbn in Hw. rewrite Hw.
  split; [intros E; rewrite E; split; [eapply agg_positive; [|exact E]; intros ? ?; by rewrite lookup_empty|done]|]. intros [Hv ->]. destruct (agg recs ∅ !! k); [done|cbn in Hv; lia].
Qed.
Lemma hist_keys recs : NoDup (hist_agg tl recs).*1.
Proof. rewrite hist_perm. apply NoDup_fst_map_to_list. Qed.
Global Instance by_length_total : Total by_length.
Proof. intros [a v] [b w]. unfold by_length. cbn. lia. Qed.
Global Instance by_length_trans : Transitive by_length.
Proof. intros [a v] [b w] [c u]. unfold by_length. cbn. lia. Qed.
Lemma hist_sorted recs : StronglySorted by_length (hist_agg tl recs).
Proof. apply Sorted_StronglySorted; [apply _|]. apply Sorted_merge_sort. apply _. Qed.
Lemma hist_head recs k v r : hist_agg tl recs = (k, v) :: r -> forall j w, (j, w) ∈ r -> (k < j)%nat.
Proof.
  intros E j w Hj. pose proof (hist_sorted recs) as Hs. pose proof (hist_keys recs) as Hn. rewrite E in Hs, Hn. inversion Hs as [|? ? _ Hf]; subst. apply (proj1 (Forall_forall _ _) Hf) in Hj as Hle. unfold by_length in Hle. cbn in Hle.
  cbn [fmap list_fmap fst] in Hn. apply NoDup_cons in Hn as [Hn _]. destruct (decide (k = j)) as [-> |]; [|lia]. destruct Hn. apply elem_of_list_fmap. by exists (j, w).
Qed.
Lemma occurrences_pos k l : (0 < occurrences k l)%nat <-> k ∈ l.
Proof.
  unfold occurrences. induction l as [|x l IH]; [cbn; rewrite elem_of_nil; split; [lia|done]|]. rewrite filter_cons, elem_of_cons. destruct (decide (x = k)) as [-> |Hne]; [cbn; split; [by left|lia]|]. rewrite IH. split; [by right|]. intros [-> |?]; done.
Qed.
Lemma drop_weight f recs m : m ∈ lengths tl recs -> (forall x, x ∈ lengths tl recs -> (m <= x)%nat) ->
  nsum ((fun kv => f kv.1 * kv.2)%nat <$> drop 1 (hist_agg tl recs)) = nsum (f <$> filter (fun x => (m < x)%nat) (lengths tl recs)).
Proof.
  intros Hm Hmin. destruct (hist_agg tl recs) as [|[k v] r] eqn:E.
  - exfalso. assert ((m, occurrences m (lengths tl recs)) ∈ hist_agg tl recs) as H by (apply hist_elem; split; [by apply occurrences_pos|done]). rewrite E in H. by apply elem_of_nil in H.
  - assert ((k, v) ∈ hist_agg tl recs) as Hk by (rewrite E; left). apply hist_elem in Hk as [Hv Ev]. assert (k ∈ lengths tl recs) as Hkl by (apply occurrences_pos; lia).
    assert (k = m) as ->.
    { apply Hmin in Hkl. assert ((m, occurrences m (lengths tl recs)) ∈ hist_agg tl recs) as H by (apply hist_elem; split; [by apply occurrences_pos|done]). rewrite E in H. apply elem_of_cons in H as [[= <- _]|H]; [done|]. pose proof (hist_head recs k v r E _ _ H). lia. }
    cbn [drop]. rewrite drop_0. transitivity (nsum ((fun kv => (if decide (m < kv.1)%nat then f kv.1 else 0%nat) * kv.2)%nat <$> hist_agg tl recs)).
    + rewrite E. cbn [fmap list_fmap nsum foldr fst snd]. rewrite decide_False by lia. cbn. pose proof (hist_head recs m v r E) as Hr. clear -Hr. induction r as [|[j w] r IH]; [done|]. cbn [fmap list_fmap nsum foldr fst snd]. rewrite decide_True by (eapply Hr; left). unfold nsum in IH. cbn. rewrite IH by (intros ? ? H; eapply Hr; by right). done.
    + etransitivity; [exact (hist_weight (fun x => if decide (m < x)%nat then f x else 0%nat) recs)|]. generalize (lengths tl recs). intros l. clear. induction l as [|x l IH]; [done|]. rewrite filter_cons. cbn [fmap list_fmap nsum foldr]. unfold nsum in *. cbn. rewrite IH. by destruct (decide (m < x)%nat).
Qed.
Lemma hist_nil recs : lengths tl recs = [] -> hist_agg tl recs = [].
Proof. intros E. destruct (hist_agg tl recs) as [|[k v] r] eqn:Eh; [done|]. assert ((k, v) ∈ hist_agg tl recs) as H by (rewrite Eh; left). apply hist_elem in H as [H1 H2]. rewrite E in H2. cbn in H2. unfold occurrences in H2. cbn in H2. lia. Qed.
Lemma points_count recs : nsum (length <$> recs) = length (lengths tl recs).
Proof. unfold lengths. rewrite fmap_length. induction recs as [|r recs IH]; [done|]. cbn [fmap list_fmap nsum foldr concat]. rewrite app_length. unfold nsum in IH. by rewrite <- IH. Qed.
Lemma nsum_ones {A} (l : list A) : nsum ((fun _ => 1%nat) <$> l) = length l.
Proof. induction l as [|x l IH]; [done|]. unfold nsum in *. cbn in *. by f_equal. Qed.
Lemma nsum_id (l : list nat) : nsum (Datatypes.id <$> l) = total l.
Proof. by rewrite list_fmap_id. Qed.
Lemma snd_weight (l : list (nat * nat)) : nsum (snd <$> l) = nsum ((fun kv => (fun _ => 1) kv.1 * kv.2)%nat <$> l).
Proof. f_equal. apply list_fmap_ext. intros ? [k v] _. cbn. lia. Qed.
End Tracks.

(** Means *)
Lemma rsum_app l k : rsum (l ++ k) = rsum l + rsum k.
Proof. unfold rsum. induction l as [|x l IH]; cbn [foldr app]; [lra|]. rewrite IH. lra. Qed.
Lemma rmean_spec l : l <> [] -> is_mean l (rmean l).
Proof. intros Hl. split; [done|]. unfold rmean, rsum. field. apply not_0_INR. by destruct l. Qed.
Lemma rsum_inr l : rsum (INR <$> l) = INR (nsum l).
Proof. unfold rsum, nsum. induction l as [|x l IH]; cbn [fmap list_fmap foldr]; [done|]. by rewrite IH, plus_INR. Qed.
Lemma is_mean_unique l a b : is_mean l a -> is_mean l b -> a = b.
Proof. intros [Hl Ha] [_ Hb]. rewrite <- Hb in Ha. apply Rmult_eq_reg_l in Ha; [done|]. apply not_0_INR. by destruct l. Qed.
Lemma rmean_nonneg l : l <> [] -> Forall (fun x => 0 <= x) l -> 0 <= rmean l.
Proof.
  intros Hl H. unfold rmean. apply Rmult_le_pos; [|left; apply Rinv_0_lt_compat, lt_0_INR; destruct l; [done|cbn; lia]]. clear Hl. unfold rsum. induction H; cbn; lra.
Qed.
(** The mean of the squares, and the square of the mean and the variance *)
Lemma mean_square l : l <> [] -> rmean ((fun x => x * x) <$> l) = rmean l * rmean l + rmean ((fun x => (x - rmean l) * (x - rmean l)) <$> l).
Proof.
  intros Hl. assert (INR (length l) <> 0) as Hn by (apply not_0_INR; by destruct l).
  assert (forall m, rsum ((fun x => (x - m) * (x - m)) <$> l) = rsum ((fun x => x * x) <$> l) - 2 * m * rsum l + INR (length l) * (m * m)) as H.
  { intros m. clear. induction l as [|x l IH]; [cbn; lra|]. cbn [fmap list_fmap rsum foldr]. change (length (x :: l)) with (S (length l)). rewrite S_INR. unfold rsum in *. rewrite IH. lra. }
  unfold rmean at 4. rewrite H. unfold rmean. rewrite !fmap_length. field. done.
Qed.
Lemma squares_nonneg (f : R -> R) l : Forall (fun x => 0 <= x) ((fun x => f x * f x) <$> l).
Proof. apply Forall_fmap, Forall_forall. intros x _. cbn. nra. Qed.
Lemma rstd_square l : l <> [] -> rstd l * rstd l = rmean ((fun x => (x - rmean l) * (x - rmean l)) <$> l).
Proof. intros Hl. unfold rstd. apply sqrt_sqrt, rmean_nonneg; [by destruct l|]. apply (squares_nonneg (fun x => x - rmean l)). Qed.
Lemma rms_square l : l <> [] -> let e := sqrt (rmean ((fun x => x * x) <$> l)) in e * e = rmean ((fun x => x * x) <$> l).
Proof. intros Hl e. apply sqrt_sqrt, rmean_nonneg; [by destruct l|]. apply (squares_nonneg (fun x => x)). Qed.

(** The sums of the errors *)
Lemma add_errors n l acc : let kept := omap (fun e : (R * R) * ((R * R) * option R) =>
    let pixels := n * sqrt (e.2.1.1 * e.2.1.1 + e.2.1.2 * e.2.1.2) in
    match e.2.2 with Some a => if Rle_dec pixels 4 then Some (sqrt (e.1.1 * e.1.1 + e.1.2 * e.1.2), pixels, a) else None | None => None end) l in 0 <= n ->
  foldl (add_error n) acc l = ErrorSums (es_normalized acc + rsum ((fun e => e.1.1) <$> kept)) (es_pixels acc + rsum ((fun e => e.1.2) <$> kept)) (es_angular acc + rsum (snd <$> kept)) (es_all acc ++ kept).
Proof.
  intros kept Hn. unfold kept. clear kept. revert acc. induction l as [|[nor [[px py] an]] l IH]; intros acc; cbn [foldl omap list_omap].
  { cbn. rewrite !Rplus_0_r, app_nil_r. by destruct acc. }
  rewrite IH. unfold add_error. cbn [fst snd].
  assert (norm2d (px * n, py * n) = n * sqrt (px * px + py * py)) as ->.
  { unfold norm2d. cbn [fst snd]. replace (px * n * (px * n) + py * n * (py * n)) with (n * n * (px * px + py * py)) by ring. rewrite sqrt_mult by nra. by rewrite sqrt_square. }
  destruct an as [a|]; [|done]. unfold RESIDUAL_PIXEL_CUTOFF. destruct (Rlt_dec 4 _) as [H|H], (Rle_dec _ 4) as [H'|H']; try lra; [done|].
  cbn [es_normalized es_pixels es_angular es_all fmap list_fmap rsum foldr fst snd]. f_equal; [unfold rsum, norm2d; lra|unfold rsum; lra|unfold rsum; lra|]. by rewrite <- app_assoc.
Qed.
Lemma add_shots shots acc : let kept := concat (counted <$> shots) in
  foldl add_shot acc shots = ErrorSums (es_normalized acc + rsum ((fun e => e.1.1) <$> kept)) (es_pixels acc + rsum ((fun e => e.1.2) <$> kept)) (es_angular acc + rsum (snd <$> kept)) (es_all acc ++ kept).
Proof.
  intros kept. unfold kept. clear kept. revert acc. induction shots as [|s shots IH]; intros acc; cbn [foldl].
  { cbn. rewrite !Rplus_0_r, app_nil_r. by destruct acc. }
  rewrite IH. unfold add_shot. rewrite add_errors by apply pos_INR. cbn [es_normalized es_pixels es_angular es_all fmap list_fmap concat]. change (omap _ (zip (se_normalized s) (zip (se_pixel s) (se_angle s)))) with (counted s). rewrite !fmap_app, !rsum_app, app_assoc. f_equal; lra.
Qed.
Lemma all_errors recs acc : let kept := concat (counted <$> concat recs) in
  foldl (foldl add_shot) acc recs = ErrorSums (es_normalized acc + rsum ((fun e => e.1.1) <$> kept)) (es_pixels acc + rsum ((fun e => e.1.2) <$> kept)) (es_angular acc + rsum (snd <$> kept)) (es_all acc ++ kept).
Proof.
  intros kept. unfold kept. clear kept. revert acc. induction recs as [|r recs IH]; intros acc; cbn [foldl].
  { cbn. rewrite !Rplus_0_r, app_nil_r. by destruct acc. }
  rewrite IH, add_shots. cbn [es_normalized es_pixels es_angular es_all concat]. rewrite fmap_app, concat_app, !fmap_app, !rsum_app, app_assoc. f_equal; lra.
Qed.

(** GPS *)
Lemma gps_err biases shots e : foldl (fun acc s => try l := acc in try e := gps_error biases s in Ok (l ++ match e with Some e => [e] | None => [] end)) (Err e) shots = Err e.
Proof. induction shots as [|s shots IH]; [done|]. cbn [foldl res_bind]. exact IH. Qed.
Lemma gps_fold biases shots : forall l, foldl (fun acc s => try l := acc in try e := gps_error biases s in Ok (l ++ match e with Some e => [e] | None => [] end)) (Ok l) shots =
  if decide (Forall (fun s : string * option vec * vec => s.1.2 = None \/ is_Some (biases !! s.1.1)) shots) then Ok (l ++ omap (fun s => match s.1.2, biases !! s.1.1 with Some g, Some b => Some (vadd s.2 (vopp (sim_transform b g))) | _, _ => None end) shots) else Err KeyError.
Proof.
  induction shots as [|[[c g] o] shots IH]; intros l; cbn [foldl].
  { rewrite decide_True by constructor. cbn. by rewrite app_nil_r. }
  cbn [res_bind gps_error]. destruct g as [g|].
  - destruct (biases !! c) as [b|] eqn:Eb; cbn [of_option res_bind].
    + rewrite IH. destruct (decide (Forall _ shots)) as [H|H].
      * rewrite decide_True by (constructor; [right; cbn; by rewrite Eb|done]). cbn [omap list_omap fst snd]. rewrite Eb. by rewrite <- app_assoc.
      * rewrite decide_False; [done|]. intros H'. apply Forall_cons in H' as [_ H']. done.
    + rewrite gps_err. rewrite decide_False; [done|]. intros H. apply Forall_cons in H as [[H|[x H]] _]; [done|]. cbn in H. by rewrite Eb in H.
  - cbn [res_bind]. rewrite IH. destruct (decide (Forall _ shots)) as [H|H].
    + rewrite decide_True by (constructor; [by left|done]). cbn [omap list_omap fst snd]. by rewrite app_nil_r.
    + rewrite decide_False; [done|]. intros H'. apply Forall_cons in H' as [_ H']. done.
Qed.

(** Extrema *)
Lemma area_fold origins : forall a b c d, exists a' b' c' d', foldl (fun '(a, b, c, d) o => (Rmin a (vx o), Rmin b (vy o), Rmax c (vx o), Rmax d (vy o))) (a, b, c, d) origins = (a', b', c', d') /\
  smallest (a :: (vx <$> origins)) a' /\ smallest (b :: (vy <$> origins)) b' /\ largest (c :: (vx <$> origins)) c' /\ largest (d :: (vy <$> origins)) d'.
Proof.
  assert (forall a x l m, smallest (Rmin a x :: l) m -> smallest (a :: x :: l) m) as Hmin.
  { intros a x l m [H1 H2]. split.
    - apply elem_of_cons in H1 as [-> |H1]; [|by right; right]. unfold Rmin. destruct (Rle_dec a x); [left|right; left].
    - assert (m <= Rmin a x) by (apply H2; left). pose proof (Rmin_l a x). pose proof (Rmin_r a x). intros y [-> |[-> |Hy]%elem_of_cons]%elem_of_cons; [lra|lra|]. apply H2. by right. }
  assert (forall a x l m, largest (Rmax a x :: l) m -> largest (a :: x :: l) m) as Hmax.
  { intros a x l m [H1 H2]. split.
    - apply elem_of_cons in H1 as [-> |H1]; [|by right; right]. unfold Rmax. destruct (Rle_dec a x); [right; left|left].
    - assert (Rmax a x <= m) by (apply H2; left). pose proof (Rmax_l a x). pose proof (Rmax_r a x). intros y [-> |[-> |Hy]%elem_of_cons]%elem_of_cons; [lra|lra|]. apply H2. by right. }
  induction origins as [|o origins IH]; intros a b c d; cbn [foldl fmap list_fmap].
  - exists a, b, c, d. split; [done|]. split_and!; (split; [left|]); intros x ->%elem_of_list_singleton; lra.
  - destruct (IH (Rmin a (vx o)) (Rmin b (vy o)) (Rmax c (vx o)) (Rmax d (vy o))) as (a' & b' & c' & d' & -> & H1 & H2 & H3 & H4). exists a', b', c', d'. split; [done|]. split_and!; [by apply Hmin|by apply Hmin|by apply Hmax|by apply Hmax].
Qed.
Lemma fold_min l : forall x, foldl min x l ∈ x :: l /\ forall y, y ∈ x :: l -> (foldl min x l <= y)%nat.
Proof.
  induction l as [|z l IH]; intros x; cbn [foldl]; [split; [left|]; intros y ->%elem_of_list_singleton; lia|]. destruct (IH (min x z)) as [H1 H2]. split.
  - apply elem_of_cons in H1 as [-> |H1]; [|by right; right]. destruct (Nat.min_spec x z) as [[_ ->]|[_ ->]]; [left|right; left].
  - assert (foldl min (min x z) l <= min x z)%nat by (apply H2; left). intros y [-> |[-> |Hy]%elem_of_cons]%elem_of_cons; [lia|lia|]. apply H2. by right.
Qed.
Lemma fold_max l : forall x, foldl max x l ∈ x :: l /\ forall y, y ∈ x :: l -> (y <= foldl max x l)%nat.
Proof.
  induction l as [|z l IH]; intros x; cbn [foldl]; [split; [left|]; intros y ->%elem_of_list_singleton; lia|]. destruct (IH (max x z)) as [H1 H2]. split.
  - apply elem_of_cons in H1 as [-> |H1]; [|by right; right]. destruct (Nat.max_spec x z) as [[_ ->]|[_ ->]]; [right; left|left].
  - assert (max x z <= foldl max (max x z) l)%nat by (apply H2; left). intros y [-> |[-> |Hy]%elem_of_cons]%elem_of_cons; [lia|lia|]. apply H2. by right.
Qed.

(** Medians *)
Lemma filter_all {A} (P : A -> Prop) `{!forall x, Decision (P x)} l : Forall P l -> filter P l = l.
Proof. induction 1; [done|]. rewrite filter_cons, decide_True by done. by f_equal. Qed.
Lemma filter_perm_length {A} (P : A -> Prop) `{!forall x, Decision (P x)} l k : l ≡ₚ k -> length (filter P l) = length (filter P k).
Proof. intros E. apply Permutation_length. by rewrite E. Qed.
Lemma sorted_lookup (s : list nat) : StronglySorted le s -> forall i j x y, (i <= j)%nat -> s !! i = Some x -> s !! j = Some y -> (x <= y)%nat.
Proof.
  induction 1 as [|z s Hs IH Hz]; intros i j x y Hij Hx Hy; [done|]. destruct i as [|i], j as [|j]; cbn in *; try lia; simplify_eq; [lia| |].
  - apply (proj1 (Forall_forall _ _) Hz). by eapply elem_of_list_lookup_2.
  - eapply (IH i j); [lia|done|done].
Qed.
Lemma first_many (s : list nat) v m : StronglySorted le s -> (forall i x, (i < m)%nat -> s !! i = Some x -> (x <= v)%nat) -> (m <= length s)%nat -> (m <= length (filter (fun x => (x <= v)%nat) s))%nat.
Proof.
  intros _ H Hm. rewrite <- (take_drop m s) at 1. rewrite filter_app, app_length, filter_all; [rewrite take_length; lia|]. apply Forall_forall. intros x [i Hi]%elem_of_list_lookup. apply lookup_take_Some in Hi as [Hi Hlt]. by eapply H.
Qed.
Lemma last_many (s : list nat) v m : (forall i x, (m <= i)%nat -> s !! i = Some x -> (v <= x)%nat) -> (length s - m <= length (filter (fun x => (v <= x)%nat) s))%nat.
Proof.
  intros H. rewrite <- (take_drop m s) at 2. rewrite filter_app, app_length, (filter_all _ (drop m s)); [rewrite drop_length; lia|]. apply Forall_forall. intros x [i Hi]%elem_of_list_lookup. rewrite lookup_drop in Hi. eapply (H (m + i)%nat); [lia|done].
Qed.
Lemma median_spec l : l <> [] -> (length l <= 2 * length (filter (fun x => (x <= nmedian l)%nat) l))%nat /\ (length l <= 2 * length (filter (fun x => (nmedian l <= x)%nat) l))%nat.
Proof.
  intros Hl. assert (merge_sort le l ≡ₚ l) as Hp by apply merge_sort_Permutation. assert (StronglySorted le (merge_sort le l)) as Hs by (apply Sorted_StronglySorted; [intros a b c; lia|]; apply Sorted_merge_sort; intros a b; lia).
  rewrite !(filter_perm_length _ l (merge_sort le l)) by done. unfold nmedian. rewrite <- !(Permutation_length Hp). assert (0 < length (merge_sort le l))%nat as Hn by (rewrite (Permutation_length Hp); destruct l; [done|cbn; lia]).
  set (s := merge_sort le l) in *. clearbody s. pose proof (Nat.div_mod (length s) 2 ltac:(lia)) as Hd. pose proof (Nat.mod_upper_bound (length s) 2 ltac:(lia)) as Hu. set (k := (length s / 2)%nat) in *. destruct (decide _) as [Ho|He].
  - destruct (lookup_lt_is_Some_2 s k ltac:(lia)) as [v Hv]. rewrite Hv. cbn [default from_option Datatypes.id].
    pose proof (first_many s v (S k) Hs) as H1. feed specialize H1; [intros i x Hi Hx; eapply (sorted_lookup s Hs i k); [lia|done|done]|lia|].
    pose proof (last_many s v k) as H2. feed specialize H2; [intros i x Hi Hx; eapply (sorted_lookup s Hs k i); [lia|done|done]|]. lia.
  - destruct (lookup_lt_is_Some_2 s k ltac:(lia)) as [b Hb]. destruct (lookup_lt_is_Some_2 s (k - 1) ltac:(lia)) as [a Ha]. rewrite Ha, Hb. cbn [default from_option Datatypes.id].
    assert (a <= b)%nat by (eapply (sorted_lookup s Hs (k - 1) k); [lia|done|done]). pose proof (Nat.div_mod (a + b) 2 ltac:(lia)) as Hm. pose proof (Nat.mod_upper_bound (a + b) 2 ltac:(lia)) as Hm'. set (v := ((a + b) / 2)%nat) in *.
    pose proof (first_many s v k Hs) as H1. feed specialize H1; [intros i x Hi Hx; assert (x <= a)%nat by (eapply (sorted_lookup s Hs i (k - 1)); [lia|done|done]); lia|lia|].
    pose proof (last_many s v k) as H2. feed specialize H2; [intros i x Hi Hx; assert (b <= x)%nat by (eapply (sorted_lookup s Hs k i); [lia|done|done]); lia|]. lia.
Qed.

(** Features *)
Section Shots.
Context (observations : string -> option (list string)).
Definition value (m : gmap string nat) (s : string) : nat := default 0%nat (m !! s).
Lemma value_add k v m s : value (add_count k v m) s = (value m s + if decide (k = s) then v else 0)%nat.
Proof. unfold value, add_count. destruct (decide (k = s)) as [-> |Hne]; [rewrite lookup_insert; cbn; lia|rewrite lookup_insert_ne by done; lia]. Qed.
Definition points_fold (pts : gset string) s (acc : gmap string nat) l := foldl (fun acc p => if decide (p ∈ pts) then add_count s 1 acc else acc) acc l.
Lemma points_value pts s l : forall acc t, value (points_fold pts s acc l) t = (value acc t + if decide (s = t) then length (filter (.∈ pts) l) else 0)%nat.
Proof.
  unfold points_fold. induction l as [|p l IH]; intros acc t; cbn [foldl]; [destruct (decide (s = t)); cbn; lia|]. rewrite IH, filter_cons. destruct (decide (p ∈ pts)); [rewrite value_add|]; destruct (decide (s = t)); cbn; lia.
Qed.
Lemma points_positive pts s l : forall acc, positive acc -> positive (points_fold pts s acc l).
Proof. unfold points_fold. induction l as [|p l IH]; intros acc Ha; cbn [foldl]; [done|]. apply IH. case_decide; [apply positive_add; [done|lia]|done]. Qed.
Definition rec_fold (r : gset string * list string) (acc : gmap string nat) shots := foldl (fun acc s => match observations s with None => acc | Some l => points_fold r.1 s acc l end) acc shots.
Lemma rec_value r shots : NoDup shots -> forall acc t, value (rec_fold r acc shots) t = (value acc t + if decide (t ∈ shots) then length (filter (.∈ r.1) (default [] (observations t))) else 0)%nat.
Proof.
  unfold rec_fold. induction 1 as [|s shots Hs Hn IH]; intros acc t; cbn [foldl]; [rewrite decide_False by apply not_elem_of_nil; lia|]. rewrite IH. destruct (decide (t = s)) as [-> |Hne].
  - rewrite decide_False by done. rewrite decide_True by left. destruct (observations s) as [l|]; [rewrite points_value, decide_True by done; cbn; lia|cbn; lia].
  - assert (value (match observations s with None => acc | Some l => points_fold r.1 s acc l end) t = value acc t) as -> by (destruct (observations s); [rewrite points_value, decide_False by done; lia|done]).
    destruct (decide (t ∈ shots)); [rewrite decide_True by (by right); done|rewrite decide_False; [done|]; intros [-> |?]%elem_of_cons; done].
Qed.
Lemma rec_positive r shots : forall acc, positive acc -> positive (rec_fold r acc shots).
Proof. unfold rec_fold. induction shots as [|s shots IH]; intros acc Ha; cbn [foldl]; [done|]. apply IH. destruct (observations s); [by apply points_positive|done]. Qed.
Lemma recs_value recs : Forall (fun r => NoDup r.2) recs -> forall acc t, value (foldl (fun acc r => rec_fold r acc r.2) acc recs) t = (value acc t + nsum ((fun r => on_points observations r t) <$> recs))%nat.
Proof. induction 1 as [|r recs Hr Hrs IH]; intros acc t; cbn [foldl]; [cbn; lia|]. rewrite IH, (rec_value r r.2 Hr). unfold on_points. cbn [fmap list_fmap nsum foldr]. unfold nsum. lia. Qed.
Lemma recs_positive recs : forall acc, positive acc -> positive (foldl (fun acc r => rec_fold r acc r.2) acc recs).
Proof. induction recs as [|r recs IH]; intros acc Ha; cbn [foldl]; [done|]. by apply IH, rec_positive. Qed.
Lemma per_shots_fold recs : per_shots observations recs = foldl (fun acc r => rec_fold r acc r.2) ∅ recs. Proof. done. Qed.
End Shots.

(** Cameras *)
Section Cameras.
Context {A : Type}.
Definition first_value (c : string) (l : list (string * A)) : option A := snd <$> head (filter (fun p => p.1 = c) l).
Lemma camera_err l e : foldl (@camera_step A) (Err e) l = Err e.
Proof. induction l as [|x l IH]; [done|]. exact IH. Qed.
Lemma camera_fold (l : list (string * A)) : forall st : gmap string (A * option A),
  (Forall (fun p => is_Some (st !! p.1)) l -> exists st', foldl camera_step (Ok st) l = Ok st' /\ forall c, st' !! c = (fun e => (e.1, match e.2 with Some o => Some o | None => first_value c l end)) <$> st !! c) /\
  (~ Forall (fun p => is_Some (st !! p.1)) l -> foldl camera_step (Ok st) l = Err KeyError).
Proof.
  induction l as [|[c a] l IH]; intros st; cbn [foldl].
  { split; [|intros H; destruct H; constructor]. intros _. exists st. split; [done|]. intros c. destruct (st !! c) as [[i [o|]]|]; done. }
  unfold camera_step at 2 4. cbn [res_bind fst snd]. destruct (st !! c) as [[i o]|] eqn:Ec; cbn [of_option res_bind fst snd].
  - destruct o as [o|].
    + destruct (IH st) as [H1 H2]. split.
      * intros H. apply Forall_cons in H as [_ H]. destruct (H1 H) as (st' & E & Hst). exists st'. split; [done|]. intros d. rewrite Hst. destruct (decide (c = d)) as [<-|Hne]; [by rewrite Ec|]. unfold first_value. rewrite filter_cons, decide_False by done. done.
      * intros H. apply H2. intros H'. apply H. constructor; [cbn; by rewrite Ec|done].
    + destruct (IH (<[c := (i, Some a)]> st)) as [H1 H2]. assert (forall l', Forall (fun p : string * A => is_Some (<[c := (i, Some a)]> st !! p.1)) l' <-> Forall (fun p : string * A => is_Some (st !! p.1)) l') as Hiff.
      { intros l'. apply Forall_iff. intros [d b]. cbn. destruct (decide (c = d)) as [<-|Hne]; [rewrite lookup_insert, Ec; split; by eexists|by rewrite lookup_insert_ne]. }
      split.
      * intros H. apply Forall_cons in H as [_ H]. destruct (H1 (proj2 (Hiff l) H)) as (st' & E & Hst). exists st'. split; [done|]. intros d. rewrite Hst. unfold first_value. rewrite filter_cons. cbn [fst]. destruct (decide (c = d)) as [<-|Hne]; [by rewrite lookup_insert, Ec|by rewrite lookup_insert_ne].
      * intros H. apply H2. intros H'. apply H. constructor; [cbn; by rewrite Ec|by apply Hiff].
  - split; [intros H; apply Forall_cons in H as [[x H] _]; cbn in H; by rewrite Ec in H|]. intros _. apply camera_err.
Qed.
Definition initial (models : gmap string A) : gmap string (A * option A) := (fun m => (m, None)) <$> models.
Definition final (st : gmap string (A * option A)) : gmap string (A * A) := omap (fun e => (fun o => (e.1, o)) <$> e.2) st.
Lemma camera_result (models : gmap string A) l st : (forall c, st !! c = (fun e : A * option A => (e.1, match e.2 with Some o => Some o | None => first_value c l end)) <$> initial models !! c) ->
  forall c, final st !! c = match models !! c, first_value c l with Some i, Some o => Some (i, o) | _, _ => None end.
Proof.
  intros H c. unfold final. rewrite lookup_omap, H. unfold initial. rewrite lookup_fmap. destruct (models !! c) as [i|]; [|done]. cbn. by destruct (first_value c l).
Qed.
Lemma initial_some (models : gmap string A) c : is_Some (initial models !! c) <-> is_Some (models !! c).
Proof. unfold initial. by rewrite lookup_fmap, fmap_is_Some. Qed.
Lemma camera_concat (recs : list (list (string * A))) st : foldl (foldl camera_step) st recs = foldl camera_step st (concat recs).
Proof. revert st. induction recs as [|r recs IH]; intros st; cbn [foldl concat]; [done|]. by rewrite IH, foldl_app. Qed.
Lemma first_concat c recs (a : A) : Forall (fun r => NoDup r.*1) recs -> first_value c (concat recs) = Some a <-> exists l1 r l2, recs = l1 ++ r :: l2 /\ (c, a) ∈ r /\ forall r', r' ∈ l1 -> c ∉ r'.*1.
Proof.
  induction 1 as [|r recs Hr Hrs IH]; cbn [concat]; [split; [done|]; by intros ([] & ? & ? & ? & _)|]. 
  assert (forall k, c ∉ r.*1 -> first_value c (r ++ k) = first_value c k) as Hno.
  { intros k Hc. unfold first_value. rewrite filter_app. assert (filter (fun p : string * A => p.1 = c) r = []) as ->; [|done]. clear -Hc. induction r as [|[d b] r IH]; [done|]. rewrite filter_cons. cbn [fmap list_fmap fst] in *. rewrite decide_False by (intros ->; apply Hc; left). apply IH. intros H. apply Hc. by right. }
  assert (forall b k, (c, b) ∈ r -> first_value c (r ++ k) = Some b) as Hyes.
  { intros b k Hb. unfold first_value. rewrite filter_app. clear IH Hno. induction r as [|[d e] r IH]; [by apply elem_of_nil in Hb|]. rewrite filter_cons. cbn [fmap list_fmap fst] in *. apply NoDup_cons in Hr as [Hd Hr]. destruct (decide (d = c)) as [-> |Hne].
    - apply elem_of_cons in Hb as [[= ->]|Hb]; [done|]. destruct Hd. apply elem_of_list_fmap. by exists (c, b).
    - apply elem_of_cons in Hb as [[= <- _]|Hb]; [done|]. by apply IH. }
  destruct (decide (c ∈ r.*1)) as [Hc|Hc].
  - apply elem_of_list_fmap in Hc as ([c' b] & -> & Hb). cbn [fst] in *. rewrite (Hyes b _ Hb). split.
    + intros [= ->]. exists [], r, recs. split; [done|]. split; [done|]. by intros ? ?%elem_of_nil.
    + intros ([|x l1] & r' & l2 & [= -> ->] & Ha & Hl); [by rewrite <- (Hyes a [] Ha), (Hyes b [] Hb)|]. destruct (Hl x); [left|]. apply elem_of_list_fmap. by exists (c', b).
  - rewrite (Hno _ Hc), IH. split.
    + intros (l1 & r' & l2 & -> & Ha & Hl). exists (r :: l1), r', l2. split; [done|]. split; [done|]. intros ? [-> |?]%elem_of_cons; [done|by apply Hl].
    + intros ([|x l1] & r' & l2 & [= -> ->] & Ha & Hl); [destruct Hc; apply elem_of_list_fmap; by exists (c, a)|]. exists l1, r', l2. split; [done|]. split; [done|]. intros ? ?. apply Hl. by right.
Qed.
End Cameras.
