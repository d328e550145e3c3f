(** C85: the neighbours of an image, its range of depths and the depths that are kept *)
From stdpp Require Import prelude gmap strings sorting.
From Coq Require Import Reals Lra Psatz.
From Verif Require Import Base Lin GeoProps DenseModel DenseSpec DenseProofs DenseProps CleanProofs PipeModel PipeSpec PipeProofs.
Local Open Scope R_scope.

(** ** Neighbours *)
Section Neighbours.
Variable shots : gset string.
Variable origin : string -> vec.
Variable points : gmap string vec.
Notation neighbour := (neighbour shots origin points).
Notation find := (find_neighboring_images shots origin points).
Lemma candidates_elem s common o k : (o, k) ∈ candidates shots origin points s common <-> neighbour s common o k.
Proof.
  unfold candidates, neighbour. rewrite elem_of_list_omap. split.
  - intros ([o' tracks] & He & H). cbn [fst snd] in H. case_bool_decide as Hs; [|done]. cbn [andb] in H. destruct (20 <? pair_score origin points s o' tracks)%nat eqn:L; [|done]. injection H as <- <-. exists tracks. split; [done|]. split; [done|].
    split; [|by apply Nat.ltb_lt]. unfold pair_score. apply filter_exactly. intros t. apply in_range_useful.
  - intros (tracks & He & Hs & Hk & L). exists (o, tracks). split; [done|]. cbn [fst snd]. rewrite bool_decide_true by done. cbn [andb].
    assert (pair_score origin points s o tracks = k) as ->. { eapply exactly_unique; [|exact Hk]. unfold pair_score. apply filter_exactly. intros t. apply in_range_useful. }
    apply Nat.ltb_lt in L. by rewrite L.
Qed.
Lemma candidates_keys s common : NoDup (fst <$> common) -> NoDup (fst <$> candidates shots origin points s common) /\ forall o, o ∈ fst <$> candidates shots origin points s common -> o ∈ fst <$> common.
Proof.
  induction common as [|[o tracks] common IH]; [intros _; split; [constructor|done]|]. cbn [fmap list_fmap fst]. intros [N ND]%NoDup_cons. destruct (IH ND) as [IH1 IH2]. unfold candidates in *. cbn [omap list_omap fst snd].
  destruct (bool_decide (o ∈ shots) && _); cbn [fmap list_fmap fst].
  - split; [apply NoDup_cons; split; [intros H; by apply N, IH2|done]|]. intros x [-> |H]%elem_of_cons; [left|right; by apply IH2].
  - split; [done|]. intros x H. right. by apply IH2.
Qed.
Global Instance higher_total : Total higher. Proof. intros x y. unfold higher. destruct (decide (y.2 <= x.2)%nat); [by left|right; lia]. Qed.
Global Instance higher_transitive : Transitive higher. Proof. intros x y z. unfold higher. lia. Qed.
Notation sorted s common := (merge_sort higher (candidates shots origin points s common)).
Lemma sorted_elem s common e : e ∈ sorted s common <-> neighbour s common e.1 e.2.
Proof. rewrite merge_sort_Permutation. destruct e as [o k]. apply candidates_elem. Qed.

(** The image itself comes first; then come at most n others, all in the reconstruction, each with more than 20 common points seen from the two at an angle between 3 and 30 degrees *)
Theorem C85_neighbors s common n : exists others, find s common n = s :: others /\ (length others <= n)%nat /\
  forall o, o ∈ others -> exists k, neighbour s common o k.
Proof.
  exists (fst <$> take n (sorted s common)). split; [done|]. split; [rewrite fmap_length, take_length; lia|]. intros o ([o' k] & -> & H)%elem_of_list_fmap. cbn. exists k.
  apply (sorted_elem s common (o', k)). by eapply elem_of_take in H as (i & H & _); eapply elem_of_list_lookup_2.
Qed.
(** They are in the order of decreasing numbers of such points, and any image that is left out has no more of them than the ones that are kept, of which there are n then *)
Theorem C85_best s common n : NoDup (fst <$> common) -> exists others, find s common n = s :: others /\
  (forall i j o o' k k', (i < j)%nat -> others !! i = Some o -> others !! j = Some o' -> neighbour s common o k -> neighbour s common o' k' -> (k' <= k)%nat) /\
  (forall o' k', neighbour s common o' k' -> o' ∉ others -> length others = n /\ forall o k, o ∈ others -> neighbour s common o k -> (k' <= k)%nat).
Proof.
  intros ND. exists (fst <$> take n (sorted s common)). split; [done|]. assert (StronglySorted higher (sorted s common)) as S by apply (StronglySorted_merge_sort higher).
  assert (NoDup (fst <$> sorted s common)) as K by (rewrite merge_sort_Permutation; by apply candidates_keys).
  assert (forall i o k, (fst <$> sorted s common) !! i = Some o -> neighbour s common o k -> sorted s common !! i = Some (o, k)) as At.
  { intros i o k Hi Hk. apply (sorted_elem s common (o, k)) in Hk. apply elem_of_list_lookup in Hk as [i' Hk]. assert (i = i') as ->; [|done]. eapply NoDup_lookup; [exact K|exact Hi|]. by rewrite list_lookup_fmap, Hk. }
  rewrite fmap_take. split.
  - intros i j o o' k k' L Hi Hj Hk Hk'. assert (i < n /\ j < n)%nat as [Li Lj]. { apply lookup_lt_Some in Hi, Hj. rewrite take_length in Hi, Hj. lia. } rewrite lookup_take in Hi, Hj by done.
    exact (sorted_lookup higher _ S i j _ _ L (At _ _ _ Hi Hk) (At _ _ _ Hj Hk')).
  - intros o' k' Hk' Hn. apply (sorted_elem s common (o', k')) in Hk'. apply elem_of_list_lookup in Hk' as [j Hj]. assert (n <= j)%nat as L.
    { destruct (decide (n <= j)%nat); [done|]. destruct Hn. apply (elem_of_list_lookup_2 _ j). rewrite lookup_take by lia. by rewrite list_lookup_fmap, Hj. }
    split; [rewrite take_length, fmap_length; apply lookup_lt_Some in Hj; lia|]. intros o k [i Hi]%elem_of_list_lookup Hk. assert (i < n)%nat as Li by (apply lookup_lt_Some in Hi; rewrite take_length in Hi; lia).
    rewrite lookup_take in Hi by done. apply (sorted_lookup higher _ S i j (o, k) (o', k')); [lia|by apply At|done].
Qed.
Theorem C85_distinct s common n : NoDup (fst <$> common) -> s ∉ fst <$> common -> NoDup (find s common n).
Proof.
  intros ND N. unfold find_neighboring_images. rewrite fmap_take. destruct (candidates_keys s common ND) as [K1 K2]. apply NoDup_cons. split.
  - intros H. apply N, K2. rewrite <-(merge_sort_Permutation higher). apply elem_of_take in H as (i & H & _). by eapply elem_of_list_lookup_2.
  - assert (NoDup (fst <$> sorted s common)) as K by (by rewrite merge_sort_Permutation). rewrite <-(take_drop n (fst <$> sorted s common)) in K. by apply NoDup_app in K as [K _].
Qed.
(** Sharing tracks is mutual: the tables of two images have the same tracks for one another *)
Theorem C85_common_tracks ids pairs x y : (forall a b v, ((a, b), v) ∈ pairs -> a <> b) -> NoDup (fst <$> pairs) -> (forall a b, (a, b) ∈ fst <$> pairs -> (b, a) ∉ fst <$> pairs) ->
  forall v, (exists d, dict_get x (common_tracks_double_dict ids pairs) = Some d /\ dict_get y d = Some v) <-> ((x, y), v) ∈ pairs \/ ((y, x), v) ∈ pairs.
Proof.
  intros HN ND HS v. rewrite <-(common_all ids pairs x y) by first [done|apply Forall_forall; intros [[a b] w] H; exact (HN a b w H)]. unfold common_of. destruct (dict_get x _) as [d|]; cbn.
  - split; [by intros (d' & [= <-] & H)|]. intros H. by exists d.
  - split; [by intros (d' & ? & _)|done].
Qed.
Lemma get_elem {V} k (d : list (string * V)) v : NoDup (fst <$> d) -> dict_get k d = Some v <-> (k, v) ∈ d.
Proof.
  induction d as [|[a w] d IH]; [intros _; cbn; rewrite elem_of_nil; done|]. cbn [fmap list_fmap fst]. intros [N ND]%NoDup_cons. rewrite get_cons, elem_of_cons. destruct (decide (a = k)) as [-> |Na].
  - split; [intros [= ->]; by left|]. intros [[= ->]|H]; [done|]. destruct N. apply elem_of_list_fmap. by exists (k, v).
  - rewrite IH by done. split; [by right|]. intros [[= -> ->]|H]; done.
Qed.
(** and if o is a neighbour of s, s is one of o, with as many points *)
Theorem C85_mutual ids pairs s o ds dO k : (forall a b v, ((a, b), v) ∈ pairs -> a <> b) -> NoDup (fst <$> pairs) -> (forall a b, (a, b) ∈ fst <$> pairs -> (b, a) ∉ fst <$> pairs) ->
  dict_get s (common_tracks_double_dict ids pairs) = Some ds -> dict_get o (common_tracks_double_dict ids pairs) = Some dO -> s ∈ shots ->
  neighbour s ds o k -> neighbour o dO s k.
Proof.
  intros HN ND HS Es Eo Hs (tracks & He & Ho & (ks & NK & LK & HK) & L).
  assert (forall a d, dict_get a (common_tracks_double_dict ids pairs) = Some d -> NoDup (fst <$> d)) as KD by (intros a d; eapply double_dict_keys).
  assert (exists d, dict_get s (common_tracks_double_dict ids pairs) = Some d /\ dict_get o d = Some tracks) as H1. { exists ds. split; [done|]. apply get_elem; [by eapply KD|done]. }
  apply (C85_common_tracks ids pairs s o HN ND HS) in H1. assert (((o, s), tracks) ∈ pairs \/ ((s, o), tracks) ∈ pairs) as H2 by tauto. apply (C85_common_tracks ids pairs o s HN ND HS) in H2 as (d & Ed & Hd).
  assert (d = dO) as -> by congruence. apply get_elem in Hd; [|by eapply KD]. exists tracks. split; [done|]. split; [done|]. split; [|done]. exists ks. split; [done|]. split; [done|].
  intros i. rewrite HK. split; intros (t & Ht & Hu); exists t; (split; [done|by apply useful_sym]).
Qed.
End Neighbours.

(** ** The range of depths *)
(** numpy's percentile splits the values, is between two of them and grows with the percentage *)
Theorem C85_percentile l q : l <> [] -> 0 <= q <= 100 -> exists m, percentile l q = Some m /\ splits l q m /\ exists a b, a ∈ l /\ b ∈ l /\ a <= m <= b.
Proof.
  intros N Q. destruct (percentile_splits l q N Q) as (m & E & S). exists m. split; [done|]. split; [done|]. by eapply percentile_within.
Qed.
Theorem C85_percentile_monotone l q q' m m' : l <> [] -> 0 <= q <= q' -> q' <= 100 -> percentile l q = Some m -> percentile l q' = Some m' -> m <= m'.
Proof. apply percentile_mono. Qed.
(** With nothing configured, points in front of the camera have a range of positive depths that is not empty; more than nine tenths of the points but one are not nearer, and as many are not farther *)
Theorem C85_depth_range depths : depths <> [] -> (forall d, d ∈ depths -> 0 < d) -> exists lo hi, compute_depth_range depths 0 0 = Some (lo, hi) /\ 0 < lo < hi /\
  (exists ks : list nat, NoDup ks /\ 9 / 10 * (INR (length depths) - 1) < INR (length ks) /\ forall k, k ∈ ks -> exists d, depths !! k = Some d /\ lo < d) /\
  (exists ks : list nat, NoDup ks /\ 9 / 10 * (INR (length depths) - 1) < INR (length ks) /\ forall k, k ∈ ks -> exists d, depths !! k = Some d /\ d < hi).
Proof.
  intros N P. destruct (C85_percentile depths 10 N ltac:(lra)) as (m & E & (_ & ks1 & N1 & L1 & K1) & a & _ & Ha & _ & Lm & _).
  destruct (C85_percentile depths 90 N ltac:(lra)) as (m' & E' & ((ks2 & N2 & L2 & K2) & _) & _). pose proof (percentile_mono depths 10 90 m m' N ltac:(lra) ltac:(lra) E E') as M. pose proof (P a Ha) as Pa.
  unfold compute_depth_range. rewrite E, E'. cbn [mbind option_bind]. unfold py_or. destruct (Req_EM_T 0 0) as [_|]; [|done]. exists (m * (9 / 10)), (m' * (11 / 10)). split; [done|]. split; [lra|]. split.
  - exists ks1. split; [done|]. split; [lra|]. intros k Hk. destruct (K1 k Hk) as (d & Hd & Ld). exists d. split; [done|]. lra.
  - exists ks2. split; [done|]. split; [lra|]. intros k Hk. destruct (K2 k Hk) as (d & Hd & Ld). exists d. split; [done|]. lra.
Qed.
(** What is configured replaces what is computed, each bound by itself *)
Theorem C85_configured depths cmin cmax lo hi : compute_depth_range depths 0 0 = Some (lo, hi) -> exists lo' hi', compute_depth_range depths cmin cmax = Some (lo', hi') /\
  (cmin <> 0 -> lo' = cmin) /\ (cmin = 0 -> lo' = lo) /\ (cmax <> 0 -> hi' = cmax) /\ (cmax = 0 -> hi' = hi).
Proof.
  unfold compute_depth_range. destruct (percentile depths 10) as [m|]; [|done]. destruct (percentile depths 90) as [m'|]; [|done]. cbn [mbind option_bind]. unfold py_or. destruct (Req_EM_T 0 0) as [_|]; [|done]. intros H. injection H as <- <-.
  eexists _, _. split; [done|]. destruct (Req_EM_T cmin 0), (Req_EM_T cmax 0); done.
Qed.
(** Behind the camera the range is upside down: one point at the depth -1 gives -9/10 and -11/10 *)
Theorem C85_negative_depth_refuted : exists depths lo hi, depths <> [] /\ compute_depth_range depths 0 0 = Some (lo, hi) /\ hi < lo.
Proof.
  exists [-1], (-1 * (9 / 10)), (-1 * (11 / 10)). split; [done|]. split; [|lra]. unfold compute_depth_range, percentile. cbn [length INR].
  assert (forall q, q / 100 * (1 - 1) = 0) as Z by (intros; ring). rewrite !Z. assert (Int_part 0 = 0%Z) as ->. { unfold Int_part. rewrite <-(tech_up 0 1); [lia|cbn; lra|cbn; lra]. }
  cbn [Z.to_nat]. assert (merge_sort Rle [-1] = [-1]) as -> by reflexivity. cbn. unfold py_or. by destruct (Req_EM_T 0 0).
Qed.

(** ** The depths that are kept, and the size of the images *)
Theorem C85_saved_depth max_depth min_score p : saved_depth max_depth min_score p = if Rlt_dec (px_depth p) max_depth then if Rlt_dec min_score (px_score p) then px_depth p else 0 else 0.
Proof. unfold saved_depth. destruct (Rlt_dec _ _), (Rlt_dec _ _); ring. Qed.
Theorem C85_saved max_depth min_score p : saved_depth max_depth min_score p <> 0 <-> px_depth p <> 0 /\ px_depth p < max_depth /\ min_score < px_score p.
Proof.
  rewrite C85_saved_depth. destruct (Rlt_dec _ _); [|split; [done|intros (_ & ? & _); lra]]. destruct (Rlt_dec _ _); [|split; [done|intros (_ & _ & ?); lra]]. tauto.
Qed.
(** Images are never enlarged, at most as wide as configured, and of the proportions of the original, but for less than a row *)
Theorem C85_view_size ow oh res w h : (0 < ow)%Z -> (0 < oh)%Z -> (0 < res)%Z -> view_size ow oh res = (w, h) ->
  (0 < w <= ow)%Z /\ (w <= res)%Z /\ (0 <= h <= oh)%Z /\ (h * ow <= w * oh < (h + 1) * ow)%Z /\ ((ow <= res)%Z -> w = ow /\ h = oh).
Proof.
  intros H1 H2 H3. unfold view_size. cbv zeta. intros H. injection H as Hw Hh. set (m := Z.min ow res) in *. assert (0 < m <= ow)%Z as Hm by (unfold m; lia).
  pose proof (Z.mul_div_le (m * oh) ow H1) as L. pose proof (Z.mul_succ_div_gt (m * oh) ow H1) as U. set (q := (m * oh / ow)%Z) in *. assert (0 <= q)%Z by (apply Z.div_pos; nia). assert (q <= oh)%Z by nia.
  assert (w = m) as -> by lia. assert (h = q) as -> by lia. split; [lia|]. split; [unfold m; lia|]. split; [lia|]. split; [nia|]. intros E. assert (m = ow) as Em by (unfold m; lia). rewrite Em in *. nia.
Qed.
(** An image more than [resolution] times as wide as high would have no row left *)
Theorem C85_no_rows_refuted : exists ow oh res w, (0 < ow)%Z /\ (0 < oh)%Z /\ (0 < res)%Z /\ view_size ow oh res = (w, 0%Z). Proof. by exists 2000%Z, 3%Z, 640%Z, 640%Z. Qed.
(** The exported points: one for each pixel with a depth, where the pixel sees a point at this depth, with the color of the pixel *)
Theorem C85_vertices K Rm t depth colors X c : det K <> 0 -> rotation Rm ->
  (X, c) ∈ depthmap_vertices K Rm t depth colors <->
  exists i j, (0 <= i < im_rows depth)%Z /\ (0 <= j < im_cols depth)%Z /\ im_at depth i j <> 0 /\ colors !! Z.to_nat (i * im_cols depth + j) = Some c /\ seen K Rm t X (IZR j) (IZR i) (im_at depth i j).
Proof.
  intros HK HR. unfold depthmap_vertices. rewrite elem_of_list_omap. split.
  - intros ([[i j] c'] & He & H). destruct (Req_EM_T (im_at depth i j) 0) as [|N]; [done|]. injection H as <- <-. apply elem_of_list_lookup in He as [k Hk]. apply lookup_zip_with_Some in Hk as (p & c'' & E & Hp & Hc). injection E as <- <-.
    pose proof (elem_of_list_lookup_2 _ _ _ Hp) as [Hi Hj]%pixels_elem. exists i, j. split; [done|]. split; [done|]. split; [done|]. split; [|by apply C81_backproject].
    assert (Z.to_nat (i * im_cols depth + j) = k) as ->; [|done]. eapply NoDup_lookup; [apply (pixels_nodup depth)|by apply pixels_lookup|done].
  - intros (i & j & Hi & Hj & N & Hc & Hs). apply C81_backproject in Hs; [|done|done]. exists ((i, j), c). split.
    + apply (elem_of_list_lookup_2 _ (Z.to_nat (i * im_cols depth + j))). apply lookup_zip_with_Some. exists (i, j), c. split; [done|]. split; [by apply pixels_lookup|done].
    + destruct (Req_EM_T (im_at depth i j) 0); [done|]. by rewrite Hs.
Qed.
(** one point per pixel *)
Theorem C85_vertices_count K Rm t depth colors : length colors = Z.to_nat (im_rows depth * im_cols depth) -> (0 <= im_rows depth)%Z -> (0 <= im_cols depth)%Z ->
  exactly (length (depthmap_vertices K Rm t depth colors)) (fun p : Z * Z => im_at depth p.1 p.2 <> 0) (pixels depth).
Proof.
  assert (EqDecision R) as ED by exact Req_EM_T. intros HL Hr Hc. assert (length (depthmap_vertices K Rm t depth colors) = length (filter (fun p : Z * Z => im_at depth p.1 p.2 <> 0) (pixels depth))) as ->; [|by apply filter_exactly]. revert HL Hr Hc.
  intros HL Hr Hc. assert (length (pixels depth) <= length colors)%nat as L. { unfold pixels. rewrite grid_length, !zrange_length. nia. } clear HL. unfold depthmap_vertices. revert colors L.
  induction (pixels depth) as [|[i j] l IH]; intros [|c colors] L; try done; [cbn in L; lia|]. cbn in L. cbn [zip zip_with omap list_omap]. rewrite filter_cons. cbn [fst snd].
  destruct (Req_EM_T (im_at depth i j) 0) as [E|E]; [rewrite decide_False by tauto; apply IH; lia|]. rewrite decide_True by done. cbn [length]. f_equal. apply IH. lia.
Qed.

(** ** The hypotheses are met *)
(** a point seen from two images at 15 degrees *)
Definition met_origin (s : string) : vec := match s with "a" => Vec 1 0 0 | "b" => Vec (cos (PI / 12)) (sin (PI / 12)) 0 | _ => Vec 2 0 0 end.
Lemma met_useful : useful_track {["t" := v0]} (met_origin "a") (met_origin "b") "t".
Proof.
  pose proof PI_RGT_0 as PP. exists v0, (PI / 12). split; [done|]. split; [|lra]. pose proof (sin2_cos2 (PI / 12)) as SC. unfold Rsqr in SC. unfold angle_at, norm, dot, vsub, met_origin, v0. cbn.
  replace ((1 - 0) * (1 - 0) + (0 - 0) * (0 - 0) + (0 - 0) * (0 - 0)) with 1 by ring. rewrite sqrt_1. replace ((cos (PI / 12) - 0) * (cos (PI / 12) - 0) + (sin (PI / 12) - 0) * (sin (PI / 12) - 0) + (0 - 0) * (0 - 0)) with 1 by nra.
  rewrite sqrt_1. split; [lra|]. split; [lra|]. split; [lra|]. ring.
Qed.
(** 21 tracks make a neighbour, 20 do not; a point in line with the images is of no use *)
Example C85_met : neighbour {["a"; "b"; "c"]} met_origin {["t" := v0]} "a" [("b", replicate 21 "t"); ("c", replicate 30 "t")] "b" 21 /\
  (forall k, ~ neighbour {["a"; "b"; "c"]} met_origin {["t" := v0]} "a" [("b", replicate 20 "t"); ("c", replicate 30 "t")] "b" k) /\
  find_neighboring_images {["a"; "b"; "c"]} met_origin {["t" := v0]} "a" [("b", replicate 21 "t"); ("c", replicate 30 "t")] 5 = ["a"; "b"].
Proof.
  assert (forall n, exactly n (useful_track {["t" := v0]} (met_origin "a") (met_origin "b")) (replicate n "t")) as EX.
  { intros n. exists (seq 0 n). split; [apply NoDup_seq|]. split; [apply seq_length|]. intros k. rewrite elem_of_seq. split.
    - intros H. exists "t". split; [apply lookup_replicate; split; [done|lia]|apply met_useful].
    - intros (t & H & _). apply lookup_replicate in H. lia. }
  assert (pair_score met_origin {["t" := v0]} "a" "c" (replicate 30 "t") = 0)%nat as Z.
  { unfold pair_score. apply length_zero_iff_nil. assert (in_range {["t" := v0]} (met_origin "a") (met_origin "c") "t" = true -> False) as N.
    { intros H. apply in_range_useful in H as (p & theta & E & (B & _ & _ & D) & L). rewrite lookup_singleton in E. injection E as <-. pose proof PI_RGT_0. unfold norm, dot, vsub, met_origin, v0 in D. cbn in D.
      replace ((1 - 0) * (1 - 0) + (0 - 0) * (0 - 0) + (0 - 0) * (0 - 0)) with 1 in D by ring. replace ((2 - 0) * (2 - 0) + (0 - 0) * (0 - 0) + (0 - 0) * (0 - 0)) with (2 * 2) in D by ring. rewrite sqrt_1, sqrt_square in D by lra.
      assert (cos theta = 1) as C by lra. rewrite <-(acos_cos theta) in L by lra. rewrite C, acos_1 in L. lra. }
    clear -N. generalize 30%nat. intros n. induction n as [|n IH]; [done|]. cbn [replicate]. rewrite filter_cons. rewrite decide_False by done. exact IH. }
  split; [exists (replicate 21 "t"); split; [left|]; split; [set_solver|]; split; [apply EX|lia]|]. split.
  - intros k (tracks & He & _ & Hk & L). apply elem_of_cons in He as [[= ->]|He]; [|apply elem_of_list_singleton in He; done]. pose proof (exactly_unique _ _ _ _ Hk (EX 20%nat)). lia.
  - assert (pair_score met_origin {["t" := v0]} "a" "b" (replicate 21 "t") = 21)%nat as E. { eapply exactly_unique; [|apply EX]. unfold pair_score. apply filter_exactly. intros t. apply in_range_useful. }
    unfold find_neighboring_images, candidates. cbn [omap list_omap fst snd]. rewrite E, Z. rewrite bool_decide_true by set_solver. rewrite andb_false_r. done.
Qed.
Example C85_depth_met : exists lo hi, compute_depth_range [3; 1; 2] 0 5 = Some (lo, hi) /\ 0 < lo /\ hi = 5.
Proof.
  destruct (C85_depth_range [3; 1; 2]) as (lo & hi & E & B & _); [done|intros d Hd; rewrite !elem_of_cons, elem_of_nil in Hd; destruct Hd as [-> |[-> |[-> |[]]]]; lra|].
  destruct (C85_configured [3; 1; 2] 0 5 lo hi E) as (lo' & hi' & E' & _ & H1 & H2 & _). exists lo', hi'. split; [done|]. rewrite H1, H2 by lra. split; lra.
Qed.

Print Assumptions C85_neighbors.
Print Assumptions C85_best.
Print Assumptions C85_distinct.
Print Assumptions C85_common_tracks.
Print Assumptions C85_mutual.
Print Assumptions C85_percentile.
Print Assumptions C85_percentile_monotone.
Print Assumptions C85_depth_range.
Print Assumptions C85_configured.
Print Assumptions C85_negative_depth_refuted.
Print Assumptions C85_saved_depth.
Print Assumptions C85_saved.
Print Assumptions C85_view_size.
Print Assumptions C85_no_rows_refuted.
Print Assumptions C85_vertices.
Print Assumptions C85_vertices_count.
