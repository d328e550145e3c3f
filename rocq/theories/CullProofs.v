(** Proofs about the culling of points. *)
From stdpp Require Import prelude gmap strings sorting.
From Coq Require Import Reals Lra Classical_Prop.
From Verif Require Import Base Lin TriangModel TriangSpec MapModel MapSpec MapProofs BundleModel BundleProofs CullModel CullSpec.
Local Open Scope R_scope.

(** ** Sums, means and deviations *)
Lemma foldl_sum l a : foldl Rplus a l = a + sum l.
Proof. revert a. induction l as [|x l IH]; intros a; cbn; [ring|]. rewrite IH. ring. Qed.
Lemma accumulate_sum l : accumulate l = sum l.
Proof. unfold accumulate. rewrite foldl_sum. ring. Qed.
Lemma average_mean l : average l = mean l.
Proof. unfold average, mean. by rewrite accumulate_sum. Qed.
Lemma deviation_std l : deviation l = std l.
Proof.
  unfold deviation, std. rewrite accumulate_sum, average_mean. f_equal. f_equal. f_equal. apply list_fmap_ext. intros i x _. ring.
Qed.
Lemma sum_app l k : sum (l ++ k) = sum l + sum k.
Proof. induction l as [|x l IH]; cbn; [ring|]. rewrite IH. ring. Qed.
Lemma sum_perm l k : l ≡ₚ k -> sum l = sum k.
Proof. induction 1; cbn; lra. Qed.
Lemma mean_perm l k : l ≡ₚ k -> mean l = mean k.
Proof. intros H. unfold mean. by rewrite (sum_perm _ _ H), H. Qed.
Lemma std_perm l k : l ≡ₚ k -> std l = std k.
Proof. intros H. unfold std. rewrite (mean_perm _ _ H). rewrite (sum_perm _ ((fun x => (x - mean k) ^ 2) <$> k)); [by rewrite H|by rewrite H]. Qed.

Lemma sum_shift (m t : R) l : sum ((fun x => (x - m + t) ^ 2) <$> l) = sum ((fun x => (x - m) ^ 2) <$> l) + 2 * t * (sum l - INR (length l) * m) + INR (length l) * t ^ 2.
Proof.
  induction l as [|x l IH]; [cbn; ring|]. cbn [fmap list_fmap sum length]. change (list_fmap R R ?f l) with (f <$> l). rewrite IH, S_INR. ring.
Qed.
Lemma sum_nonneg {A} (f : A -> R) l : (forall x, 0 <= f x) -> 0 <= sum (f <$> l).
Proof. intros H. induction l as [|x l IH]; cbn; [lra|]. specialize (H x). lra. Qed.
Lemma sum_count (P : R -> Prop) `{!forall x, Decision (P x)} (f : R -> R) c l : (forall x, 0 <= f x) -> (forall x, P x -> c <= f x) ->
  INR (length (filter P l)) * c <= sum (f <$> l).
Proof.
  intros H0 Hc. induction l as [|x l IH]; [cbn; lra|]. rewrite filter_cons. cbn [fmap list_fmap sum]. change (list_fmap R R f l) with (f <$> l). destruct (decide (P x)) as [p|n].
  - cbn [length]. rewrite S_INR. specialize (Hc x p). lra.
  - specialize (H0 x). lra.
Qed.
Lemma filter_map_length {A} (f : A -> R) (t : R) l : length (filter (fun x => t < f x) l) = length (filter (fun x => t < x) (f <$> l)).
Proof. induction l as [|x l IH]; [done|]. rewrite fmap_cons, !filter_cons. destruct (decide (t < f x)); cbn [length]; by rewrite IH. Qed.
(** Cantelli's inequality *)
Lemma cantelli l k : 0 < k -> INR (length (filter (fun x => mean l + k * std l < x) l)) * (1 + k ^ 2) <= INR (length l).
Proof.
  intros Hk. destruct (decide (length l = 0%nat)) as [E|Hn].
  { apply nil_length_inv in E as ->. cbn. lra. }
  assert (Hn' : 0 < INR (length l)) by (apply lt_0_INR; lia).
  set (n := INR (length l)) in *. set (S2 := sum ((fun x => (x - mean l) ^ 2) <$> l)).
  assert (HS : 0 <= S2) by (apply sum_nonneg; intros x; apply pow2_ge_0).
  assert (Hs : std l * std l = S2 / n). { unfold std. fold n. fold S2. apply sqrt_sqrt. apply Rmult_le_pos; [assumption|]. left. now apply Rinv_0_lt_compat. }
  assert (Hs0 : 0 <= std l) by apply sqrt_pos.
  assert (Hm : sum l - n * mean l = 0) by (unfold mean; fold n; field; lra).
  destruct (Rle_lt_or_eq_dec _ _ Hs0) as [Hpos|Hz].
  - set (t := std l / k). assert (0 < t) by (unfold t; apply Rdiv_lt_0_compat; assumption).
    pose proof (sum_count (fun x => mean l + k * std l < x) (fun x => (x - mean l + t) ^ 2) ((k * std l + t) ^ 2) l) as H1.
    assert (H2 : INR (length (filter (fun x => mean l + k * std l < x) l)) * (k * std l + t) ^ 2 <= sum ((fun x => (x - mean l + t) ^ 2) <$> l)).
    { apply H1; [intros x; apply pow2_ge_0|]. intros x Hx. apply pow_incr. split; [|lra]. assert (0 < k * std l) by now apply Rmult_lt_0_compat. lra. }
    rewrite sum_shift in H2. fold n S2 in H2. rewrite Hm in H2. set (c := INR (length (filter _ l))) in *. clearbody c. clear H1.
    assert (E : S2 = n * (std l * std l)) by (rewrite Hs; field; lra). rewrite E in H2.
    assert (Ek : std l = t * k) by (unfold t; field; lra). rewrite Ek in H2.
    replace (c * (k * (t * k) + t) ^ 2) with (t ^ 2 * (1 + k ^ 2) * (c * (1 + k ^ 2))) in H2 by ring.
    replace (n * (t * k * (t * k)) + 2 * t * 0 + n * t ^ 2) with (t ^ 2 * (1 + k ^ 2) * n) in H2 by ring.
    apply Rmult_le_reg_l in H2; [assumption|]. apply Rmult_lt_0_compat; [apply pow_lt; assumption|]. pose proof (pow2_ge_0 k). lra.
  - rewrite <- Hz. replace (k * 0) with 0 by ring.
    assert (filter (fun x => mean l + 0 < x) l = []) as ->; [|cbn; lra].
    assert (S2 = 0) as H0. { rewrite <- Hz in Hs. assert (S2 = n * (S2 / n)) by (field; lra). rewrite H, <- Hs. ring. }
    assert (forall x, x ∈ l -> (x - mean l) ^ 2 <= S2) as Hx.
    { unfold S2. generalize (mean l). intros mm. clear. induction l as [|y l IH]; intros x Hx; [by apply elem_of_nil in Hx|].
      cbn [fmap list_fmap sum]. change (list_fmap R R ?f l) with (f <$> l).
      assert (0 <= sum ((fun x => (x - mm) ^ 2) <$> l)) by (apply sum_nonneg; intros; apply pow2_ge_0).
      apply elem_of_cons in Hx as [->|Hx]; [lra|]. specialize (IH x Hx). pose proof (pow2_ge_0 (y - mm)). lra. }
    apply length_zero_iff_nil. apply Nat.le_0_r, Nat.nlt_ge. intros Hlen.
    destruct (filter (fun x => mean l + 0 < x) l) as [|y k'] eqn:E; [cbn in Hlen; lia|].
    assert (y ∈ filter (fun x => mean l + 0 < x) l) as Hy by (rewrite E; set_solver). apply elem_of_list_filter in Hy as [Hy1 Hy2].
    specialize (Hx y Hy2). rewrite H0 in Hx. assert (0 < (y - mean l) ^ 2) by (apply pow_lt; lra). lra.
Qed.
(** Not all values are above their mean. *)
Lemma some_below_mean l : l <> [] -> exists x, x ∈ l /\ x <= mean l.
Proof.
  intros Hl. destruct (decide (Exists (fun x => x <= mean l) l)) as [H|H]; [by apply Exists_exists in H|].
  exfalso. assert (Hn : 0 < INR (length l)) by (apply lt_0_INR; destruct l; [done|cbn; lia]).
  assert (forall k m, (forall x, x ∈ k -> m < x) -> k <> [] -> INR (length k) * m < sum k) as Hsum.
  { induction k as [|x k IH]; intros m Hm Hk; [done|]. cbn [length sum]. rewrite S_INR. assert (m < x) by (apply Hm; set_solver).
    destruct k as [|y k]; [cbn; lra|]. assert (INR (length (y :: k)) * m < sum (y :: k)) by (apply IH; [intros z Hz; apply Hm; set_solver|done]). lra. }
  assert (INR (length l) * mean l < sum l) as H1.
  { apply Hsum; [|done]. intros x Hx. apply Rnot_le_lt. intros Hle. apply H, Exists_exists. eauto. }
  unfold mean in H1. replace (INR (length l) * (sum l / INR (length l))) with (sum l) in H1 by (field; lra). lra.
Qed.

(** ** Sorting *)
Global Instance Rle_total : Total Rle.
Proof. intros x y. lra. Qed.
Global Instance Rle_trans' : Transitive Rle.
Proof. intros x y z. lra. Qed.
Global Instance Rle_antisymm' : AntiSymm (=) Rle.
Proof. intros x y. lra. Qed.
Lemma sort_unique l k : StronglySorted Rle k -> k ≡ₚ l -> merge_sort Rle l = k.
Proof.
  intros Hs Hp. apply (StronglySorted_unique Rle); [apply StronglySorted_merge_sort; apply _|done|]. rewrite merge_sort_Permutation. done.
Qed.
Lemma sorted_app l k : StronglySorted Rle l -> StronglySorted Rle k -> (forall x y, x ∈ l -> y ∈ k -> x <= y) -> StronglySorted Rle (l ++ k).
Proof.
  induction 1 as [|x l Hl IH Hx]; intros Hk H; [done|]. cbn. constructor; [apply IH; [done|]; intros a b Ha Hb; apply H; set_solver|].
  rewrite Forall_forall in Hx |- *. intros y Hy. apply elem_of_app in Hy as [Hy|Hy]; [by apply Hx|apply H; set_solver].
Qed.
Lemma sorted_app_inv l k : StronglySorted Rle (l ++ k) -> StronglySorted Rle l /\ StronglySorted Rle k /\ (forall x y, x ∈ l -> y ∈ k -> x <= y).
Proof.
  induction l as [|x l IH]; cbn; intros H; [split; [constructor|split; [done|intros ? ? He; by apply elem_of_nil in He]]|].
  apply StronglySorted_inv in H as [H1 H2]. destruct (IH H1) as (A & B & D). rewrite Forall_forall in H2. split; [|split; [done|]].
  - constructor; [done|]. rewrite Forall_forall. intros y Hy. apply H2. set_solver.
  - intros a b Ha Hb. apply elem_of_cons in Ha as [->|Ha]; [apply H2; set_solver|by apply D].
Qed.
(** The [length l] smallest values *)
Lemma sort_take l k : (forall x y, x ∈ l -> y ∈ k -> x <= y) -> take (length l) (merge_sort Rle (l ++ k)) ≡ₚ l.
Proof.
  intros H. rewrite (sort_unique (l ++ k) (merge_sort Rle l ++ merge_sort Rle k)).
  - rewrite take_app_alt; [apply merge_sort_Permutation|]. by rewrite merge_sort_Permutation.
  - apply sorted_app; [apply StronglySorted_merge_sort; apply _..|]. intros x y. rewrite !merge_sort_Permutation. apply H.
  - by rewrite !merge_sort_Permutation.
Qed.
Lemma sort_least x l : (forall y, y ∈ l -> x <= y) -> merge_sort Rle (x :: l) = x :: merge_sort Rle l.
Proof.
  intros H. apply sort_unique; [|by rewrite merge_sort_Permutation]. constructor; [apply StronglySorted_merge_sort; apply _|].
  rewrite Forall_forall. intros y. rewrite merge_sort_Permutation. apply H.
Qed.
Lemma sort_perm l k : l ≡ₚ k -> merge_sort Rle l = merge_sort Rle k.
Proof. intros H. apply sort_unique; [apply StronglySorted_merge_sort; apply _|]. by rewrite merge_sort_Permutation. Qed.
Lemma median_perm l k : l ≡ₚ k -> median l = median k.
Proof. intros H. unfold median. by rewrite (sort_perm _ _ H), (Permutation_length H). Qed.
Lemma half_odd n : ((2 * n + 1) / 2 = n)%nat.
Proof. rewrite (Nat.mul_comm 2), Nat.div_add_l by lia. cbn. lia. Qed.
Lemma half_even n : ((2 * n) / 2 = n)%nat.
Proof. rewrite (Nat.mul_comm 2). apply Nat.div_mul. lia. Qed.
Lemma odd_odd n : Nat.odd (2 * n + 1) = true.
Proof. apply Nat.odd_spec. by exists n. Qed.
Lemma odd_even n : Nat.odd (2 * n) = false.
Proof. rewrite <- Nat.negb_even. apply negb_false_iff, Nat.even_spec. by exists n. Qed.
Lemma median_spec l x : is_median l x -> median l = Some x.
Proof.
  intros (b & a & Hs & Hp & H). unfold median. rewrite (sort_unique l _ Hs Hp), <- (Permutation_length Hp), app_length.
  destruct H as [(rest & -> & Hl)|(pre & u & v & post & -> & -> & Hl & ->)].
  - cbn [length]. rewrite Hl. replace (length rest + S (length rest))%nat with (2 * length rest + 1)%nat by lia.
    rewrite odd_odd, half_odd, <- Hl. by rewrite lookup_app_r, Nat.sub_diag by lia.
  - rewrite app_length. cbn [length]. rewrite Hl. replace (length post + 1 + S (length post))%nat with (2 * (length post + 1))%nat by lia.
    rewrite odd_even, half_even. rewrite <- Hl. rewrite <- app_assoc. cbn [app]. rewrite Nat.add_sub. rewrite !lookup_app_r by lia.
    rewrite Nat.sub_diag. replace (length pre + 1 - length pre)%nat with 1%nat by lia. done.
Qed.
Lemma median_exists l : l <> [] -> exists x, is_median l x.
Proof.
  intros Hl. set (s := merge_sort Rle l). assert (Hs : StronglySorted Rle s) by (apply StronglySorted_merge_sort; apply _).
  assert (Hp : s ≡ₚ l) by apply merge_sort_Permutation. assert (Hn : length s = length l) by now rewrite Hp.
  assert (Hpos : (0 < length l)%nat) by (destruct l; [done|cbn; lia]).
  destruct (Nat.Even_or_Odd (length l)) as [[q Hq]|[q Hq]].
  - destruct (drop q s) as [|v post] eqn:E. { apply (f_equal length) in E. rewrite drop_length in E. cbn in E. lia. }
    assert (take q s <> []) as Ht. { intros E2. apply (f_equal length) in E2. rewrite take_length in E2. cbn in E2. lia. }
    destruct (exists_last Ht) as (pre & w & E2). exists ((w + v) / 2), (take q s), (drop q s). rewrite take_drop. split; [done|]. split; [done|].
    right. exists pre, w, v, post. split; [done|]. split; [done|]. split; [|done].
    apply (f_equal length) in E, E2. rewrite drop_length in E. rewrite take_length, app_length in E2. cbn in E, E2. lia.
  - destruct (drop q s) as [|v post] eqn:E. { apply (f_equal length) in E. rewrite drop_length in E. cbn in E. lia. }
    exists v, (take q s), (drop q s). rewrite take_drop. split; [done|]. split; [done|]. left. exists post. split; [done|].
    apply (f_equal length) in E. rewrite drop_length in E. rewrite take_length. cbn in E. lia.
Qed.

(** ** Removing landmarks *)
From Verif Require Import MapProps.
Section Without.
Context {C B P D X O Rf : Type}.
Notation map := (@map C B P vec D X O Rf).
Lemma same_frame_trans (a b c : map) : same_frame a b -> same_frame b c -> same_frame a c.
Proof. intros (?&?&?&?&?&H) (?&?&?&?&?&H'). split_and!; congruence. Qed.
Lemma without_trans (g1 g2 : string -> Prop) (a b c : map) : without g1 a b -> without g2 b c -> without (fun x => g1 x \/ g2 x) a c.
Proof.
  intros [F1 G1 K1 S1] [F2 G2 K2 S2]. split.
  - by eapply same_frame_trans.
  - intros lm [H|H]; [|by apply G2]. destruct (m_landmarks c !! lm) eqn:E; [|done].
    destruct (m_landmarks b !! lm) eqn:E2; [rewrite G1 in E2 by done; done|].
    exfalso. destruct (classic (g2 lm)) as [Hg|Hg]; [rewrite G2 in E by done; done|]. rewrite K2 in E by done. congruence.
  - intros lm H. rewrite K2, K1 by tauto. done.
  - intros k lm o. rewrite S2, S1. tauto.
Qed.
Lemma without_iff (g1 g2 : string -> Prop) (a b : map) : (forall x, g1 x <-> g2 x) -> without g1 a b -> without g2 a b.
Proof. intros H [F1 G1 K1 S1]. split; [done|intros; apply G1; by apply H|intros ? Hn; apply K1; by rewrite H|]. intros. rewrite S1, H. done. Qed.

End Without.
Section Removal.
Context {C B P D X O Rf : Type}.
Variable feature_of : O -> Z.
Variable bias0 : B. Variable pose0 : P. Variable data0 : D. Variable mesh0 : X.
Variable pcompose : P -> P -> P. Variable pinverse : P -> P.
Variable enumL : gmap string (landmark vec) -> list (string * landmark vec).
Variable enumF : gmap string (bool * Z) -> list (string * (bool * Z)).
Variable enumO : gmap string O -> list (string * O).
Hypothesis HL : enumerates enumL. Hypothesis HF : enumerates enumF. Hypothesis HO : enumerates enumO.
Notation map := (@map C B P vec D X O Rf).
Notation step := (map_step feature_of bias0 pose0 data0 mesh0 pcompose pinverse enumL enumF enumO).
Notation reach := (reachable feature_of step).

Lemma without_nothing (gone : string -> Prop) (m : map) : reach m -> (forall lm, gone lm -> m_landmarks m !! lm = None) -> without gone m m.
Proof using All.
  intros Hm Hg. split; [done|by intros lm H; apply Hg|done|]. intros k lm o. split; [|tauto]. intros Hs. split; [|done]. intros H. apply Hg in H.
  destruct (nd_landmark_of_shot _ (C09_no_dangling _ _ _ _ _ _ _ _ _ _ HL HF HO m Hm) _ _ _ Hs) as [x Hx]. congruence.
Qed.
Lemma without_one (m : map) lm : reach m -> exists_in m lm -> exists m', remove_landmark enumF m lm = Ok m' /\ reach m' /\ without (fun x => x = lm) m m'.
Proof using All.
  intros Hm H. destruct (C09_remove_landmark _ bias0 pose0 data0 mesh0 pcompose pinverse enumL enumF enumO HL HF HO m Hm lm H) as (m' & E & H1 & H2 & H3 & H4).
  exists m'. split; [done|]. split.
  - replace m' with (step m (MRemoveLandmark lm)) by (unfold map_step; by rewrite E). constructor; [done|exact I].
  - split; [done|by intros ? ->|intros x Hx; by apply H2|done].
Qed.
Lemma remove_listed_from (ids : list string) : forall n (m : map), reach m ->
  exists k m', foldM (fun '(n, m) lm => match m_landmarks m !! lm with
                           | None => Ok (n, m)
                           | Some _ => try m := remove_landmark enumF m lm in Ok (S n, m)
                           end) (n, m) ids = Ok ((n + k)%nat, m') /\
    reach m' /\ without (fun lm => lm ∈ ids /\ exists_in m lm) m m' /\ number (fun lm => lm ∈ ids /\ exists_in m lm) k.
Proof using All.
  induction ids as [|lm ids IH]; intros n m Hm.
  - exists 0%nat, m. rewrite Nat.add_0_r. split; [done|]. split; [done|]. split.
    + apply without_nothing; [done|]. intros lm [H _]. by apply elem_of_nil in H.
    + exists []. split; [|done]. split; [constructor|]. intros x. rewrite elem_of_nil. tauto.
  - cbn [foldM]. destruct (m_landmarks m !! lm) as [l|] eqn:E; cbn [res_bind].
    + destruct (without_one m lm Hm) as (m1 & E1 & Hm1 & W1); [by exists l|]. rewrite E1. cbn [res_bind].
      destruct (IH (S n) m1 Hm1) as (k & m' & E2 & Hm' & W2 & (L & [N1 N2] & N3)). exists (S k), m'.
      assert (Hex : forall x, exists_in m1 x <-> x <> lm /\ exists_in m x).
      { intros x. unfold exists_in. destruct (decide (x = lm)) as [->|Hne].
        - rewrite (wo_gone _ _ _ W1 lm eq_refl). split; [intros [? ?]; done|tauto].
        - rewrite (wo_kept _ _ _ W1 x Hne). tauto. }
      split; [rewrite E2; f_equal; f_equal; lia|]. split; [done|]. split.
      * eapply without_iff; [|exact (without_trans _ _ _ _ _ W1 W2)]. intros x. cbn. rewrite elem_of_cons, Hex.
        destruct (decide (x = lm)) as [->|Hne]; [|tauto]. split; [|tauto]. intros _. split; [tauto|by exists l].
      * exists (lm :: L). split; [|cbn; lia]. split.
        -- constructor; [|done]. rewrite N2, Hex. tauto.
        -- intros x. rewrite !elem_of_cons, N2, Hex. destruct (decide (x = lm)) as [->|Hne]; [|tauto]. split; [|tauto]. intros _. split; [tauto|by exists l].
    + destruct (IH n m Hm) as (k & m' & E2 & Hm' & W2 & (L & [N1 N2] & N3)). exists k, m'.
      assert (Hi : forall x, x ∈ ids /\ exists_in m x <-> x ∈ lm :: ids /\ exists_in m x).
      { intros x. rewrite elem_of_cons. split; [tauto|]. intros [[->|H] Hx]; [|tauto]. destruct Hx as [? Hx]. congruence. }
      split; [done|]. split; [done|]. split; [by eapply without_iff; [exact Hi|]|]. exists L. split; [|done]. split; [done|]. intros x. by rewrite N2, Hi.
Qed.
Lemma remove_listed_ok (m : map) (ids : list string) : reach m ->
  exists n m', remove_listed enumF m ids = Ok (n, m') /\ reach m' /\ without (fun lm => lm ∈ ids /\ exists_in m lm) m m' /\ number (fun lm => lm ∈ ids /\ exists_in m lm) n.
Proof using All. intros Hm. destruct (remove_listed_from ids 0 m Hm) as (k & m' & H). exists k, m'. exact H. Qed.
End Removal.

(** ** Neighbours *)
Lemma ssorted_app_inv {A} (Q : A -> A -> Prop) (l k : list A) : StronglySorted Q (l ++ k) -> forall x y, x ∈ l -> y ∈ k -> Q x y.
Proof.
  induction l as [|z l IH]; cbn; intros H x y Hx Hy; [by apply elem_of_nil in Hx|]. apply StronglySorted_inv in H as [H1 H2].
  rewrite Forall_forall in H2. apply elem_of_cons in Hx as [->|Hx]; [apply H2; set_solver|by apply IH].
Qed.
Lemma dist_sq p q : dist p q ^ 2 = dist2 p q.
Proof. unfold dist, dist2. cbn [pow]. rewrite Rmult_1_r. apply norm_sq. Qed.
Lemma dist2_0 p : dist2 p p = 0.
Proof. destruct p. unfold dist2, vsub, dot. cbn. ring. Qed.
Lemma dist2_pos p q : 0 <= dist2 p q.
Proof. rewrite <- dist_sq. apply pow2_ge_0. Qed.
Lemma dist_le p q r : dist p q <= dist p r <-> dist2 p q <= dist2 p r.
Proof.
  rewrite <- !dist_sq. assert (0 <= dist p q) by apply norm_nonneg. assert (0 <= dist p r) by apply norm_nonneg. split; intros Hle.
  - apply pow_incr. lra.
  - apply Rnot_lt_le. intros Hlt. cbn in Hle. assert (dist p r * dist p r < dist p q * dist p q) by (apply Rmult_le_0_lt_compat; lra). lra.
Qed.
Lemma nodup_split {A} `{EqDecision A} (ids ns : list A) : NoDup ids -> NoDup ns -> (forall x, x ∈ ns -> x ∈ ids) ->
  ids ≡ₚ ns ++ filter (fun x => x ∉ ns) ids.
Proof.
  intros H1 H2 H3. apply NoDup_Permutation; [done| |].
  - apply NoDup_app. split; [done|]. split; [|by apply NoDup_filter]. intros x Hx Hf. apply elem_of_list_filter in Hf. tauto.
  - intros x. rewrite elem_of_app, elem_of_list_filter. destruct (decide (x ∈ ns)); [|tauto]. split; [tauto|]. intros _. by apply H3.
Qed.
Section Neighbors.
Context {C B P D X O Rf : Type}.
Notation map := (@map C B P vec D X O Rf).
Variable enumL : gmap string (landmark vec) -> list (string * landmark vec).
Hypothesis HL : enumerates enumL.
Variable m : map.
Notation ids := (fst <$> enumL (m_landmarks m)).
Notation positions := ((fun x => lm_pos x.2) <$> enumL (m_landmarks m)).
Definition pos (lm : string) : vec := default v0 (position m lm).
Lemma ids_in lm : lm ∈ ids <-> exists_in m lm.
Proof using HL.
  rewrite (HL (m_landmarks m)), elem_of_list_fmap. split.
  - intros ([x l] & -> & H). apply elem_of_map_to_list in H. by exists l.
  - intros [l H]. exists (lm, l). split; [done|]. by apply elem_of_map_to_list.
Qed.
Lemma ids_nodup : NoDup ids.
Proof using HL. rewrite (HL (m_landmarks m)). apply NoDup_fst_map_to_list. Qed.
Lemma positions_pos : positions = pos <$> ids.
Proof using HL.
  rewrite <- list_fmap_compose. apply list_fmap_ext. intros i [x l] Hi. cbn. unfold pos, position. 
  assert ((x, l) ∈ enumL (m_landmarks m)) as H by by eapply elem_of_list_lookup_2. rewrite (HL (m_landmarks m)) in H.
  apply elem_of_map_to_list in H. by rewrite H.
Qed.
Lemma ids_length : length ids = size (m_landmarks m).
Proof using HL. rewrite fmap_length. rewrite (Permutation_length (HL (m_landmarks m))). done. Qed.
Lemma position_pos lm : exists_in m lm <-> position m lm = Some (pos lm).
Proof using Type. unfold exists_in, pos, position. destruct (m_landmarks m !! lm); cbn; split; try done; [intros [? ?]; done]. Qed.
Lemma position_in lm p : position m lm = Some p -> exists_in m lm /\ p = pos lm.
Proof using Type. unfold exists_in, pos, position. destruct (m_landmarks m !! lm); cbn; [|done]. intros [= ->]. eauto. Qed.

Lemma average_found l k ns : take k l ≡ₚ ns -> match take k l with [] => 0 | _ => accumulate (take k l) / INR (length (take k l)) end = mean ns.
Proof using Type.
  intros H. destruct (take k l) as [|x t] eqn:E.
  - apply Permutation_nil_l in H. subst. unfold mean. cbn. lra.
  - change (accumulate (x :: t) / INR (length (x :: t)) = mean ns). rewrite accumulate_sum. by apply (mean_perm (x :: t)).
Qed.
Lemma isolation_average k lm a : isolation m k lm a -> neighbor_average k positions (pos lm) = a.
Proof using HL.
  intros (ns & p & (Hnd & Hlen & Hni & Hex & Hnear) & Hp & ds & Hds & ->). destruct (position_in _ _ Hp) as [Hin ->].
  assert (ds = (fun x => dist2 (pos lm) (pos x)) <$> ns) as ->.
  { clear - Hds. induction Hds as [|x d ns ds (q & Hq & ->) _ IH]; [done|]. rewrite dist_sq, fmap_cons. f_equal; [|exact IH]. by apply position_in in Hq as [_ ->]. }
  unfold neighbor_average. apply average_found. rewrite positions_pos.
  set (rest := filter (fun x => x ∉ lm :: ns) ids).
  assert (E : ids ≡ₚ (lm :: ns) ++ rest).
  { apply nodup_split; [apply ids_nodup|by constructor|]. intros x Hx. apply ids_in. apply elem_of_cons in Hx as [->|Hx]; [done|by apply Hex]. }
  rewrite (sort_perm _ (0 :: ((fun x => dist2 (pos lm) (pos x)) <$> ns) ++ ((fun x => dist2 (pos lm) (pos x)) <$> rest))).
  2:{ rewrite E. cbn. rewrite dist2_0. constructor. rewrite !fmap_app, <- !list_fmap_compose. done. }
  rewrite sort_least. 2:{ intros y Hy. apply elem_of_app in Hy as [Hy|Hy]; apply elem_of_list_fmap in Hy as (z & -> & _); apply dist2_pos. }
  cbn [drop]. rewrite <- Hlen. rewrite <- (fmap_length (fun x => dist2 (pos lm) (pos x)) ns). apply sort_take.
  intros x y Hx Hy. apply elem_of_list_fmap in Hx as (u & -> & Hu). apply elem_of_list_fmap in Hy as (v & -> & Hv).
  apply elem_of_list_filter in Hv as [Hv1 Hv2]. apply not_elem_of_cons in Hv1 as [Hv1 Hv3]. apply dist_le.
  apply (Hnear (pos lm) u (pos u) v (pos v)); [done|done|by apply position_pos, Hex|done|done|]. by apply position_pos, ids_in.
Qed.
Lemma isolation_exists k lm : exists_in m lm -> (k < size (m_landmarks m))%nat -> exists a, isolation m k lm a.
Proof using HL.
  intros Hin Hk. set (Q := fun x y => dist2 (pos lm) (pos x) <= dist2 (pos lm) (pos y)).
  assert (QD : RelDecision Q) by (intros x y; unfold Q; apply _). assert (Transitive Q) by (intros x y z; unfold Q; lra). assert (Total Q) by (intros x y; unfold Q; lra).
  set (rest := filter (fun x => x <> lm) ids). set (s := merge_sort Q rest).
  assert (Hp : s ≡ₚ rest) by apply merge_sort_Permutation. assert (Hs : StronglySorted Q s) by (apply StronglySorted_merge_sort; apply _).
  assert (Hnd : NoDup s) by (rewrite Hp; apply NoDup_filter, ids_nodup).
  assert (Hlen : S (length s) = size (m_landmarks m)).
  { rewrite Hp, <- ids_length. assert (ids ≡ₚ [lm] ++ rest) as ->; [|done]. unfold rest.
    rewrite (nodup_split ids [lm]) at 1; [|apply ids_nodup|apply NoDup_singleton|intros x ->%elem_of_list_singleton; by apply ids_in].
    cbn. constructor. assert (forall l : list string, filter (fun x => x ∉ [lm]) l = filter (fun x => x <> lm) l) as ->; [|done].
    intros l. apply list_filter_iff. intros x. rewrite elem_of_list_singleton. done. }
  exists (mean ((fun x => dist2 (pos lm) (pos x)) <$> take k s)), (take k s), (pos lm). split_and!.
  - split_and!.
    + rewrite <- (take_drop k s) in Hnd. by apply NoDup_app in Hnd as [? _].
    + rewrite take_length. lia.
    + intros Hx. apply elem_of_take in Hx as (i & Hi & _). apply elem_of_list_lookup_2 in Hi. rewrite Hp in Hi. apply elem_of_list_filter in Hi. tauto.
    + intros x Hx. apply elem_of_take in Hx as (i & Hi & _). apply elem_of_list_lookup_2 in Hi. rewrite Hp in Hi. apply elem_of_list_filter in Hi as [_ Hi]. by apply ids_in.
    + intros p x q y r Hp' Hx Hq Hy1 Hy2 Hr. apply position_in in Hp' as [_ ->]. apply position_in in Hq as [_ ->]. apply position_in in Hr as [Hr ->]. apply dist_le.
      rewrite <- (take_drop k s) in Hs. apply (ssorted_app_inv Q _ _ Hs); [done|].
      assert (y ∈ s) as Hys by (rewrite Hp; apply elem_of_list_filter; split; [done|by apply ids_in]).
      rewrite <- (take_drop k s) in Hys. apply elem_of_app in Hys as [?|?]; done.
  - by apply position_pos.
  - eexists. split; [|reflexivity]. apply Forall2_fmap_r, Forall_Forall2_diag, Forall_forall. intros x Hx. exists (pos x). split; [|symmetry; apply dist_sq].
    apply position_pos. apply elem_of_take in Hx as (i & Hi & _). apply elem_of_list_lookup_2 in Hi. rewrite Hp in Hi. apply elem_of_list_filter in Hi as [_ Hi]. by apply ids_in.
Qed.
End Neighbors.

(** ** Outliers *)
Section Outliers.
Context {C B P D X O Rf : Type}.
Variable feature_of : O -> Z.
Variable bias0 : B. Variable pose0 : P. Variable data0 : D. Variable mesh0 : X.
Variable pcompose : P -> P -> P. Variable pinverse : P -> P.
Variable enumL : gmap string (landmark vec) -> list (string * landmark vec).
Variable enumF : gmap string (bool * Z) -> list (string * (bool * Z)).
Variable enumO : gmap string O -> list (string * O).
Hypothesis HL : enumerates enumL. Hypothesis HF : enumerates enumF. Hypothesis HO : enumerates enumO.
Notation map := (@map C B P vec D X O Rf). Notation scored := (@scored C B P D X O Rf).
Notation step := (map_step feature_of bias0 pose0 data0 mesh0 pcompose pinverse enumL enumF enumO).
Notation reach := (reachable feature_of step).
Variable enumE : gmap string (R * R) -> list (string * (R * R)).
Variable enumT : gset string -> list string.
Hypothesis HE : enumerates enumE. Hypothesis HT : forall s, enumT s ≡ₚ elements s.

Definition err (s : scored) (lm shot : string) : option (R * R) := errors_of s lm !! shot.

Definition good (s : scored) : Prop := reach (c_map s) /\ recorded (err s) (c_map s).

Lemma lists_symmetric (m : map) : reach m -> forall k l f, landmark_lists m l k f <-> exists o, shot_sees m k l o /\ feature_of o = f.
Proof using All. intros Hm. eapply C08_symmetric; eassumption. Qed.
(** one observation removed *)
Lemma drop_one (s : scored) lm x f : good s -> landmark_lists (c_map s) lm (false, x) f ->
  exists s', remove_observation_of s x lm = Ok s' /\ good s' /\ same_frame (c_map s) (c_map s') /\
    (forall k l o, shot_sees (c_map s') k l o <-> ~ (k = (false, x) /\ l = lm) /\ shot_sees (c_map s) k l o) /\
    (forall l, (fun x => (lm_pos x, lm_color x)) <$> m_landmarks (c_map s') !! l = (fun x => (lm_pos x, lm_color x)) <$> m_landmarks (c_map s) !! l) /\
    (forall l y e, err s' l y = Some e <-> ~ (y = x /\ l = lm) /\ err s l y = Some e).
Proof using All.
  intros [Hm Hrec] Hf.
  assert (Hal : allowed feature_of (c_map s) (MRemoveObs x lm)).
  { intros f' (l & Hl & Hx). destruct Hf as (l' & Hl' & Hx'). cbn in *. congruence. }
  pose proof (C08_remove_observation _ bias0 pose0 data0 mesh0 pcompose pinverse enumL enumF enumO HL HF HO _ Hm _ _ Hal) as H.
  destruct (map_exec _ _ _ _ _ _ _ _ _ _ _ _) as [m'|e] eqn:E.
  2:{ exfalso. apply (lists_symmetric _ Hm) in Hf as (o & Ho & _). by apply (H o). }
  destruct H as (_ & Hfr & Hsees). assert (Hm' : reach m').
  { replace m' with (step (c_map s) (MRemoveObs x lm)) by (unfold map_step; by rewrite E). by constructor. }
  cbn in E. exists (Scored m' (alter (delete x) lm (c_errors s))). unfold remove_observation_of. rewrite E. split; [done|]. cbn [c_map].
  assert (Herr : forall l y e, err (Scored m' (alter (delete x) lm (c_errors s))) l y = Some e <-> ~ (y = x /\ l = lm) /\ err s l y = Some e).
  { intros l y e. unfold err, errors_of. cbn [c_errors]. destruct (decide (l = lm)) as [->|Hne].
    - rewrite lookup_alter. destruct (c_errors s !! lm) as [es|]; cbn; [rewrite lookup_delete_Some|rewrite lookup_empty]; naive_solver.
    - rewrite lookup_alter_ne by done. tauto. }
  split_and!; try done.
  - split; [done|]. intros l y e He. apply Herr in He as [Hne He]. destruct (Hrec _ _ _ He) as (f' & Hf'). exists f'.
    apply (lists_symmetric _ Hm') . apply (lists_symmetric _ Hm) in Hf' as (o & Ho & Hfo). exists o. split; [|done]. apply Hsees. split; [|done].
    intros [[= ->] ->]. naive_solver.
  - intros l. unfold remove_observation in E. destruct (m_shots (c_map s) !! (false, x)); [|done]. destruct (m_landmarks (c_map s) !! lm) as [L|] eqn:EL; [|done].
    destruct (lm_obs L !! x) as [[? ?]|]; [|done]. destruct (shot_remove_obs _ _); [|done]. cbn in E. injection E as <-. cbn.
    destruct (decide (l = lm)) as [->|Hne]; [by rewrite lookup_insert, EL|by rewrite lookup_insert_ne].
Qed.
(** several observations removed *)
Lemma drop_outliers_ok (outs : list (string * string)) : forall s, good s -> NoDup outs -> (forall lm x, (lm, x) ∈ outs -> is_Some (err s lm x)) ->
  exists s', drop_outliers s outs = Ok s' /\ good s' /\ same_frame (c_map s) (c_map s') /\
    (forall k l o, shot_sees (c_map s') k l o <-> ~ (k.1 = false /\ (l, k.2) ∈ outs) /\ shot_sees (c_map s) k l o) /\
    (forall l, (fun x => (lm_pos x, lm_color x)) <$> m_landmarks (c_map s') !! l = (fun x => (lm_pos x, lm_color x)) <$> m_landmarks (c_map s) !! l) /\
    (forall l y e, err s' l y = Some e <-> (l, y) ∉ outs /\ err s l y = Some e).
Proof using All.
  induction outs as [|[lm x] outs IH]; intros s Hs Hnd Hin.
  - exists s. split; [done|]. split; [done|]. split; [done|]. split_and!; [|done|]; intros; rewrite elem_of_nil; tauto.
  - apply NoDup_cons in Hnd as [Hni Hnd]. destruct (Hin lm x) as [e He]; [set_solver|]. destruct (proj2 Hs _ _ _ He) as (f & Hf).
    destruct (drop_one s lm x f Hs Hf) as (s1 & E1 & G1 & F1 & S1 & L1 & R1).
    destruct (IH s1 G1 Hnd) as (s' & E' & G' & F' & S' & L' & R').
    { intros lm' x' H. destruct (Hin lm' x') as [e' He']; [set_solver|]. exists e'. apply R1. split; [|done]. intros [-> ->]. done. }
    exists s'. split; [unfold drop_outliers; cbn [foldM]; rewrite E1; exact E'|]. split; [done|]. split; [by eapply same_frame_trans|]. split_and!.
    + intros [b y] l o. rewrite S', S1. cbn. rewrite elem_of_cons. split.
      * intros (H1 & H2 & H3). split; [|done]. intros [-> [[= -> ->]|H]]; [by apply H2|by apply H1].
      * intros (H1 & H2). split; [naive_solver|]. split; [|done]. intros [[= -> ->] ->]. apply H1. naive_solver.
    + intros l. by rewrite L', L1.
    + intros l y e'. rewrite R', R1, elem_of_cons. split; [|naive_solver]. intros (H1 & H2 & H3). split; [|done]. intros [[= -> ->]|H]; naive_solver.
Qed.
(** landmarks with too few observations removed *)
Lemma drop_unseen_ok (tracks : list string) : forall s, good s ->
  exists s', drop_unseen enumF s tracks = Ok s' /\ good s' /\
    without (fun l => l ∈ tracks /\ exists x, m_landmarks (c_map s) !! l = Some x /\ (size (lm_obs x) < 2)%nat) (c_map s) (c_map s') /\
    (forall l y e, err s' l y = Some e <-> ~ (l ∈ tracks /\ exists x, m_landmarks (c_map s) !! l = Some x /\ (size (lm_obs x) < 2)%nat) /\ err s l y = Some e).
Proof using All.
  induction tracks as [|lm tracks IH]; intros s Hs.
  - exists s. split; [done|]. split; [done|]. split.
    + eapply without_nothing with (feature_of := feature_of); try eassumption; [apply Hs|]. intros l [H _]. by apply elem_of_nil in H.
    + intros. rewrite elem_of_nil. tauto.
  - unfold drop_unseen. cbn [foldM]. destruct (m_landmarks (c_map s) !! lm) as [L|] eqn:EL; [destruct (decide (size (lm_obs L) < 2)%nat) as [Hd|Hd]|]; cbn [res_bind].
    + destruct (without_one feature_of bias0 pose0 data0 mesh0 pcompose pinverse enumL enumF enumO HL HF HO (c_map s) lm (proj1 Hs)) as (m1 & E1 & Hm1 & W1); [by exists L|].
      change (remove_landmark_of enumF s lm) with (try m := remove_landmark enumF (c_map s) lm in Ok (Scored m (delete lm (c_errors s)))). rewrite E1. cbn [res_bind]. set (s1 := Scored m1 (delete lm (c_errors s))).
      assert (R1 : forall l y e, err s1 l y = Some e <-> l <> lm /\ err s l y = Some e).
      { intros l y e. unfold err, errors_of. cbn. destruct (decide (l = lm)) as [->|Hne]; [rewrite lookup_delete; cbn; rewrite lookup_empty; naive_solver|rewrite lookup_delete_ne by done; tauto]. }
      assert (G1 : good s1).
      { split; [done|]. intros l y e He. apply R1 in He as [Hne He]. destruct (proj2 Hs _ _ _ He) as (f & x & Hx & Hf). exists f, x. split; [|done]. cbn. by rewrite (wo_kept _ _ _ W1 l Hne). }
      destruct (IH s1 G1) as (s' & E' & G' & W' & R'). exists s'. split; [exact E'|]. split; [done|].
      assert (Hiff : forall l, l = lm \/ (l ∈ tracks /\ exists x, m_landmarks (c_map s1) !! l = Some x /\ (size (lm_obs x) < 2)%nat) <->
                (l ∈ lm :: tracks /\ exists x, m_landmarks (c_map s) !! l = Some x /\ (size (lm_obs x) < 2)%nat)).
      { intros l. rewrite elem_of_cons. cbn. destruct (decide (l = lm)) as [->|Hne]; [split; [|tauto]; intros _; split; [tauto|by exists L]|].
        rewrite (wo_kept _ _ _ W1 l Hne). tauto. }
      split; [eapply without_iff; [exact Hiff|]; eapply without_trans; [exact W1|exact W']|].
      intros l y e. rewrite R', R1, <- Hiff. tauto.
    + destruct (IH s Hs) as (s' & E' & G' & W' & R'). exists s'. split; [exact E'|]. split; [done|].
      assert (Hiff : forall l, (l ∈ tracks /\ exists x, m_landmarks (c_map s) !! l = Some x /\ (size (lm_obs x) < 2)%nat) <->
                (l ∈ lm :: tracks /\ exists x, m_landmarks (c_map s) !! l = Some x /\ (size (lm_obs x) < 2)%nat)).
      { intros l. rewrite elem_of_cons. split; [tauto|]. intros [[->|H] Hx]; [|tauto]. destruct Hx as (x & Hx & Hx2). rewrite EL in Hx. by injection Hx as ->. }
      split; [eapply without_iff; [exact Hiff|]; exact W'|]. intros l y e. by rewrite R', Hiff.
    + destruct (IH s Hs) as (s' & E' & G' & W' & R'). exists s'. split; [exact E'|]. split; [done|].
      assert (Hiff : forall l, (l ∈ tracks /\ exists x, m_landmarks (c_map s) !! l = Some x /\ (size (lm_obs x) < 2)%nat) <->
                (l ∈ lm :: tracks /\ exists x, m_landmarks (c_map s) !! l = Some x /\ (size (lm_obs x) < 2)%nat)).
      { intros l. rewrite elem_of_cons. split; [tauto|]. intros [[->|H] Hx]; [|tauto]. destruct Hx as (x & Hx & Hx2). congruence. }
      split; [eapply without_iff; [exact Hiff|]; exact W'|]. intros l y e. by rewrite R', Hiff.
Qed.
(** the list of outliers *)
Lemma outliers_ok (t : R) (s : scored) (points : list string) : good s -> NoDup points -> (forall p, p ∈ points -> exists_in (c_map s) p) ->
  exists outs, outliers_of enumE t s points = Ok outs /\ lists (fun k => k.1 ∈ points /\ outlier (err s) t k.1 k.2) outs.
Proof using All.
  intros Hs Hnd Hin. unfold outliers_of.
  assert (Hent : forall p, NoDup ((fun se : string * (R * R) => (p, se.1)) <$> filter (fun se => t * t < se.2.1 * se.2.1 + se.2.2 * se.2.2) (enumE (errors_of s p))) /\
     forall k, k ∈ ((fun se : string * (R * R) => (p, se.1)) <$> filter (fun se => t * t < se.2.1 * se.2.1 + se.2.2 * se.2.2) (enumE (errors_of s p))) <-> k.1 = p /\ outlier (err s) t p k.2).
  { intros p. split.
    - assert (NoDup (fst <$> filter (fun se : string * (R * R) => t * t < se.2.1 * se.2.1 + se.2.2 * se.2.2) (enumE (errors_of s p)))) as H.
      { assert (NoDup (fst <$> enumE (errors_of s p))) as H by (rewrite (HE (errors_of s p)); apply NoDup_fst_map_to_list).
        revert H. generalize (enumE (errors_of s p)). induction l as [|[a b] l IH]; intros H; [constructor|]. rewrite fmap_cons in H. apply NoDup_cons in H as [H1 H2].
        rewrite filter_cons. case_decide; [|by apply IH]. rewrite fmap_cons. constructor; [|by apply IH]. intros Hx. apply H1.
        apply elem_of_list_fmap in Hx as (z & -> & Hz). apply elem_of_list_filter in Hz as [_ Hz]. apply elem_of_list_fmap. eauto. }
      apply (NoDup_fmap_1 snd). rewrite <- list_fmap_compose. exact H.
    - intros [a b]. rewrite elem_of_list_fmap. cbn. split.
      + intros ([y e] & [= -> ->] & H). apply elem_of_list_filter in H as [H1 H2]. rewrite (HE (errors_of s p)) in H2. apply elem_of_map_to_list in H2. split; [done|].
        exists e. split; [exact H2|]. cbn in *. rewrite !Rmult_1_r. rewrite <- sqrt_Rsqr_abs. apply sqrt_lt_1_alt. unfold Rsqr. pose proof (Rle_0_sqr t) as Hq. unfold Rsqr in Hq. lra.
      + intros (-> & e & He & Hlt). exists (b, e). split; [done|]. apply elem_of_list_filter. split.
        * cbn in *. rewrite !Rmult_1_r in Hlt. rewrite <- sqrt_Rsqr_abs in Hlt. apply sqrt_lt_0_alt in Hlt. unfold Rsqr in Hlt. lra.
        * rewrite (HE (errors_of s p)). by apply elem_of_map_to_list. }
  destruct (foldM_inv (fun acc p => try _ := of_option KeyError (m_landmarks (c_map s) !! p) in
     Ok (acc ++ ((fun se : string * (R * R) => (p, se.1)) <$> filter (fun se => t * t < se.2.1 * se.2.1 + se.2.2 * se.2.2) (enumE (errors_of s p)))))
     points (fun pre acc => lists (fun k => k.1 ∈ pre /\ outlier (err s) t k.1 k.2) acc) []) as (outs & E & Hout).
  - split; [constructor|]. intros x. rewrite !elem_of_nil. tauto.
  - intros pre x a Hx (post & Epost) [Ha1 Ha2]. destruct (Hin x Hx) as [L HLx]. rewrite HLx. cbn [of_option res_bind]. eexists. split; [reflexivity|].
    destruct (Hent x) as [Hx1 Hx2]. split.
    + apply NoDup_app. split; [done|]. split; [|done]. intros k Hk Hk'. apply Ha2 in Hk as [Hk _]. apply Hx2 in Hk' as [Hk' _].
      rewrite Epost in Hnd. apply NoDup_app in Hnd as (_ & Hnd & _). apply (Hnd x); [by rewrite <- Hk'|set_solver].
    + intros k. rewrite elem_of_app, Ha2, Hx2, elem_of_app, elem_of_list_singleton. split; [|naive_solver]. intros [[H1 H2]|[-> H2]]; [tauto|]. split; [by right|done].
  - exists outs. split; [exact E|done].
Qed.
End Outliers.

(** ** Views *)
From Verif Require Import RotModel RotProofs TriangProofs TriangProps.
Lemma vsub_eq p q : vsub p q = v0 <-> q = p.
Proof. split; [|intros ->; unfold vsub, v0; f_equal; ring]. destruct p, q. unfold vsub, v0. cbn. intros [= H1 H2 H3]. f_equal; lra. Qed.
Lemma normalized_v0 : normalized v0 = v0.
Proof. unfold normalized. destruct (Req_EM_T _ _) as [|N]; [done|]. exfalso. apply N. apply dot_v0. Qed.
Lemma angle_opposite u v : u <> v0 -> v <> v0 -> angle u v < PI <-> - (norm u * norm v) < dot u v.
Proof.
  intros Hu Hv. assert (Nu : 0 < norm u). { destruct (norm_nonneg u) as [|Z]; [assumption|]. exfalso. apply Hu, norm_0. by symmetry. }
  assert (Nv : 0 < norm v). { destruct (norm_nonneg v) as [|Z]; [assumption|]. exfalso. apply Hv, norm_0. by symmetry. }
  assert (Hp : 0 < norm u * norm v) by now apply Rmult_lt_0_compat. pose proof (cosine_bound u v Nu Nv) as Bd. unfold angle. set (c := dot u v / (norm u * norm v)) in *.
  assert (E : dot u v = c * (norm u * norm v)) by (unfold c; field; lra). split.
  - intros Hlt. destruct (Req_EM_T c (-1)) as [->|N]; [replace (-1) with (- (1)) in Hlt by ring; rewrite acos_opp, acos_1 in Hlt; lra|].
    rewrite E. assert (-1 < c) by lra. assert (- 1 * (norm u * norm v) < c * (norm u * norm v)) by now apply Rmult_lt_compat_r. lra.
  - intros Hlt. assert (-1 < c). { apply Rmult_lt_reg_r with (norm u * norm v); [assumption|]. lra. }
    destruct (acos_bound c) as [_ [Hb|Hb]]; [assumption|]. exfalso. assert (c = -1); [|lra]. rewrite <- (cos_acos c) by lra. rewrite Hb. apply cos_PI.
Qed.
Lemma angle_scaled a b u v : 0 < a -> 0 < b -> u <> v0 -> v <> v0 -> angle (vscale a u) (vscale b v) = angle u v.
Proof.
  intros Ha Hb Hu Hv. unfold angle. f_equal. rewrite !norm_vscale, !Rabs_pos_eq by lra.
  assert (norm u <> 0) by (intros Z; apply Hu; now apply norm_0). assert (norm v <> 0) by (intros Z; apply Hv; now apply norm_0).
  replace (dot (vscale a u) (vscale b v)) with (a * b * dot u v) by (unfold dot, vscale; cbn; ring). field. repeat split; lra.
Qed.
Lemma normalized_scale v : v <> v0 -> exists a, 0 < a /\ normalized v = vscale a v.
Proof.
  intros Hv. unfold normalized. destruct (Req_EM_T _ _) as [E|N]; [by apply dot_0 in E|]. exists (/ sqrt (dot v v)). split; [|done].
  apply Rinv_0_lt_compat, sqrt_lt_R0. pose proof (dot_nonneg v). lra.
Qed.
Lemma wide_angle a u v : 0 <= a -> gt_opt (AngleBetweenVectors (normalized u) (normalized v)) a = true <-> u <> v0 /\ v <> v0 /\ a < angle u v < PI.
Proof.
  intros Ha. destruct (classic (u = v0)) as [->|Hu].
  { rewrite normalized_v0. unfold AngleBetweenVectors. rewrite dot_v0, Rmult_0_l, sqrt_0. destruct (Req_EM_T 0 0); [|lra]. cbn. split; [done|tauto]. }
  destruct (classic (v = v0)) as [->|Hv].
  { rewrite normalized_v0. unfold AngleBetweenVectors. rewrite (dot_v0 v0), Rmult_0_r, sqrt_0. destruct (Req_EM_T 0 0); [|lra]. cbn. split; [done|tauto]. }
  pose proof (normalized_norm u Hu) as Nu. pose proof (normalized_norm v Hv) as Nv.
  assert (Hne : forall w, w <> v0 -> normalized w <> v0). { intros w Hw E. pose proof (normalized_norm w Hw) as N. rewrite E, norm_v0 in N. lra. }
  assert (Eang : angle (normalized u) (normalized v) = angle u v).
  { destruct (normalized_scale u Hu) as (b & Hb & ->). destruct (normalized_scale v Hv) as (c & Hc & ->). by apply angle_scaled. }
  rewrite <- Eang. rewrite (angle_opposite (normalized u) (normalized v)) by now apply Hne. rewrite Nu, Nv.
  destruct (Rlt_dec (- (1 * 1)) (dot (normalized u) (normalized v))) as [L|N].
  - rewrite angle_computed by (rewrite ?Nu, ?Nv; lra). cbn. destruct (Rlt_dec a _); split; try done; tauto.
  - split; [|tauto]. intros H. exfalso. unfold AngleBetweenVectors in H. rewrite norm_product, Nu, Nv in H. destruct (Req_EM_T (1 * 1) 0); [lra|].
    pose proof (dot_bound (normalized u) (normalized v)) as Db. rewrite Nu, Nv in Db. assert (dot (normalized u) (normalized v) = -1) as E by lra. rewrite E in H.
    destruct (Rle_dec 1 (Rabs (-1 / (1 * 1)))) as [_|Nr]; [cbn in H; destruct (Rlt_dec a 0); [lra|done]|].
    apply Nr. replace (-1 / (1 * 1)) with (- (1)) by field. rewrite Rabs_Ropp, Rabs_R1. lra.
Qed.
Lemma angle_sym u v : AngleBetweenVectors u v = AngleBetweenVectors v u.
Proof. unfold AngleBetweenVectors. by rewrite (dot_comm u v), (Rmult_comm (dot u u)). Qed.
Lemma wide_pair_spec a rays : wide_pair a rays = true <-> exists i j r r', i <> j /\ rays !! i = Some r /\ rays !! j = Some r' /\ gt_opt (AngleBetweenVectors r r') a = true.
Proof.
  induction rays as [|r rays IH]; cbn [wide_pair].
  - split; [done|]. intros (i & ? & ? & ? & _ & H & _). by rewrite lookup_nil in H.
  - rewrite orb_true_iff, existsb_exists, IH. split.
    + intros [(r' & Hin & H)|(i & j & x & y & Hij & Hi & Hj & H)].
      * apply elem_of_list_In, elem_of_list_lookup in Hin as (j & Hj). exists 0%nat, (S j), r, r'. done.
      * exists (S i), (S j), x, y. split; [lia|done].
    + intros ([|i] & [|j] & x & y & Hij & Hi & Hj & H); [done| | |].
      * left. cbn in Hi, Hj. injection Hi as ->. exists y. split; [|done]. by eapply elem_of_list_In, elem_of_list_lookup_2.
      * left. cbn in Hi, Hj. injection Hj as ->. exists x. split; [by eapply elem_of_list_In, elem_of_list_lookup_2|]. by rewrite angle_sym.
      * right. exists i, j, x, y. split; [lia|done].
Qed.

Section Scores.
Context {C B P D X O Rf : Type}.
Variable feature_of : O -> Z.
Variable bias0 : B. Variable pose0 : P. Variable data0 : D. Variable mesh0 : X.
Variable pcompose : P -> P -> P. Variable pinverse : P -> P.
Variable enumL : gmap string (landmark vec) -> list (string * landmark vec).
Variable enumF : gmap string (bool * Z) -> list (string * (bool * Z)).
Variable enumO : gmap string O -> list (string * O).
Hypothesis HL : enumerates enumL. Hypothesis HF : enumerates enumF. Hypothesis HO : enumerates enumO.
Notation map := (@map C B P vec D X O Rf).
Notation step := (map_step feature_of bias0 pose0 data0 mesh0 pcompose pinverse enumL enumF enumO).
Notation reach := (reachable feature_of step).
Variable origin : P -> vec.
Variable condition : list (C * P * O) -> vec -> option R.
Hypothesis Hcond : forall v w p, v ≡ₚ w -> condition v p = condition w p.

Lemma view_exists (m : map) lm k o : reach m -> shot_sees m k lm o -> exists v, view pcompose m lm k v.
Proof using HF HL HO.
  intros Hm (x & Hx & Ho). destruct (nd_shot _ (C09_no_dangling _ _ _ _ _ _ _ _ _ _ HL HF HO m Hm) _ _ Hx) as ([c Hc] & [rc Hrc] & i & Hi & _).
  exists (c, pcompose rc (in_pose i), o), x, i, rc. done.
Qed.
Lemma view_functional (m : map) lm k v w : view pcompose m lm k v -> view pcompose m lm k w -> v = w.
Proof using Type.
  intros (x & i & rc & H1 & H2 & H3 & H4 & H5 & H6) (x' & i' & rc' & K1 & K2 & K3 & K4 & K5 & K6). destruct v as [[? ?] ?], w as [[? ?] ?]. cbn in *.
  rewrite H1 in K1. injection K1 as <-. rewrite H2 in K2. injection K2 as <-. rewrite H3 in K3. injection K3 as <-. rewrite H4 in K4. injection K4 as <-.
  rewrite H6 in K6. injection K6 as <-. by subst.
Qed.
Lemma views_ok (m : map) lm l : reach m -> m_landmarks m !! lm = Some l ->
  exists ks, lists (fun k => exists o, shot_sees m k lm o) ks /\ Forall2 (view pcompose m lm) ks (views_of enumF pcompose m lm l).
Proof using HF HL HO.
  intros Hm Hl. set (key := fun e : string * (bool * Z) => (e.2.1, e.1)). exists (key <$> enumF (lm_obs l)).
  assert (Hk : forall k, k ∈ key <$> enumF (lm_obs l) <-> exists o, shot_sees m k lm o).
  { intros [b s]. rewrite elem_of_list_fmap. split.
    - intros ([s' [b' f]] & [= -> ->] & H). rewrite (HF (lm_obs l)) in H. apply elem_of_map_to_list in H.
      destruct (proj1 (C08_symmetric feature_of bias0 pose0 data0 mesh0 pcompose pinverse enumL enumF enumO HL HF HO m Hm (b', s') lm f)) as (o & Ho & _); [by exists l|]. eauto.
    - intros (o & Ho). destruct (proj2 (C08_symmetric feature_of bias0 pose0 data0 mesh0 pcompose pinverse enumL enumF enumO HL HF HO m Hm (b, s) lm (feature_of o))) as (l' & Hl' & Hf); [eauto|].
      cbn in Hf. assert (l' = l) as -> by congruence. exists (s, (b, feature_of o)). split; [done|]. rewrite (HF (lm_obs l)). by apply elem_of_map_to_list. }
  split; [split; [|done]|].
  - assert (NoDup (snd <$> (key <$> enumF (lm_obs l)))) as H; [|by apply NoDup_fmap_1 in H].
    rewrite <- list_fmap_compose. change (NoDup (fst <$> enumF (lm_obs l))). rewrite (HF (lm_obs l)). apply NoDup_fst_map_to_list.
  - assert (forall k, k ∈ key <$> enumF (lm_obs l) -> exists o, shot_sees m k lm o) as Hk' by (intros k; apply Hk). revert Hk'. clear Hk.
    unfold views_of. induction (enumF (lm_obs l)) as [|[s [b f]] es IH]; intros Hk; [constructor|]. rewrite fmap_cons. cbn [key fst snd].
    destruct (Hk (b, s)) as (o & Ho); [rewrite fmap_cons; by left|]. destruct (view_exists m lm (b, s) o Hm Ho) as (v & Hv).
    assert (Ev : (x ← m_shots m !! (b, s); c ← m_cameras m !! sh_camera x; p ← shot_pose pcompose m (b, s); o ← sh_obs x !! lm; Some (c, p, o)) = Some v).
    { destruct Hv as (x & i & rc & H1 & H2 & H3 & H4 & H5 & H6). destruct v as [[? ?] ?]. cbn in *. unfold shot_pose. rewrite H1. cbn. rewrite H2. cbn. rewrite H3. cbn. rewrite H4. cbn. rewrite H6. cbn. by subst. }
    cbn [omap list_omap]. rewrite Ev. constructor; [done|]. apply IH. intros k Hin. apply Hk. rewrite fmap_cons. by right.
Qed.
Lemma views_perm (m : map) lm ks vs ks' vs' : lists (fun k => exists o, shot_sees m k lm o) ks -> lists (fun k => exists o, shot_sees m k lm o) ks' ->
  Forall2 (view pcompose m lm) ks vs -> Forall2 (view pcompose m lm) ks' vs' -> vs ≡ₚ vs'.
Proof using Type.
  intros [N1 H1] [N2 H2] V1 V2. assert (Hp : ks ≡ₚ ks') by (apply NoDup_Permutation; [done|done|]; intros k; by rewrite H1, H2).
  clear N1 N2 H1 H2. revert vs vs' V1 V2. induction Hp as [|k ks ks' _ IH|k1 k2 ks|ks1 ks2 ks3 Hp1 IH1 Hp2 IH2]; intros vs vs' V1 V2.
  - inversion V1; inversion V2; done.
  - inversion V1 as [|? v ? ? Hv V1']; inversion V2 as [|? w ? ? Hw V2']; subst. rewrite (view_functional _ _ _ _ _ Hv Hw). constructor. by apply IH.
  - inversion V1 as [|? v ? ? Hv V1']; subst. inversion V1' as [|? v' ? ? Hv' V1'']; subst. inversion V2 as [|? w ? ? Hw V2']; subst. inversion V2' as [|? w' ? ? Hw' V2'']; subst.
    rewrite (view_functional _ _ _ _ _ Hv Hw'), (view_functional _ _ _ _ _ Hv' Hw). rewrite Permutation_swap. constructor. constructor.
    match goal with |- ?a ≡ₚ ?b => assert (a = b) as ->; [|done] end.
    clear - V1'' V2''. match goal with |- ?a = ?b => revert b V2'' end. induction V1'' as [|? ? ? ? Hv _ IH]; intros b V2; inversion V2 as [|? ? ? ? Hw V2']; subst; [done|].
    f_equal; [by eapply view_functional|by apply IH].
  - assert (exists vs2, Forall2 (view pcompose m lm) ks2 vs2) as (vs2 & V3).
    { clear - V1 Hp1. assert (forall k, k ∈ ks2 -> exists v, view pcompose m lm k v) as H.
      { intros k Hk. rewrite <- Hp1 in Hk. clear Hp1. induction V1 as [|? ? ? ? Hv _ IH]; [by apply elem_of_nil in Hk|]. apply elem_of_cons in Hk as [->|Hk]; eauto. }
      clear V1 Hp1. induction ks2 as [|k ks2 IH]; [exists []; constructor|]. destruct IH as (vs2 & Hvs); [intros k' ?; apply H; by right|].
      destruct (H k) as (v & Hv); [by left|]. exists (v :: vs2). by constructor. }
    rewrite (IH1 vs vs2), (IH2 vs2 vs'); done.
Qed.
Lemma first_pass_ok (m : map) a lm l c : reach m -> 0 <= a -> m_landmarks m !! lm = Some l ->
  scores pcompose origin condition m a lm c -> first_pass enumF pcompose origin condition m a lm l = c.
Proof using HF HL HO Hcond.
  intros Hm Ha Hl (p & ks & vs & Hp & Hks & Hvs & H1 & H2). unfold position in Hp. rewrite Hl in Hp. cbn in Hp. injection Hp as <-.
  destruct (views_ok m lm l Hm Hl) as (ks' & Hks' & Hvs'). set (views := views_of enumF pcompose m lm l) in *.
  unfold first_pass. fold views.
  assert (W : wide_pair a ((fun v : C * P * O => normalized (vsub (lm_pos l) (origin v.1.2))) <$> views) = true <-> seen_under pcompose origin m lm (lm_pos l) a).
  { rewrite wide_pair_spec. split.
    - intros (i & j & r & r' & Hij & Hi & Hj & Hw). rewrite list_lookup_fmap in Hi, Hj.
      destruct (views !! i) as [v1|] eqn:E1; [|done]. destruct (views !! j) as [v2|] eqn:E2; [|done]. cbn in Hi, Hj. injection Hi as <-. injection Hj as <-.
      apply wide_angle in Hw as (N1 & N2 & Hang); [|done].
      destruct (Forall2_lookup_r _ _ _ _ _ Hvs' E1) as (k1 & K1 & V1). destruct (Forall2_lookup_r _ _ _ _ _ Hvs' E2) as (k2 & K2 & V2).
      exists k1, v1, k2, v2. split_and!; try done.
      + intros ->. apply Hij. exact (NoDup_lookup _ _ _ _ (proj1 Hks') K1 K2).
      + intros E. apply N1. by apply vsub_eq.
      + intros E. apply N2. by apply vsub_eq.
      + apply Hang.
      + apply Hang.
    - intros (k1 & v1 & k2 & v2 & Hk & V1 & V2 & N1 & N2 & Hang).
      assert (Hkin : forall k v, view pcompose m lm k v -> exists i, ks' !! i = Some k /\ views !! i = Some v).
      { intros k v Hv. assert (k ∈ ks') as Hin. { apply Hks'. destruct Hv as (x & ? & ? & Hx & _ & _ & _ & _ & Ho). exists v.2. by exists x. }
        apply elem_of_list_lookup in Hin as (i & Hi). destruct (Forall2_lookup_l _ _ _ _ _ Hvs' Hi) as (v' & Hv1 & Hv2). exists i. split; [done|].
        by rewrite (view_functional _ _ _ _ _ Hv Hv2). }
      destruct (Hkin _ _ V1) as (i & Hi1 & Hi2). destruct (Hkin _ _ V2) as (j & Hj1 & Hj2).
      exists i, j, (normalized (vsub (lm_pos l) (origin v1.1.2))), (normalized (vsub (lm_pos l) (origin v2.1.2))). split_and!.
      + intros ->. congruence.
      + by rewrite list_lookup_fmap, Hi2.
      + by rewrite list_lookup_fmap, Hj2.
      + apply wide_angle; [done|]. split; [|split; [|exact Hang]]; intros E; [apply N1|apply N2]; by apply vsub_eq. }
  destruct (wide_pair _ _).
  - rewrite H1 by (by apply W). apply Hcond. exact (views_perm _ _ _ _ _ _ Hks' Hks Hvs' Hvs).
  - symmetry. apply H2. intros Hs. apply W in Hs. done.
Qed.
Lemma scores_exist (m : map) a lm : reach m -> exists_in m lm -> exists c, scores pcompose origin condition m a lm c.
Proof using HF HL HO.
  intros Hm [l Hl]. destruct (views_ok m lm l Hm Hl) as (ks & Hks & Hvs).
  destruct (classic (seen_under pcompose origin m lm (lm_pos l) a)) as [Hs|Hs].
  - eexists _, (lm_pos l), ks, _. unfold position. rewrite Hl. split_and!; try done.
  - exists None, (lm_pos l), ks, (views_of enumF pcompose m lm l). unfold position. rewrite Hl. split_and!; try done.
Qed.
End Scores.
