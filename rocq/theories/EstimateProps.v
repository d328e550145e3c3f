(** C82: estimated depth maps *)
From stdpp Require Import prelude.
From Coq Require Import Reals Lra Psatz.
From Verif Require Import Base Lin PixelModel DenseModel DenseSpec DenseProofs DenseProps EstimateProofs.
Local Open Scope R_scope.

(** ** Which pixels have a depth *)
(** The variance used to leave out flat patches is, for odd patch sizes, that of the pixels of the patch: what the buffer held does not matter *)
Theorem C82_patch_variance s first i j h : patch_size s = (2 * h + 1)%nat -> length (stale s) = (patch_size s * patch_size s)%nat ->
  PatchVariance s first i j = Variance ((fun d => im_at (vw_image first) (i + d.1) (j + d.2)) <$> patch s).
Proof.
  intros E L. unfold PatchVariance. cbv zeta. rewrite drop_ge, app_nil_r; [done|]. rewrite L, E, fmap_length. unfold patch, grid.
  assert (hpz s = Z.of_nat h) as ->. { unfold hpz. rewrite E. replace (Z.of_nat (2 * h + 1) - 1)%Z with (Z.of_nat h * 2)%Z by lia. apply Z.quot_mul. lia. }
  set (r := zrange _ _). assert (length r = (2 * h + 1)%nat) as Lr by (unfold r, zrange; rewrite fmap_length, seq_length; lia).
  assert (forall l : list Z, length (l ≫= (fun i => (fun j => (i, j)) <$> r)) = (length l * length r)%nat) as B.
  { induction l as [|x l IH]; [done|]. cbn. rewrite app_length, fmap_length, IH. done. }
  rewrite B, Lr. lia.
Qed.
(** It is 0 just when all values are the same *)
Theorem C82_variance l : l <> [] -> 0 <= Variance l /\ (Variance l = 0 <-> exists v, Forall (eq v) l).
Proof.
  intros Hl. assert (0 < INR (length l)) as P by (apply lt_0_INR; destruct l; [done|cbn; lia]). unfold Variance. set (m := rsum l / INR (length l)).
  assert (forall l', 0 <= rsum ((fun v => (v - m) * (v - m)) <$> l') /\ (rsum ((fun v => (v - m) * (v - m)) <$> l') = 0 -> Forall (eq m) l')) as N.
  { induction l' as [|v l' [IH1 IH2]]; [split; [unfold rsum; cbn; lra|constructor]|]. unfold rsum in *. cbn. pose proof (Rle_0_sqr (v - m)) as Q. unfold Rsqr in Q. split; [lra|].
    intros E. constructor; [|apply IH2; lra]. assert ((v - m) * (v - m) = 0) as Z by lra. apply Rmult_integral in Z. lra. }
  destruct (N l) as [N1 N2]. assert (0 < / INR (length l)) as PI by (by apply Rinv_0_lt_compat). split; [unfold Rdiv; nra|]. split.
  - intros E. exists m. apply N2. unfold Rdiv in E. apply Rmult_integral in E. lra.
  - intros [v Hv]. assert (rsum l = INR (length l) * v) as S.
    { clear -Hv. unfold rsum. induction Hv as [|x l <- _ IH]; [cbn; ring|]. cbn [foldr length]. rewrite S_INR, IH. ring. }
    assert (m = v) as Em by (unfold m; rewrite S; field; lra). assert (rsum ((fun v => (v - m) * (v - m)) <$> l) = 0) as ->; [|unfold Rdiv; ring].
    rewrite Em. clear -Hv. unfold rsum. induction Hv as [|x l <- _ IH]; [done|]. cbn. rewrite IH. ring.
Qed.
Lemma inner_elem s first i j : (i, j) ∈ inner s first <-> (hpz s <= i < im_rows (vw_image first) - hpz s)%Z /\ (hpz s <= j < im_cols (vw_image first) - hpz s)%Z.
Proof. unfold inner. rewrite grid_elem, !zrange_elem. done. Qed.

Section Patchmatch.
Variable s : settings.
Variable first : view.
Variable others : list view.
Variable sample : bool.
Variable init : Z -> Z -> R * (R * R) * nat.
Variable median : (Z -> Z -> R) -> Z -> Z -> R.
Variable draws : nat -> Z -> Z -> list (R * R * R) * nat.
Notation final := (ComputePatchMatch s first others sample init median draws).
Notation initial := (initial_pixel s first others sample init).
Lemma before_at i j : before_filter s first others sample init draws i j = base s first others sample init i j \/
  px_depth (base s first others sample init i j) <> 0 /\ (i, j) ∈ inner s first /\ px_score (base s first others sample init i j) < px_score (before_filter s first others sample init draws i j) /\
  fresh s first others sample i j (before_filter s first others sample init draws i j).
Proof. apply (iterations_better s first others sample draws (patchmatch_iterations s) 0 (base s first others sample init)). Qed.
Lemma final_nonzero i j : px_depth (final i j) <> 0 -> final i j = before_filter s first others sample init draws i j /\ px_depth (before_filter s first others sample init draws i j) <> 0.
Proof. unfold ComputePatchMatch, PostProcess. cbv zeta. destruct (Req_EM_T _ 0); [done|]. destruct (Rlt_dec _ _); [done|]. done. Qed.
Lemma before_nonzero i j : px_depth (before_filter s first others sample init draws i j) <> 0 ->
  (i, j) ∈ inner s first /\ ignored s first i j = false /\ base s first others sample init i j = initial i j.
Proof.
  intros H. assert (px_depth (base s first others sample init i j) <> 0) as B by (destruct (before_at i j) as [E|(D & _)]; [by rewrite <-E|done]).
  rewrite base_at in B. rewrite base_at. destruct (decide _); [|done]. destruct (ignored s first i j) eqn:E; [done|]. done.
Qed.
(** A pixel with a depth is not on the border, is not masked, and its patch is not flat *)
Theorem C82_where i j : px_depth (final i j) <> 0 ->
  (hpz s <= i < im_rows (vw_image first) - hpz s)%Z /\ (hpz s <= j < im_cols (vw_image first) - hpz s)%Z /\
  im_at (vw_mask first) i j <> 0 /\ min_patch_variance s <= PatchVariance s first i j.
Proof.
  intros H. apply final_nonzero in H as [_ H]. apply before_nonzero in H as (I & G & _). apply inner_elem in I as [I1 I2]. split; [done|]. split; [done|]. unfold ignored in G.
  destruct (Req_EM_T _ 0) as [|M]; [done|]. cbn in G. destruct (Rlt_dec _ _); [done|]. split; [done|lra].
Qed.
(** The depths are not negative; each pixel with a depth has the score, and the neighbour, of its plane; that score is at least the one of the plane drawn at first;
    the depth is the one of the plane at the pixel, unless the pixel is still as it was drawn *)
Theorem C82_pixel i j : 0 <= px_depth (final i j) /\
  (px_depth (final i j) <> 0 -> let p := final i j in
   (if sample then px_score p = ComputePlaneImageScore s first others i j (px_plane p) (px_nghbr p) else (px_score p, px_nghbr p) = ComputePlaneScore s first others i j (px_plane p)) /\
   px_score (initial i j) <= px_score p /\
   (p = initial i j \/ px_score (initial i j) < px_score p /\ px_depth p = DepthOfPlaneBackprojection (IZR j) (IZR i) (vw_K first) (px_plane p))).
Proof.
  destruct (Req_EM_T (px_depth (final i j)) 0) as [E|E]; [split; [lra|done]|]. apply final_nonzero in E as [E N]. rewrite E. pose proof (before_nonzero i j N) as (I & G & B).
  pose proof (before_at i j) as D. rewrite B in D. destruct D as [D|(_ & _ & L & F)].
  - rewrite D. split; [rewrite initial_depth; apply Rlt_le, exp_pos|]. intros _. cbv zeta. split; [apply (initial_scored s first others sample init i j)|]. split; [lra|by left].
  - split; [by apply Rlt_le, (fresh_depth s first others sample i j)|]. intros _. cbv zeta. destruct F as [F1 F2]. split; [exact F1|]. split; [lra|]. right. done.
Qed.
(** The first depth is in the range given *)
Theorem C82_initial_depth i j : 0 < min_depth s <= max_depth s -> 0 <= (init i j).1.1 <= 1 -> min_depth s <= px_depth (initial i j) <= max_depth s.
Proof.
  intros [P L] U. rewrite initial_depth. assert (ln (min_depth s) <= ln (max_depth s)) as LL by (destruct L as [L| ->]; [left; by apply ln_increasing|lra]).
  pose proof (exp_ln (min_depth s) P) as E1. pose proof (exp_ln (max_depth s) ltac:(lra)) as E2. rewrite <-E1 at 1. rewrite <-E2 at 3. split; apply exp_le; nra.
Qed.
(** The neighbours that are drawn are other views, and so are those of the pixels *)
Theorem C82_neighbour i j : sample = true -> (forall i j, (1 <= (init i j).2 <= length others)%nat) -> (forall k i j, (1 <= (draws k i j).2 <= length others)%nat) ->
  px_depth (final i j) <> 0 -> (1 <= px_nghbr (final i j) <= length others)%nat.
Proof.
  intros Es Hi Hd H. apply final_nonzero in H as [-> H]. revert i j H. apply (iterations_valid s first others sample draws (patchmatch_iterations s) Es Hd). intros i j.
  pose proof (base_at s first others sample init i j) as E. unfold base in E. rewrite E. destruct (decide _); [|done]. destruct (ignored _ _ _ _); [done|]. intros _.
  unfold valid_nghbr, initial_pixel. specialize (Hi i j). destruct (init i j) as [[u [n1 n2]] k]. cbv zeta. rewrite Es. exact Hi.
Qed.
(** The filter takes away the depths that differ by more than 5% from the median around them, and changes nothing else *)
Theorem C82_filter i j : let before := before_filter s first others sample init draws in
  px_plane (final i j) = px_plane (before i j) /\ px_score (final i j) = px_score (before i j) /\ px_nghbr (final i j) = px_nghbr (before i j) /\
  let d := px_depth (before i j) in let m := median (fun i j => px_depth (before i j)) i j in
  (Rabs (d - m) <= 5 / 100 * d -> px_depth (final i j) = d) /\ (5 / 100 * d < Rabs (d - m) -> px_depth (final i j) = 0).
Proof.
  cbv zeta. assert (0 <= px_depth (before_filter s first others sample init draws i j)) as P.
  { pose proof (before_at i j) as [E|(_ & _ & _ & F)]; [|by apply Rlt_le, (fresh_depth s first others sample i j)]. rewrite E, base_at. destruct (decide _); [|cbn; lra]. destruct (ignored _ _ _ _); [cbn; lra|].
    rewrite initial_depth. apply Rlt_le, exp_pos. }
  unfold ComputePatchMatch, PostProcess. cbv zeta. set (b := before_filter s first others sample init draws) in *. set (m := median _ i j).
  destruct (Req_EM_T (px_depth (b i j)) 0) as [Z|Z]; [split_and!; try done; rewrite Z; lra|]. assert (0 < px_depth (b i j)) as P' by lra. set (d := px_depth (b i j)) in *.
  assert (forall q, (5 / 100 < q / d) <-> 5 / 100 * d < q) as Q.
  { intros q. split; intros H.
    - apply (Rmult_lt_compat_r d) in H; [|done]. unfold Rdiv in H at 2. rewrite Rmult_assoc, Rinv_l, Rmult_1_r in H by lra. lra.
    - apply (Rmult_lt_reg_r d); [done|]. unfold Rdiv at 2. rewrite Rmult_assoc, Rinv_l, Rmult_1_r by lra. lra. }
  destruct (Rlt_dec _ _) as [L|L]; rewrite Q in L; cbn; split_and!; try done; lra.
Qed.
End Patchmatch.
(** ** One update *)
Section Update.
Variable s : settings.
Variable first : view.
Variable others : list view.
Variable sample : bool.
(** the score that a pixel would get with a plane and, when neighbours are drawn, a neighbour *)
Definition score_with (i j : Z) (plane : vec) (nghbr : nat) : R :=
  if sample then ComputePlaneImageScore s first others i j plane nghbr else (ComputePlaneScore s first others i j plane).1.
Lemma check_at_least r i j plane k : score_with i j plane k <= px_score (check s first others sample r i j plane k i j).
Proof.
  unfold score_with, check. destruct sample.
  - unfold CheckPlaneImageCandidate. cbv zeta. destruct (Rlt_dec _ _); [rewrite assign_same; cbn; lra|lra].
  - unfold CheckPlaneCandidate. destruct (ComputePlaneScore _ _ _ _ _ _) as [sc n]. destruct (Rlt_dec _ _); [rewrite assign_same; cbn; lra|cbn; lra].
Qed.
Lemma step_le i j p q : step s first others sample i j p q -> px_score p <= px_score q.
Proof. intros [-> |[? _]]; lra. Qed.
Lemma image_candidate_score r i j plane k : px_score (r i j) <= px_score (CheckPlaneImageCandidate s first others r i j plane k i j).
Proof. unfold CheckPlaneImageCandidate. cbv zeta. destruct (Rlt_dec _ _); [rewrite assign_same; cbn; lra|lra]. Qed.
(** After a pixel is updated its score is at least what the planes of the adjacent pixels give *)
Theorem C82_propagation a draws r i j da db : (da, db) ∈ a -> (da, db) <> (0, 0)%Z -> px_depth (r i j) <> 0 -> px_depth (r (i + da)%Z (j + db)%Z) <> 0 ->
  score_with i j (px_plane (r (i + da)%Z (j + db)%Z)) (px_nghbr (r (i + da)%Z (j + db)%Z)) <= px_score (PatchMatchUpdatePixel s first others sample a draws r i j i j).
Proof.
  intros Hin N D DA. assert (forall a r', (da, db) ∈ a -> r' (i + da)%Z (j + db)%Z = r (i + da)%Z (j + db)%Z ->
    score_with i j (px_plane (r (i + da)%Z (j + db)%Z)) (px_nghbr (r (i + da)%Z (j + db)%Z)) <= px_score (foldl (propagate s first others sample i j) r' a i j)) as P.
  { clear Hin. induction a0 as [|[x y] a0 IH]; intros r' Hin E; [by apply elem_of_nil in Hin|]. cbn. apply elem_of_cons in Hin as [[= <- <-]|Hin].
    - destruct (propagate_local s first others sample i j a0 (propagate s first others sample i j r' (da, db))) as [S _]. eapply Rle_trans; [|by eapply step_le].
      unfold propagate. cbn. rewrite E. destruct (Req_EM_T _ 0); [done|]. apply check_at_least.
    - apply IH; [done|]. unfold propagate. cbn. destruct (Req_EM_T _ 0); [done|]. destruct (check_local s first others sample r' i j (px_plane (r' (i + x)%Z (j + y)%Z)) (px_nghbr (r' (i + x)%Z (j + y)%Z))) as [_ O].
      rewrite O; [done|]. intros [= A B]. apply N. f_equal; lia. }
  unfold PatchMatchUpdatePixel. destruct (Req_EM_T _ 0); [done|]. cbv zeta. eapply Rle_trans; [apply (P a r Hin eq_refl)|]. set (r1 := foldl _ r a).
  destruct (refine_local s first others sample i j (px_nghbr (r1 i j)) (take 6 draws.1) r1 (2 / 100) (1 / 2)) as [S _]. apply step_le in S.
  destruct (_ || _); [done|]. eapply Rle_trans; [exact S|]. apply image_candidate_score.
Qed.
(** nor is it less than what the first random change of depth and normal gives *)
Theorem C82_refinement i j k r depth_range normal_range g n1 n2 draws slope_x slope_y c : let p := r i j in
  c <> 0 -> px_plane p = vscale c (Vec slope_x slope_y (-1)) ->
  score_with i j (PlaneFromDepthAndNormal (IZR j) (IZR i) (vw_K first) (px_depth p * exp (depth_range * g)) (Vec (slope_x + normal_range * n1) (slope_y + normal_range * n2) (-1))) k <=
  px_score (refine s first others sample i j k r depth_range normal_range ((g, n1, n2) :: draws) i j).
Proof.
  cbv zeta. intros Hc E. cbn. rewrite E. cbn. destruct (Req_EM_T _ 0) as [Z|_]; [lra|].
  replace (- (c * slope_x) / (c * -1)) with slope_x by (field; lra). replace (- (c * slope_y) / (c * -1)) with slope_y by (field; lra).
  eapply Rle_trans; [apply (check_at_least r)|]. set (r' := check _ _ _ _ _ _ _ _ _). destruct (refine_local s first others sample i j k draws r' (depth_range * (3 / 10)) (normal_range * (8 / 10))) as [S _]. by eapply step_le.
Qed.
(** nor than what its plane gives with the other neighbour drawn *)
Theorem C82_other_neighbour a draws r i j : sample = true -> (2 <= length others)%nat -> px_depth (r i j) <> 0 ->
  let r' := PatchMatchUpdatePixel s first others sample a draws r i j in ComputePlaneImageScore s first others i j (px_plane (r' i j)) draws.2 <= px_score (r' i j).
Proof.
  intros Es Ho D. cbv zeta. unfold PatchMatchUpdatePixel. destruct (Req_EM_T _ 0); [done|]. cbv zeta. rewrite Es. cbn [negb orb]. assert ((length others <=? 1)%nat = false) as -> by (apply Nat.leb_gt; lia).
  rewrite <-Es. set (r2 := refine _ _ _ _ _ _ _ _ _ _ _). unfold CheckPlaneImageCandidate. cbv zeta. destruct (Rlt_dec _ _); [rewrite assign_same; cbn; lra|lra].
Qed.
End Update.
(** ** Iterations *)
Definition with_iterations (n : nat) (s : settings) : settings := Settings (patch_size s) (min_depth s) (max_depth s) (num_depth_planes s) n (min_patch_variance s) (stale s).
Section Same.
Variable n : nat.
Variable s : settings.
Let s' := with_iterations n s.
Lemma same_inner : inner s' = inner s. Proof. reflexivity. Qed.
Lemma same_image_score : ComputePlaneImageScore s' = ComputePlaneImageScore s. Proof. reflexivity. Qed.
Lemma same_score : ComputePlaneScore s' = ComputePlaneScore s. Proof. unfold ComputePlaneScore. by rewrite same_image_score. Qed.
Lemma same_candidate : CheckPlaneCandidate s' = CheckPlaneCandidate s. Proof. unfold CheckPlaneCandidate. by rewrite same_score. Qed.
Lemma same_image_candidate : CheckPlaneImageCandidate s' = CheckPlaneImageCandidate s. Proof. unfold CheckPlaneImageCandidate. by rewrite same_image_score. Qed.
Lemma same_check : check s' = check s. Proof. unfold check. by rewrite same_candidate, same_image_candidate. Qed.
Lemma same_propagate : propagate s' = propagate s. Proof. unfold propagate. by rewrite same_check. Qed.
Lemma same_refine : refine s' = refine s. Proof. unfold refine. by rewrite same_check. Qed.
Lemma same_update : PatchMatchUpdatePixel s' = PatchMatchUpdatePixel s. Proof. unfold PatchMatchUpdatePixel. by rewrite same_propagate, same_refine, same_image_candidate. Qed.
Lemma same_forward : PatchMatchForwardPass s' = PatchMatchForwardPass s. Proof. unfold PatchMatchForwardPass. by rewrite same_update, same_inner. Qed.
Lemma same_backward : PatchMatchBackwardPass s' = PatchMatchBackwardPass s. Proof. unfold PatchMatchBackwardPass. by rewrite same_update, same_inner. Qed.
Lemma same_iterations : iterations s' = iterations s. Proof. unfold iterations. by rewrite same_forward, same_backward. Qed.
Lemma same_initial : initial_pixel s' = initial_pixel s. Proof. unfold initial_pixel. by rewrite same_score, same_image_score. Qed.
Lemma same_base : base s' = base s. Proof. unfold base, ComputeIgnoreMask, RandomInitialization. rewrite same_initial, same_inner. reflexivity. Qed.
End Same.
(** More iterations never lower the score of a pixel, nor change which pixels have a depth before the filter *)
Theorem C82_iterations s first others sample init draws n m i j : (n <= m)%nat ->
  let r k := before_filter (with_iterations k s) first others sample init draws i j in
  px_score (r n) <= px_score (r m) /\ (px_depth (r n) = 0 <-> px_depth (r m) = 0).
Proof.
  intros Hle. cbv zeta. assert (exists d, m = (n + d)%nat) as [d ->] by (exists (m - n)%nat; lia).
  assert (forall k, before_filter (with_iterations k s) first others sample init draws = iterations s first others sample draws k 0 (base s first others sample init)) as E.
  { intros k. change (iterations (with_iterations k s) first others sample draws k 0 (base (with_iterations k s) first others sample init) = iterations s first others sample draws k 0 (base s first others sample init)). by rewrite same_iterations, same_base. }
  rewrite !E, iterations_add. set (b := iterations s first others sample draws n 0 (base s first others sample init)).
  destruct (iterations_better s first others sample draws d (2 * n + 0) b i j) as [-> |(D & _ & L & F)]; [split; [lra|done]|]. split; [lra|].
  apply fresh_depth in F. split; [done|lra].
Qed.
(** ** Brute force *)
(** Each pixel off the border has the best of the candidates, if that is positive, and no depth else *)
Theorem C82_brute_force s first others i j :
  (hpz s <= i < im_rows (vw_image first) - hpz s)%Z -> (hpz s <= j < im_cols (vw_image first) - hpz s)%Z ->
  let p := ComputeBruteForce s first others i j in
  let plane d := PlaneFromDepthAndNormal (IZR j) (IZR i) (vw_K first) (depth_of_plane_index s d) (Vec 0 0 (-1)) in
  (forall d, (d < num_depth_planes s)%nat -> (ComputePlaneScore s first others i j (plane d)).1 <= px_score p) /\
  (p = Pixel 0 v0 0 0 \/ exists d, (d < num_depth_planes s)%nat /\ 0 < px_score p /\ px_plane p = plane d /\ (px_score p, px_nghbr p) = ComputePlaneScore s first others i j (plane d) /\
     px_depth p = DepthOfPlaneBackprojection (IZR j) (IZR i) (vw_K first) (plane d)).
Proof.
  intros Hi Hj. pose proof (brute_force_at s first others i j (inner s first) AssignMatrices) as B. rewrite decide_True in B by (by apply inner_elem).
  apply B; [|done]. unfold inner. apply grid_nodup; apply zrange_nodup.
Qed.
Theorem C82_brute_force_border s first others i j :
  ~ ((hpz s <= i < im_rows (vw_image first) - hpz s)%Z /\ (hpz s <= j < im_cols (vw_image first) - hpz s)%Z) -> ComputeBruteForce s first others i j = Pixel 0 v0 0 0.
Proof.
  intros H. pose proof (brute_force_at s first others i j (inner s first) AssignMatrices) as B. rewrite decide_False in B by (by rewrite inner_elem).
  apply B; [|done]. unfold inner. apply grid_nodup; apply zrange_nodup.
Qed.
(** The candidate depths go from the least to the greatest, evenly in inverse depth *)
Theorem C82_candidate_depths s : 0 < min_depth s <= max_depth s -> (2 <= num_depth_planes s)%nat ->
  depth_of_plane_index s 0 = min_depth s /\ depth_of_plane_index s (num_depth_planes s - 1) = max_depth s /\
  (forall d, (d < num_depth_planes s)%nat -> min_depth s <= depth_of_plane_index s d <= max_depth s) /\
  (forall d, (S d < num_depth_planes s)%nat -> / depth_of_plane_index s d - / depth_of_plane_index s (S d) = (/ min_depth s - / max_depth s) / INR (num_depth_planes s - 1)).
Proof.
  intros [P L] N. unfold depth_of_plane_index. assert ((num_depth_planes s <=? 1)%nat = false) as -> by (apply Nat.leb_gt; lia).
  set (n := num_depth_planes s) in *. assert (INR (n - 1) = INR n - 1) as En by (rewrite minus_INR by lia; done). assert (0 < INR n - 1) as Pn by (rewrite <-En; apply lt_0_INR; lia).
  set (a := min_depth s) in *. set (b := max_depth s) in *. assert (/ b <= / a) as Li by (by apply Rinv_le_contravar). assert (0 < / b) as Pb by (apply Rinv_0_lt_compat; lra).
  assert (forall d, (d < n)%nat -> exists v, 1 / a + INR d * (1 / b - 1 / a) / (INR n - 1) = v /\ / b <= v <= / a) as Q.
  { intros d Hd. eexists. split; [done|]. unfold Rdiv. rewrite !Rmult_1_l. assert (0 <= INR d * / (INR n - 1) <= 1) as [T0 T1].
    { assert (0 < / (INR n - 1)) as PI by (by apply Rinv_0_lt_compat). pose proof (pos_INR d). split; [nra|]. apply (Rmult_le_reg_r (INR n - 1)); [done|]. rewrite Rmult_assoc, Rinv_l by lra.
      rewrite Rmult_1_r, Rmult_1_l, <-En. apply le_INR. lia. }
    replace (INR d * (/ b - / a) * / (INR n - 1)) with (INR d * / (INR n - 1) * (/ b - / a)) by ring. nra. }
  split_and!.
  - cbn [INR]. field. lra.
  - rewrite En. assert (1 / a + (INR n - 1) * (1 / b - 1 / a) / (INR n - 1) = / b) as -> by (field; lra). unfold Rdiv. rewrite Rinv_inv. ring.
  - intros d Hd. destruct (Q d Hd) as (v & -> & Q1 & Q2). assert (0 < v) by lra. unfold Rdiv. rewrite Rmult_1_l. split.
    + rewrite <-(Rinv_inv a). by apply Rinv_le_contravar.
    + rewrite <-(Rinv_inv b). by apply Rinv_le_contravar.
  - intros d Hd. destruct (Q d ltac:(lia)) as (v & Ev & Q1 & Q2). destruct (Q (S d) Hd) as (w & Ew & Q3 & Q4). rewrite Ev, Ew. unfold Rdiv. rewrite !Rmult_1_l, !Rinv_inv, <-Ev, <-Ew, S_INR, En.
    unfold Rdiv. ring.
Qed.
(** and are those of the pixels of brute force, when the calibration is one and the range is between 1e-6 and 1e6 *)
Theorem C82_brute_force_depth s first x y d : calibration (vw_K first) -> / 10 ^ 6 <= depth_of_plane_index s d <= 10 ^ 6 ->
  DepthOfPlaneBackprojection x y (vw_K first) (PlaneFromDepthAndNormal x y (vw_K first) (depth_of_plane_index s d) (Vec 0 0 (-1))) = depth_of_plane_index s d.
Proof.
  intros (HK & H1 & H2 & H3) [D1 D2]. assert (0 < / 10 ^ 6) as P by (apply Rinv_0_lt_compat; lra). apply C81_depth_of_plane_of_depth; [done|lra|].
  assert (vz (mvec (minv (vw_K first)) (Vec x y 1)) = 1) as E.
  { pose proof (minv_r (vw_K first) HK) as I. assert (mvec (vw_K first) (mvec (minv (vw_K first)) (Vec x y 1)) = Vec x y 1) as Q by (by rewrite <-mvec_mmul, I, mvec_I).
    destruct (mvec (minv (vw_K first)) (Vec x y 1)) as [p q r]. unfold mvec in Q. rewrite H1, H2, H3 in Q. cbn in Q. injection Q as _ _ Q. cbn. lra. }
  unfold dot. cbn [vx vy vz]. rewrite E. ring_simplify. lra.
Qed.
(** ** What is not so *)
(** With an even patch size the variance also counts values that no pixel of the patch has: a flat patch is taken for textured *)
Theorem C82_even_patch_refuted : exists s first i j, patch_size s = 4%nat /\ stale s = replicate 16 0 /\ min_patch_variance s = 25 /\
  (forall i j, im_at (vw_image first) i j = 100) /\ (forall i j, im_at (vw_mask first) i j = 1) /\ (i, j) ∈ inner s first /\ ignored s first i j = false.
Proof.
  exists (Settings 4 1 10 50 3 25 (replicate 16 0)), (View mI mI v0 (Image 3 3 (fun _ _ => 100)) (Image 3 3 (fun _ _ => 1))), 1%Z, 1%Z. split_and!; try done.
  - apply inner_elem. change (hpz _) with 1%Z. cbn. lia.
  - unfold ignored. cbn [vw_mask im_at]. destruct (Req_EM_T 1 0); [lra|]. cbn [orb]. destruct (Rlt_dec _ _) as [L|]; [exfalso|done]. revert L.
    assert (PatchVariance (Settings 4 1 10 50 3 25 (replicate 16 0)) (View mI mI v0 (Image 3 3 (fun _ _ => 100)) (Image 3 3 (fun _ _ => 1))) 1 1 =
      Variance (replicate 9 100 ++ replicate 7 0)) as -> by reflexivity.
    unfold Variance, rsum. cbn. lra.
Qed.
(** With a patch size of 2 pixels above the image are read: the first row is not left out *)
Theorem C82_small_patch_refuted : exists s first i j, patch_size s = 2%nat /\ (i, j) ∈ inner s first /\ IsInsideImage (vw_image first) (i + -1) (j + 0) = false.
Proof.
  exists (Settings 2 1 10 50 3 25 []), (View mI mI v0 (Image 3 3 (fun _ _ => 100)) (Image 3 3 (fun _ _ => 1))), 0%Z, 0%Z. split; [done|]. split; [|done]. apply inner_elem. change (hpz _) with 0%Z. cbn. lia.
Qed.
(** while from 3 on every pixel read by the passes is in the image *)
Theorem C82_adjacent_inside s first i j a b : (3 <= patch_size s)%nat -> (i, j) ∈ inner s first -> (-1 <= a <= 1)%Z -> (-1 <= b <= 1)%Z -> IsInsideImage (vw_image first) (i + a) (j + b) = true.
Proof.
  intros Hp [I J]%inner_elem Ha Hb. assert (1 <= hpz s)%Z as H. { unfold hpz. apply (Z.quot_le_mono 2 (Z.of_nat (patch_size s) - 1) 2); lia. }
  unfold IsInsideImage. apply bool_decide_eq_true. lia.
Qed.
(** The plane drawn first need not have the depth drawn first: seen from the side or from behind, it has the greatest one *)
Theorem C82_initial_plane_refuted : exists s first i j, forall others, let init := (fun _ _ => (0, (1 / 2, 0), 1%nat)) in
  min_depth s = 1 /\ px_depth (initial_pixel s first others true init i j) = 1 /\
  DepthOfPlaneBackprojection (IZR j) (IZR i) (vw_K first) (px_plane (initial_pixel s first others true init i j)) = 10 ^ 6.
Proof.
  exists (Settings 3 1 10 50 3 25 []), (View mI mI v0 (Image 5 5 (fun _ _ => 100)) (Image 5 5 (fun _ _ => 1))), 2%Z, 2%Z. intros others init. split; [done|].
  assert (minv mI = mI) as EI. { rewrite rotation_inv by apply rotation_I. apply mT_I. }
  split.
  - rewrite initial_depth. cbn [min_depth max_depth init fst]. rewrite ln_1, Rmult_0_r, Rplus_0_r. apply exp_0.
  - unfold initial_pixel, init. cbv zeta. cbn [px_plane vw_K]. unfold DepthOfPlaneBackprojection, PlaneFromDepthAndNormal. rewrite mvec_mscale', EI, mvec_I. cbv zeta.
    set (c := / Rmax (/ 10 ^ 6) _). assert (0 < / 10 ^ 6) as P by (apply Rinv_0_lt_compat; lra).
    assert (- dot (vscale c (Vec (1 / 2) 0 (-1))) (Vec (IZR 2) (IZR 2) 1) = 0) as -> by (unfold dot, vscale; cbn [vx vy vz]; lra).
    rewrite Rmax_left by lra. unfold Rdiv. rewrite Rinv_inv. ring.
Qed.

(** ** Non-vacuity: a pixel with a depth *)
Example C82_case : exists s first others init draws median i j, px_depth (ComputePatchMatch s first others true init median draws i j) <> 0 /\
  (forall i j, (1 <= (init i j).2 <= length others)%nat) /\ (forall k i j, (1 <= (draws k i j).2 <= length others)%nat) /\ 0 < min_depth s <= max_depth s.
Proof.
  set (s := Settings 3 1 10 50 0 0 []). set (im := Image 3 3 (fun i j => IZR j)). set (first := View mI mI v0 im (Image 3 3 (fun _ _ => 1))).
  set (init := fun _ _ : Z => (0, (0, 0), 1%nat)). exists s, first, [first], init, (fun _ _ _ => ([], 1%nat)), (fun f => f), 1%Z, 1%Z.
  split; [|split; [intros; cbn; lia|split; [intros; cbn; lia|cbn; lra]]].
  assert (before_filter s first [first] true init (fun _ _ _ => ([], 1%nat)) 1 1 = initial_pixel s first [first] true init 1 1) as E.
  { change (base s first [first] true init 1%Z 1%Z = initial_pixel s first [first] true init 1 1). rewrite base_at. rewrite decide_True by (apply inner_elem; change (hpz s) with 1%Z; cbn; lia).
    assert (ignored s first 1 1 = false) as ->; [|done]. unfold ignored. cbn [first vw_mask im_at]. destruct (Req_EM_T 1 0); [lra|]. cbn [orb].
    destruct (Rlt_dec _ _) as [L|]; [exfalso|done]. revert L. cbn [min_patch_variance s]. unfold PatchVariance. cbv zeta.
    destruct (C82_variance ((λ d : Z * Z, im_at (vw_image first) (1 + d.1) (1 + d.2)) <$> patch s ++ [])) as [N _]; [done|]. intros L. cbn [stale s] in L. rewrite drop_nil in L. rewrite app_nil_r in *. lra. }
  pose proof (initial_depth s first [first] true init 1 1) as D. cbn [min_depth max_depth s init fst] in D. rewrite ln_1, Rmult_0_r, Rplus_0_r, exp_0 in D.
  pose proof (C82_filter s first [first] true init (fun f => f) (fun _ _ _ => ([], 1%nat)) 1 1) as (_ & _ & _ & F & _). rewrite F; [rewrite E, D; lra|]. rewrite E, D, Rminus_diag_eq, Rabs_R0 by done. lra.
Qed.
Example C82_range_case : let s := Settings 7 1 10 50 3 25 (replicate 49 0) in 0 < min_depth s <= max_depth s /\ (2 <= num_depth_planes s)%nat /\ patch_size s = (2 * 3 + 1)%nat /\
  length (stale s) = (patch_size s * patch_size s)%nat.
Proof. cbn. split_and!; try lia; lra. Qed.

Print Assumptions C82_patch_variance.
Print Assumptions C82_variance.
Print Assumptions C82_where.
Print Assumptions C82_pixel.
Print Assumptions C82_initial_depth.
Print Assumptions C82_neighbour.
Print Assumptions C82_filter.
Print Assumptions C82_propagation.
Print Assumptions C82_refinement.
Print Assumptions C82_other_neighbour.
Print Assumptions C82_iterations.
Print Assumptions C82_brute_force.
Print Assumptions C82_brute_force_border.
Print Assumptions C82_candidate_depths.
Print Assumptions C82_brute_force_depth.
Print Assumptions C82_even_patch_refuted.
Print Assumptions C82_small_patch_refuted.
Print Assumptions C82_adjacent_inside.
Print Assumptions C82_initial_plane_refuted.
