(** Properties of the reconstruction of two views. *)
From stdpp Require Import prelude.
From Coq Require Import Reals Lra Psatz Sorted.
From Verif Require Import Base Lin RotProofs TriangModel TriangSpec TriangProofs TriangProps AnglesModel PlaneSpec PlaneProofs PlaneProps TwoViewModel TwoViewSpec TwoViewProofs.
Local Open Scope R_scope.

(** What the solvers guarantee: rotations, and a singular value decomposition of an invertible homography *)
Definition rotations (refine : list vec -> list vec -> vec -> mat -> mat * vec) : Prop := forall a b t r, rotation r -> rotation (refine a b t r).1.
Definition decomposition (svd : option (mat * (R * R * R) * mat)) : Prop :=
  match svd with Some (u, (d1, d2, d3), vh) => orthogonal u /\ orthogonal vh /\ 0 < d3 <= d2 /\ d2 <= d1 | None => True end.
(** The inliers are those of the motion *)
Definition own_inliers b1 b2 threshold (m : motion) : Prop :=
  rotation m.1.1 /\ m.2 = two_view_reconstruction_inliers b1 b2 (mT m.1.1) (vopp (mvec (mT m.1.1) m.1.2)) threshold.
Lemma refinement_own refine b1 b2 r t th tr : rotations refine -> rotation r -> own_inliers b1 b2 th (two_view_reconstruction_and_refinement refine b1 b2 r t th tr).
Proof.
  intros Hf Hr. assert (forall r' t', rotation r' -> own_inliers b1 b2 th (mT r', vopp (mvec (mT r') t'), two_view_reconstruction_inliers b1 b2 r' t' th)) as H.
  { intros r' t' Hr'. split; cbn; [by apply rotation_T|]. rewrite mT_T, mvec_opp, <- mvec_mmul, rotation_r, mvec_I by done. by rewrite vopp_vopp. }
  unfold two_view_reconstruction_and_refinement. set (rt := if tr then _ else _). assert (rotation rt.1) as Hrt by (unfold rt; destruct tr; cbn; [by apply rotation_T|done]). destruct rt as [rc tc]. cbn [fst] in Hrt.
  destruct (decide _); [|by apply H]. destruct (refine _ _ tc rc) as [r' t'] eqn:E. apply H. pose proof (Hf (rows b1 (two_view_reconstruction_inliers b1 b2 rc tc th)) (rows b2 (two_view_reconstruction_inliers b1 b2 rc tc th)) tc rc Hrt) as H'. by rewrite E in H'.
Qed.
Lemma plane_own svd b1 b2 th m : decomposition svd -> two_view_reconstruction_plane_based svd b1 b2 th = Some m -> own_inliers b1 b2 th m.
Proof.
  intros Hd H. unfold two_view_reconstruction_plane_based in H. destruct svd as [[[u [[d1 d2] d3]] vh]|]; [|done]. destruct Hd as (Hu & Hv & [H3 H23] & H12).
  pose proof (C64_motions u vh d1 d2 d3 Hu Hv H3 H23 H12) as HM. cbn zeta in HM. destruct (motion_from_plane_homography u (d1, d2, d3) vh) as [ms|]; [|done].
  destruct HM as (_ & _ & _ & HM). destruct ms as [|[[[r t] n] d] ms]; [done|]. cbn in H. injection H as <-. destruct (proj1 (HM r t n d) (or_introl eq_refl)) as (Hr & _). done.
Qed.
Lemma five_cases refine b1 b2 r t th check ratio m : two_view_reconstruction_5pt refine b1 b2 r t th check ratio = Some m ->
  exists tr, m = two_view_reconstruction_and_refinement refine b1 b2 r t th tr /\ (5 < length m.2)%nat.
Proof.
  unfold two_view_reconstruction_5pt. set (res := omap _ _). assert (forall x, x ∈ res -> exists tr, x = two_view_reconstruction_and_refinement refine b1 b2 r t th tr /\ (5 < length x.2)%nat) as H.
  { intros x Hx. apply elem_of_list_omap in Hx as (tr & _ & Hx). destruct (decide _) as [L|L]; [done|]. injection Hx as <-. exists tr. split; [done|lia]. }
  intros E. apply H. destruct res as [|m1 [|m2 [|? ?]]]; try done; [injection E as <-; by left|]. destruct (Rlt_dec _ _); [done|]. destruct (decide _); injection E as <-; [by left|right; by left].
Qed.

Section C65.
Variable refine : list vec -> list vec -> vec -> mat -> mat * vec.
Variables (robust : mat * vec) (svd : option (mat * (R * R * R) * mat)) (b1 b2 : list vec) (threshold : R) (check_reversal : bool) (reversal_ratio : R).
Hypothesis Hrefine : rotations refine.
Hypothesis Hrobust : rotation robust.1.
Hypothesis Hsvd : decomposition svd.
Lemma general_own m how : two_view_reconstruction_general refine robust svd b1 b2 threshold check_reversal reversal_ratio = Some (m, how) -> own_inliers b1 b2 threshold m.
Proof.
  unfold two_view_reconstruction_general. destruct (two_view_reconstruction_5pt _ _ _ _ _ _ _ _) as [f|] eqn:Ef.
  - destruct (decide _); [intros [= <- <-]; apply five_cases in Ef as (tr & -> & _); by apply refinement_own|].
    destruct (two_view_reconstruction_plane_based svd b1 b2 threshold) as [p|] eqn:Ep; [|done]. intros [= <- <-]. by eapply plane_own.
  - destruct (two_view_reconstruction_plane_based svd b1 b2 threshold) as [p|] eqn:Ep; [|done]. intros [= <- <-]. by eapply plane_own.
Qed.
(** ** C65: the inliers returned are the matches that agree with the motion returned *)
Theorem C65_inliers r t inliers how :
  two_view_reconstruction_general refine robust svd b1 b2 threshold check_reversal reversal_ratio = Some ((r, t, inliers), how) ->
  rotation r /\ increasing inliers /\
  (forall i, i ∈ inliers -> exists x1 x2 X, b1 !! i = Some x1 /\ b2 !! i = Some x2 /\ between_lines r t x1 x2 X /\ agrees r t threshold x1 x2 X) /\
  (forall i x1 x2 X, b1 !! i = Some x1 -> b2 !! i = Some x2 -> norm x1 = 1 -> norm x2 = 1 -> / 10 ^ 10 <= parallax r x1 x2 ->
     between_lines r t x1 x2 X -> agrees r t threshold x1 x2 X -> i ∈ inliers).
Proof.
  intros H. apply general_own in H as [Hr E]. cbn in Hr, E. split; [done|]. split; [rewrite E; apply nonzero_increasing|]. split.
  - intros i Hi. rewrite E in Hi. apply inliers_agree in Hi as (x1 & x2 & X & H1 & H2 & HX & Ha); [|done]. exists x1, x2, X. split; [done|]. split; [done|]. split; [by apply solve_between|done].
  - intros i x1 x2 X H1 H2 N1 N2 Hp Hb Ha. rewrite E. apply inliers_agree; [done|]. exists x1, x2, X. split; [done|]. split; [done|]. split; [|done].
    destruct (proj2 (C48_two_views_defined (v0, x1) (vopp (mvec (mT r) t), mvec (mT r) x2)) Hp) as [Y HY]. rewrite HY. f_equal.
    pose proof (solve_between _ _ _ _ _ Hr HY) as HbY. clear HY H1 H2 Ha E.
    destruct Hb as (a & b & -> & A1 & A2). destruct HbY as (a' & b' & -> & B1 & B2). cbn zeta in *.
    set (w := mvec (mT r) x2) in *. assert (dot w w = 1) as Hw. { unfold w. rewrite dot_mvec by (by apply rotation_T). apply norm_one, N2. } apply norm_one in N1.
    assert (forall k, mvec (mT r) (vsub (vscale k x2) t) = vsub (vscale k w) (mvec (mT r) t)) as Ek by (intros k; unfold w; clear; vring). rewrite !Ek in *. clear Ek.
    set (c := mvec (mT r) t) in *.
    assert (parallax r x1 x2 = 1 - dot x1 w * dot x1 w) as Ep. { unfold parallax. fold w. rewrite lagrange, N1, Hw. ring. }
    assert (0 < / 10 ^ 10) by (apply Rinv_0_lt_compat; lra).
    assert (forall k l, dot (vsub (vscale k x1) (vsub (vscale l w) c)) x1 = k - l * dot x1 w + dot c x1) as F1. { intros k l. transitivity (k * dot x1 x1 - l * dot x1 w + dot c x1); [unfold dot, vsub, vscale; cbn; ring|rewrite N1; ring]. }
    assert (forall k l, dot (vsub (vscale k x1) (vsub (vscale l w) c)) w = k * dot x1 w - l + dot c w) as F2. { intros k l. transitivity (k * dot x1 w - l * dot w w + dot c w); [unfold dot, vsub, vscale; cbn; ring|rewrite Hw; ring]. }
    rewrite F1 in A1, B1. rewrite F2 in A2, B2. set (g := dot x1 w) in *. rewrite Ep in Hp.
    assert ((b' - b) * (1 - g * g) = 0) as Eb by nra. apply Rmult_integral in Eb as [Eb|Eb]; [|lra]. assert (b' = b) as -> by lra. assert (a' = a) as -> by lra. done.
Qed.
(** In particular a match of a point that both cameras see exactly is an inlier. *)
Theorem C65_exact r t inliers how i X :
  two_view_reconstruction_general refine robust svd b1 b2 threshold check_reversal reversal_ratio = Some ((r, t, inliers), how) -> 0 < threshold ->
  let X2 := vadd (mvec r X) t in X <> v0 -> X2 <> v0 -> b1 !! i = Some (direction X) -> b2 !! i = Some (direction X2) ->
  / 10 ^ 10 <= parallax r (direction X) (direction X2) -> i ∈ inliers.
Proof.
  intros H Ht X2 HX HX2 H1 H2 Hp. apply general_own in H as [Hr E]. cbn in Hr, E. rewrite E. apply inliers_agree; [done|]. exists (direction X), (direction X2), X. split; [done|]. split; [done|].
  assert (forall x, x <> v0 -> norm (direction x) = 1 /\ x = vscale (norm x) (direction x)) as Hdir.
  { intros x Hx. assert (norm x <> 0) by (intros Hn; by apply Hx, norm_0). split; [apply norm_one; by apply unit_axis|]. unfold direction. rewrite vscale_vscale, Rinv_r, vscale_1 by done. done. }
  split.
  - eapply (solve_exact r t _ _ X (norm X) (norm X2)); [done|by apply Hdir|by apply Hdir|done|by apply Hdir|by apply (Hdir X2)].
  - split; [done|]. split; [done|]. fold X2. by rewrite !norm_self.
Qed.
(** The method with most inliers is taken; nothing is returned only if both methods fail. *)
Theorem C65_most :
  let five := two_view_reconstruction_5pt refine b1 b2 robust.1 robust.2 threshold check_reversal reversal_ratio in
  let plane := two_view_reconstruction_plane_based svd b1 b2 threshold in
  match two_view_reconstruction_general refine robust svd b1 b2 threshold check_reversal reversal_ratio with
  | Some (m, how) => Some m = match how with FivePoint => five | PlaneBased => plane end /\
      (forall m', five = Some m' \/ plane = Some m' -> (length m'.2 <= length m.2)%nat)
  | None => five = None /\ plane = None
  end.
Proof.
  intros five plane. unfold two_view_reconstruction_general. fold five. fold plane. destruct five as [f|] eqn:Ef, plane as [p|] eqn:Ep; cbn [inliers_of].
  - destruct (decide _); split; try done; intros m' [[= <-]|[= <-]]; lia.
  - destruct (decide (_ < _)%nat) as [L|L]; [split; [done|]; intros m' [[= <-]|?]; done|]. apply five_cases in Ef as (? & _ & L'). cbn in L. lia.
  - split; [done|]. intros m' [?|[= <-]]; done.
  - done.
Qed.
(** The five point method: the motion or its reverse, whichever has more inliers; nothing if neither has more than five, or if
    both have and they are too close to tell. *)
Theorem C65_reversal :
  let result b := two_view_reconstruction_and_refinement refine b1 b2 robust.1 robust.2 threshold b in
  let count b := length (result b).2 in
  match two_view_reconstruction_5pt refine b1 b2 robust.1 robust.2 threshold check_reversal reversal_ratio with
  | Some m => exists b, m = result b /\ (b = true -> check_reversal = true) /\ (5 < count b)%nat /\ (count false <= count b)%nat /\ (check_reversal = true -> count true <= count b)%nat
  | None => ((count false <= 5)%nat /\ (check_reversal = true -> count true <= 5)%nat) \/
      (check_reversal = true /\ (5 < count false)%nat /\ (5 < count true)%nat /\ reversal_ratio < INR (min (count false) (count true)) / INR (max (count false) (count true)))
  end.
Proof.
  intros result count. unfold two_view_reconstruction_5pt. destruct check_reversal; cbn [omap list_omap].
  - fold (result false) (result true). destruct (decide (length (result false).2 <= 5)%nat) as [L|L], (decide (length (result true).2 <= 5)%nat) as [L'|L']; fold (count false) in *; fold (count true) in *.
    + left. done.
    + exists true. split; [done|]. split; [done|]. lia.
    + exists false. split; [done|]. split; [done|]. lia.
    + destruct (Rlt_dec _ _) as [Lr|Lr]; [right; split; [done|]; split; [lia|]; split; [lia|done]|].
      destruct (decide _) as [Lc|Lc]; [exists false|exists true]; (split; [done|]); (split; [done|]); lia.
  - fold (result false). destruct (decide (length (result false).2 <= 5)%nat) as [L|L]; fold (count false) in *.
    + left. done.
    + exists false. split; [done|]. split; [done|]. split; [lia|]. split; [lia|done].
Qed.
End C65.

Lemma inliers_replicate N x1 x2 r t th : two_view_reconstruction_inliers (replicate N x1) (replicate N x2) r t th =
  match TriangulateTwoBearingsMidpointSolve (v0, x1) (t, mvec r x2) with
  | Some X => if near_direction X x1 th && near_direction (mvec (mT r) (vsub X t)) x2 th then seq 0 N else []
  | None => [] end.
Proof.
  unfold two_view_reconstruction_inliers, compute_inliers_bearings, TriangulateTwoBearingsMidpointMany. rewrite zip_with_replicate, (zip_with_replicate pair), zip_with_replicate by done.
  assert (forall b : bool, nonzero (replicate N b) = if b then seq 0 N else []) as H.
  { intros b. induction N as [|N IH]; [by destruct b|]. cbn [replicate]. rewrite nonzero_cons, IH. destruct b; [|done]. cbn. by rewrite fmap_S_seq. }
  rewrite H. cbn [fst snd]. destruct (TriangulateTwoBearingsMidpointSolve _ _); [|done]. by destruct (_ && _).
Qed.
(** The plane based method is meant to take the motion with most inliers. It takes the first: np.argmax of a map object is 0. Here the
    first motion has no inliers although another motion has all the matches, however many. *)
Theorem C65_plane_best_refuted : exists svd x1 x2, decomposition svd /\ forall N threshold, (0 < N)%nat -> 0 < threshold <= 2 ->
  let b1 := replicate N x1 in let b2 := replicate N x2 in
  (exists r t, two_view_reconstruction_plane_based svd b1 b2 threshold = Some (r, t, [])) /\
  exists u d1 d2 d3 vh r t n d, svd = Some (u, (d1, d2, d3), vh) /\ explains (mmul (mmul u (diagonal d1 d2 d3)) vh) r t n d /\
    length (two_view_reconstruction_inliers b1 b2 (mT r) (vopp (mvec (mT r) t)) threshold) = N.
Proof.
  set (q := sqrt (1/5)). assert (q * q = 1/5) as Hq by (apply sqrt_sqrt; lra). assert (0 < q) as Hq0 by (apply sqrt_lt_R0; lra).
  set (p := sqrt (1/65)). assert (p * p = 1/65) as Hp by (apply sqrt_sqrt; lra). assert (0 < p) as Hp0 by (apply sqrt_lt_R0; lra).
  set (x1 := Vec (-2 * q) 0 q). set (x2 := Vec (-8 * p) 0 p).
  assert (norm x1 = 1) as N1 by (apply norm_one; unfold x1, dot; cbn; lra). assert (norm x2 = 1) as N2 by (apply norm_one; unfold x2, dot; cbn; lra).
  assert (orthogonal mI) as Ho by (unfold orthogonal; apply mat_eq; cbn; ring).
  set (svd := Some (mI, (2, 1, 1/2), mI)). exists svd, x1, x2. split; [cbn; repeat split; (done || lra)|]. intros N th HN Hth b1 b2.
  set (r := Mat (4/5) 0 (- (3/5)) 0 1 0 (3/5) 0 (4/5)). set (t0 := Vec (3 * q) 0 (- (3/2 * q))).
  assert (rotation r) as Hr by (split; [apply mat_eq; cbn; lra|unfold det; cbn; lra]).
  assert (/ 10 ^ 10 <= parallax r x1 x2) as Hpar.
  { unfold parallax. replace (dot _ _) with (729/25 * (q * q) * (p * p)); [rewrite Hq, Hp; apply Rle_trans with (/ 10 ^ 2); [apply Rinv_le_contravar; lra|lra]|]. unfold dot, cross, mvec, x1, x2, r. cbn. field. }
  set (X := vscale (5/3) x1). set (k := 5 * q / (6 * p)). assert (0 < k) as Hk by (apply Rdiv_lt_0_compat; lra).
  assert (vadd (mvec r X) (vopp t0) = vscale k x2) as E2. { unfold X, x1, x2, t0, r, k, mvec, vadd, vopp, vscale. cbn. f_equal; field; lra. }
  assert (exists n d ms, motion_from_plane_homography mI (2, 1, 1/2) mI = Some ((r, t0, n, d) :: ms)) as (n & d & ms & Ems).
  { unfold motion_from_plane_homography. destruct (Rlt_dec (2 / 1) _); [lra|]. destruct (Rlt_dec (1 / (1 / 2)) _); [lra|].
    replace ((2 ^ 2 - 1 ^ 2) / (2 ^ 2 - (1 / 2) ^ 2)) with (2 * 2 * (1/5)) by lra. replace ((1 ^ 2 - (1 / 2) ^ 2) / (2 ^ 2 - (1 / 2) ^ 2)) with (1/5) by lra.
    rewrite (sqrt_mult (2 * 2)), sqrt_square by lra. fold q. eexists _, _, _. f_equal. cbn [fmap list_fmap mjoin list_join motion_solution app]. f_equal. f_equal. f_equal. f_equal.
    - replace (det mI * det mI) with 1 by (unfold det; cbn; ring). rewrite mscale_1, mmul_I_l, mmul_I_r. unfold r. apply mat_eq; cbn; lra.
    - rewrite mvec_I. unfold t0, vscale. cbn. f_equal; lra. }
  assert (forall c, c = 1 \/ c = -1 -> TriangulateTwoBearingsMidpointSolve (v0, x1) (vopp (mvec (mT r) (vscale (- c) t0)), mvec (mT r) x2) = Some (vscale c X)) as Hs.
  { intros c Hc. apply (solve_exact r _ x1 x2 _ (c * (5/3)) (c * k)); try done; [unfold X; apply vscale_vscale|].
    transitivity (vscale c (vadd (mvec r X) (vopp t0))); [|by rewrite E2, vscale_vscale]. rewrite mvec_scale. generalize (mvec r X). intros. vring. }
  split.
  - exists r, t0. unfold two_view_reconstruction_plane_based, svd. rewrite Ems. cbn [fmap list_fmap argmax_of_map lookup list_lookup]. f_equal. f_equal. unfold b1, b2.
    rewrite inliers_replicate. specialize (Hs (-1) (or_intror eq_refl)). replace (vscale (- -1) t0) with t0 in Hs by vring. rewrite Hs.
    replace (near_direction (vscale (-1) X) x1 th) with false; [done|]. symmetry. apply not_true_iff_false. rewrite near_direction_spec. intros [_ H].
    assert (direction (vscale (-1) X) = vopp x1) as E. { unfold direction, X. rewrite (vscale_vscale (-1)), norm_vscale, N1. replace (Rabs (-1 * (5 / 3))) with (5/3) by (rewrite Rabs_left; lra). rewrite vscale_vscale. replace (/ (5 / 3 * 1) * (-1 * (5 / 3))) with (-1) by field. vring. }
    rewrite E in H. replace (vsub (vopp x1) x1) with (vscale (-2) x1) in H by vring. rewrite norm_vscale, N1, Rabs_left in H; lra.
  - exists mI, 2, 1, (1/2), mI, r, (vopp t0), (Vec (2 * q) 0 q), 1. split; [done|]. split.
    + apply explains_matrix; [done|unfold dot; cbn; lra|]. rewrite mmul_I_l, mmul_I_r. intros [a b c]. unfold vsub, vscale, vopp, mvec, diagonal, dot, r, t0. cbn.
      f_equal; [transitivity (2 * a + 6 * a * (q * q - 1/5) + 3 * c * (q * q - 1/5)); [rewrite Hq; lra|lra]|lra|transitivity (1/2 * c - 3 * a * (q * q - 1/5) - 3/2 * c * (q * q - 1/5)); [rewrite Hq; lra|lra]].
    + unfold b1, b2. rewrite inliers_replicate. specialize (Hs 1 (or_introl eq_refl)). replace (vscale (Ropp 1) t0) with (vopp t0) in Hs by vring. rewrite Hs, vscale_1.
      replace (near_direction X x1 th) with true. 2:{ symmetry. apply near_direction_spec. unfold X. split; [apply scale_ne; [lra|done]|]. rewrite direction_scale, norm_self; [lra|lra|done]. }
      replace (near_direction _ x2 th) with true; [apply seq_length|]. symmetry. apply near_direction_spec. rewrite mT_T.
      replace (mvec r (vsub X (vopp (mvec (mT r) (vopp t0))))) with (vscale k x2).
      * split; [apply scale_ne; [lra|done]|]. rewrite direction_scale, norm_self; [lra|lra|done].
      * rewrite <- E2. replace (vsub X (vopp (mvec (mT r) (vopp t0)))) with (vadd X (mvec (mT r) (vopp t0))) by (generalize (mvec (mT r) (vopp t0)); intros; vring). by rewrite mvec_add, <- (mvec_mmul r), rotation_r, mvec_I.
Qed.

(** The inliers of a pure rotation: the matches whose bearings it takes within the threshold of each other *)
Theorem C65_rotation_inliers b1 b2 r threshold : increasing (two_view_rotation_inliers b1 b2 r threshold) /\
  forall i, i ∈ two_view_rotation_inliers b1 b2 r threshold <-> exists x1 x2, b1 !! i = Some x1 /\ b2 !! i = Some x2 /\ norm (vsub (mvec r x2) x1) < threshold.
Proof.
  split; [apply nonzero_increasing|]. intros i. unfold two_view_rotation_inliers. rewrite nonzero_spec, lookup_zip_with_Some. split.
  - intros (x1 & x2 & E & H1 & H2). exists x1, x2. split; [done|]. split; [done|]. by destruct (Rlt_dec _ _).
  - intros (x1 & x2 & H1 & H2 & H). exists x1, x2. destruct (Rlt_dec _ _); [done|lra].
Qed.

(** Concrete case: seven matches of the point (0, 0, 2), the second camera one to the left: all are inliers of the five point motion. *)
Example C65_case : exists m, two_view_reconstruction_general (fun _ _ t r => (r, t)) (mI, Vec 1 0 0) None (replicate 7 (direction (Vec 0 0 2))) (replicate 7 (direction (Vec (-1) 0 2))) (1/100) true (1/2)
   = Some (m, FivePoint) /\ m.2 = seq 0 7.
Proof.
  set (x1 := direction (Vec 0 0 2)). set (x2 := direction (Vec (-1) 0 2)).
  assert (forall x, x <> v0 -> norm (direction x) = 1 /\ x = vscale (norm x) (direction x)) as Hdir.
  { intros x Hx. assert (norm x <> 0) by (intros Hn; by apply Hx, norm_0). split; [apply norm_one; by apply unit_axis|]. unfold direction. rewrite vscale_vscale, Rinv_r, vscale_1 by done. done. }
  assert (Vec 0 0 2 <> v0) as A1 by (intros E; apply (f_equal vz) in E; cbn in E; lra). assert (Vec (-1) 0 2 <> v0) as A2 by (intros E; apply (f_equal vz) in E; cbn in E; lra).
  destruct (Hdir _ A1) as [N1 E1]. destruct (Hdir _ A2) as [N2 E2]. fold x1 in N1, E1. fold x2 in N2, E2.
  assert (x1 = Vec 0 0 1) as Ex1. { unfold x1, direction. replace (norm (Vec 0 0 2)) with 2; [unfold vscale; cbn; f_equal; lra|]. symmetry. unfold norm, dot. cbn. replace (0 * 0 + 0 * 0 + 2 * 2) with (2 * 2) by ring. apply sqrt_square. lra. }
  assert (norm (Vec (-1) 0 2) * norm (Vec (-1) 0 2) = 5) as Hn5 by (rewrite norm_sq; unfold dot; cbn; ring). set (l := norm (Vec (-1) 0 2)) in *. assert (0 < l) as Hl by (pose proof (norm_nonneg (Vec (-1) 0 2)) as G; fold l in G; nra).
  assert (x2 = Vec (- / l) 0 (2 / l)) as Ex2 by (unfold x2, direction; fold l; unfold vscale; cbn; f_equal; field; lra).
  assert (/ 10 ^ 10 <= parallax mI x1 x2) as Hpar.
  { unfold parallax. rewrite Ex1, Ex2. replace (dot _ _) with (/ (l * l)); [rewrite Hn5; apply Rinv_le_contravar; lra|]. unfold dot, cross, mvec. cbn. field. lra. }
  assert (TriangulateTwoBearingsMidpointSolve (v0, x1) (Vec 1 0 0, mvec mI x2) = Some (Vec 0 0 2)) as Hs1.
  { pose proof (solve_exact mI (Vec (-1) 0 0) x1 x2 (Vec 0 0 2) (norm (Vec 0 0 2)) l rotation_I N1 N2 Hpar E1) as H. rewrite mT_I, !mvec_I in H.
    replace (vopp (Vec (-1) 0 0)) with (Vec 1 0 0) in H by (unfold vopp; cbn; f_equal; lra). rewrite !mvec_I. apply H. rewrite <- E2. unfold vadd. cbn. f_equal; lra. }
  assert (two_view_reconstruction_inliers (replicate 7 x1) (replicate 7 x2) mI (Vec 1 0 0) (1/100) = seq 0 7) as Hin1.
  { rewrite inliers_replicate, Hs1. replace (near_direction (Vec 0 0 2) x1 (1 / 100)) with true.
    - replace (near_direction _ x2 (1/100)) with true; [done|]. symmetry. apply near_direction_spec. rewrite mT_I, mvec_I. replace (vsub (Vec 0 0 2) (Vec 1 0 0)) with (Vec (-1) 0 2) by (unfold vsub; cbn; f_equal; lra). split; [done|]. fold x2. rewrite norm_self. lra.
    - symmetry. apply near_direction_spec. split; [done|]. fold x1. rewrite norm_self. lra. }
  assert (two_view_reconstruction_inliers (replicate 7 x1) (replicate 7 x2) mI (Vec (-1) 0 0) (1/100) = []) as Hin2.
  { rewrite inliers_replicate. replace (TriangulateTwoBearingsMidpointSolve (v0, x1) (Vec (-1) 0 0, mvec mI x2)) with (Some (Vec 0 0 (-2))).
    - replace (near_direction (Vec 0 0 (-2)) x1 (1 / 100)) with false; [done|]. symmetry. apply not_true_iff_false. rewrite near_direction_spec. intros [_ H].
      assert (norm (Vec 0 0 (-2)) = 2) as En. { unfold norm, dot. cbn. replace (0 * 0 + 0 * 0 + -2 * -2) with (2 * 2) by ring. apply sqrt_square. lra. }
      assert (vsub (direction (Vec 0 0 (-2))) x1 = Vec 0 0 (-2)) as Es by (rewrite Ex1; unfold direction; rewrite En; unfold vsub, vscale; cbn; f_equal; lra). rewrite Es, En in H. lra.
    - symmetry. pose proof (solve_exact mI (Vec 1 0 0) x1 x2 (Vec 0 0 (-2)) (- norm (Vec 0 0 2)) (- l) rotation_I N1 N2 Hpar) as H. rewrite mT_I, !mvec_I in H.
      replace (vopp (Vec 1 0 0)) with (Vec (-1) 0 0) in H by (unfold vopp; cbn; f_equal; lra). rewrite !mvec_I. apply H.
      + replace (vscale (- norm (Vec 0 0 2)) x1) with (vopp (vscale (norm (Vec 0 0 2)) x1)) by (generalize (norm (Vec 0 0 2)); intros; clear; vring). rewrite <- E1. unfold vopp. cbn. f_equal; lra.
      + replace (vscale (- l) x2) with (vopp (vscale l x2)) by (clear; vring). rewrite <- E2. unfold vadd, vopp. cbn. f_equal; lra. }
  eexists. unfold two_view_reconstruction_general, two_view_reconstruction_5pt. cbn [omap list_omap fst snd].
  assert (two_view_reconstruction_and_refinement (fun _ _ t r => (r, t)) (replicate 7 x1) (replicate 7 x2) mI (Vec 1 0 0) (1 / 100) false = (mI, Vec (-1) 0 0, seq 0 7)) as ->.
  { unfold two_view_reconstruction_and_refinement. rewrite Hin1. rewrite decide_True by (cbn; lia). rewrite mT_I, mvec_I. f_equal. f_equal. unfold vopp. cbn. f_equal; lra. }
  assert (two_view_reconstruction_and_refinement (fun _ _ t r => (r, t)) (replicate 7 x1) (replicate 7 x2) mI (Vec 1 0 0) (1 / 100) true = (mI, Vec 1 0 0, [])) as ->.
  { unfold two_view_reconstruction_and_refinement. rewrite mT_I, mvec_I. replace (vopp (Vec 1 0 0)) with (Vec (-1) 0 0) by (unfold vopp; cbn; f_equal; lra). rewrite Hin2. rewrite decide_False by (cbn; lia). rewrite mT_I, mvec_I. f_equal. f_equal. unfold vopp. cbn. f_equal; lra. }
  rewrite decide_False by (cbn; lia). rewrite decide_True by (cbn; lia). cbn [two_view_reconstruction_plane_based inliers_of]. rewrite decide_True by (cbn; lia). done.
Qed.
Print Assumptions C65_inliers.
Print Assumptions C65_exact.
Print Assumptions C65_most.
Print Assumptions C65_reversal.
Print Assumptions C65_plane_best_refuted.
Print Assumptions C65_rotation_inliers.
