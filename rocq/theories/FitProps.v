(** C78: the fit of a similarity to pairs of points *)
From stdpp Require Import prelude.
From Coq Require Import Reals Lra Psatz.
From Verif Require Import Base Lin RotModel RotProofs PlaneProofs TriangModel FitModel FitSpec FitProofs FitPlaneProofs.
Local Open Scope R_scope.

Lemma scatter_spread l : scatter l = spread (centred l).
Proof.
  unfold scatter. change (centroid l) with (vmean l). unfold spread, centred, sumR. generalize (vmean l). intros c. induction l as [|x l IH]; [done|].
  cbn [zip_with squared_error fmap list_fmap foldr]. rewrite IH. f_equal.
Qed.
Lemma centroid2_mean l : centroid2 l = vmean2 l.
Proof.
  unfold centroid2, vmean2, vscale2, vsum2. assert (foldr vadd2 (0, 0) l = (foldr Rplus 0 (fst <$> l), foldr Rplus 0 (snd <$> l))) as ->; [|done].
  induction l as [|x l IH]; [done|]. cbn [foldr fmap list_fmap]. rewrite IH. done.
Qed.
Lemma scatter2_spread l : scatter2 l = spread2 (centred2 l).
Proof.
  unfold scatter2. rewrite centroid2_mean. unfold spread2, centred2, sumR. generalize (vmean2 l). intros c. induction l as [|x l IH]; [done|].
  cbn [zip_with squared_error2 fmap list_fmap foldr]. rewrite IH. unfold dot2, vsub2. cbn [fst snd]. ring.
Qed.

(** Too few points, or not as many in both sets, are refused; all source points the same give a transformation that is not finite *)
Theorem C78_refused svd scale X Y : (length X < 3)%nat \/ length X <> length Y -> superimposition_matrix svd X Y scale = Err ValueError.
Proof.
  intros H. unfold superimposition_matrix, affine_matrix_from_points. destruct ((length X <? 3)%nat || negb (length X =? length Y)%nat) eqn:E; [done|].
  apply orb_false_iff in E as [E1 E2]. apply Nat.ltb_ge in E1. apply negb_false_iff, Nat.eqb_eq in E2. lia.
Qed.
Theorem C78_not_finite svd scale X Y : (3 <= length X)%nat -> length X = length Y ->
  (superimposition_matrix svd X Y scale = Ok None <-> scale = true /\ all_equal X).
Proof.
  intros H1 H2. unfold superimposition_matrix, affine_matrix_from_points. rewrite H2, Nat.eqb_refl. replace (length Y <? 3)%nat with false by (symmetry; apply Nat.ltb_ge; lia). cbn [orb negb].
  destruct scale; cbn [andb]; [|split; [done|by intros [? _]]]. destruct (Req_EM_T (spread (centred X)) 0) as [E|E].
  - split; [|done]. intros _. split; [done|]. by apply centred_zero.
  - split; [done|]. intros [_ Ha]. by apply all_equal_centred in Ha.
Qed.
(** Otherwise the fit is a similarity. Its scale is 1, or the ratio of the scatters when a scale is asked for; no rotation and translation
    with that scale is nearer to the target points. *)
Theorem C78_least_squares svd scale X Y : svd_right svd X Y -> (3 <= length X)%nat -> length X = length Y -> (scale = true -> ~ all_equal X) ->
  exists s r b, superimposition_matrix svd X Y scale = Ok (Some (mscale s r, b)) /\ rotation r /\ 0 <= s /\
    (if scale then s * s * scatter X = scatter Y else s = 1) /\
    forall r' b', rotation r' -> squared_error (moved s r b) (zip X Y) <= squared_error (moved s r' b') (zip X Y).
Proof.
  intros Hs H1 H2 H3. destruct (superimposition_matrix svd X Y scale) as [[[m b]|]|e] eqn:E.
  - unfold superimposition_matrix in E. destruct (fit_spec _ _ _ _ _ _ Hs E) as (s & r & -> & Hr & Hp & -> & Hk & _ & _ & Hsc).
    exists s, r, (vsub (vmean Y) (mvec (mscale s r) (vmean X))). repeat split; try done; [apply Hr|apply Hr| |].
    + destruct scale; [|done]. rewrite !scatter_spread. apply Hsc.
    + intros r' b' Hr'. apply (fit_best svd); try done. by destruct X.
  - apply C78_not_finite in E as [E Ha]; [|done|done]. by apply H3 in Ha.
  - exfalso. revert E. unfold superimposition_matrix, affine_matrix_from_points. rewrite H2, Nat.eqb_refl. replace (length Y <? 3)%nat with false by (symmetry; apply Nat.ltb_ge; lia). cbn [orb negb].
    by destruct scale, (Req_EM_T (spread (centred X)) 0).
Qed.
(** When the target points are the images of the source points by a similarity, the fit brings every source point to its target, and it is
    that similarity unless the points are on a line. Without a scale the rotation and the image of the centroid are still those. *)
Lemma moved_zip s a b X x y : (x, y) ∈ zip X (moved s a b <$> X) -> x ∈ X /\ y = moved s a b x.
Proof. induction X as [|z X IH]; [set_solver|]. cbn [zip_with fmap list_fmap]. intros [[= -> ->]|H]%elem_of_cons; [set_solver|]. apply IH in H as [? ?]. set_solver. Qed.
Lemma zip_moved s a b X x : x ∈ X -> (x, moved s a b x) ∈ zip X (moved s a b <$> X).
Proof. induction X as [|z X IH]; [set_solver|]. cbn [zip_with fmap list_fmap]. intros [->|H]%elem_of_cons; [left|right; by apply IH]. Qed.
Lemma exact_values svd s a b X : svd_right svd X (moved s a b <$> X) -> (3 <= length X)%nat -> ~ all_equal X -> 0 < s -> rotation a ->
  exists r b', superimposition_matrix svd X (moved s a b <$> X) true = Ok (Some (mscale s r, b')) /\ rotation r /\ forall x, x ∈ X -> moved s r b' x = moved s a b x.
Proof.
  intros Hs H1 Hn Hp Ha. assert (X <> []) as Hne by (by destruct X; cbn in H1; [lia|]).
  destruct (C78_least_squares svd true X (moved s a b <$> X) Hs H1) as (k & r & b' & E & Hr & Hk & Hsc & Hb); [by rewrite fmap_length|done|].
  rewrite !scatter_spread, spread_moved in Hsc by done.
  assert (0 < spread (centred X)) as Hpos. { pose proof (spread_nonneg (centred X)). destruct (Req_dec (spread (centred X)) 0) as [Z|Z]; [|lra]. by apply centred_zero in Z. }
  assert (k = s) as ->. { apply Rmult_eq_reg_r in Hsc; [|lra]. nra. }
  exists r, b'. repeat split; [done|apply Hr|apply Hr|]. specialize (Hb a b Ha).
  assert (squared_error (moved s a b) (zip X (moved s a b <$> X)) = 0) as Z. { apply error_zero. intros x y [_ ->]%moved_zip. done. }
  assert (squared_error (moved s r b') (zip X (moved s a b <$> X)) = 0) as Z'. { pose proof (error_nonneg (moved s r b') (zip X (moved s a b <$> X))). lra. }
  rewrite error_zero in Z'. intros x Hx. apply Z'. by apply zip_moved.
Qed.
Theorem C78_exact svd s a b X : svd_right svd X (moved s a b <$> X) -> (3 <= length X)%nat -> ~ all_equal X -> 0 < s -> rotation a ->
  exists r b', superimposition_matrix svd X (moved s a b <$> X) true = Ok (Some (mscale s r, b')) /\ rotation r /\
    (forall x, x ∈ X -> moved s r b' x = moved s a b x) /\ (~ on_a_line X -> r = a /\ b' = b).
Proof.
  intros Hs H1 Hn Hp Ha. destruct (exact_values svd s a b X Hs H1 Hn Hp Ha) as (r & b' & E & Hr & Hx). exists r, b'. repeat split; try done; [apply Hr|apply Hr| |].
  - destruct (not_on_line X H) as (x0 & x1 & x2 & I0 & I1 & I2 & Hc).
    assert (forall x, x ∈ X -> mvec r (vsub x x0) = mvec a (vsub x x0)) as Hd.
    { intros x Ix. pose proof (Hx x Ix) as E1. pose proof (Hx x0 I0) as E2. unfold moved in E1, E2.
      assert (vscale s (mvec r (vsub x x0)) = vscale s (mvec a (vsub x x0))) as E3.
      { replace (vscale s (mvec r (vsub x x0))) with (vsub (vadd (vscale s (mvec r x)) b') (vadd (vscale s (mvec r x0)) b')) by vring. rewrite E1, E2. vring. }
      transitivity (vscale (/ s) (vscale s (mvec r (vsub x x0)))); [rewrite vscale_vscale, Rinv_l, vscale_1 by lra; done|].
      rewrite E3, vscale_vscale, Rinv_l, vscale_1 by lra. done. }
    apply (two_directions _ _ (vsub x1 x0) (vsub x2 x0)); auto.
  - assert (r = a) as ->.
    { destruct (not_on_line X H) as (x0 & x1 & x2 & I0 & I1 & I2 & Hc).
      assert (forall x, x ∈ X -> mvec r (vsub x x0) = mvec a (vsub x x0)) as Hd.
      { intros x Ix. pose proof (Hx x Ix) as E1. pose proof (Hx x0 I0) as E2. unfold moved in E1, E2.
        assert (vscale s (mvec r (vsub x x0)) = vscale s (mvec a (vsub x x0))) as E3.
        { replace (vscale s (mvec r (vsub x x0))) with (vsub (vadd (vscale s (mvec r x)) b') (vadd (vscale s (mvec r x0)) b')) by vring. rewrite E1, E2. vring. }
        transitivity (vscale (/ s) (vscale s (mvec r (vsub x x0)))); [rewrite vscale_vscale, Rinv_l, vscale_1 by lra; done|].
        rewrite E3, vscale_vscale, Rinv_l, vscale_1 by lra. done. }
      apply (two_directions _ _ (vsub x1 x0) (vsub x2 x0)); auto. }
    destruct X as [|x X]; [cbn in H1; lia|]. specialize (Hx x ltac:(left)). unfold moved in Hx.
    replace b' with (vsub (vadd (vscale s (mvec a x)) b') (vscale s (mvec a x))) by (generalize (vscale s (mvec a x)); vring). rewrite Hx. generalize (vscale s (mvec a x)). vring.
Qed.
(** A scale is not fitted by least squares: here another scale is nearer *)
Definition svd_diagonal : svd_of := fun m => (mI, (m11 m, m22 m, m33 m), mI).
Theorem C78_scale_refuted : exists X Y s r b s' r' b', svd_right svd_diagonal X Y /\ superimposition_matrix svd_diagonal X Y true = Ok (Some (mscale s r, b)) /\
  rotation r' /\ 0 < s' /\ squared_error (moved s' r' b') (zip X Y) < squared_error (moved s r b) (zip X Y).
Proof.
  set (X := [Vec (-1) 0 0; v0; Vec 1 0 0]). set (Y := [Vec (-1) 1 0; Vec 0 (-2) 0; Vec 1 1 0]).
  assert (centred X = X) as EX. { unfold centred, X, vmean, vsum. cbn. repeat f_equal; cbv [vadd vopp vscale v0 vx vy vz]; f_equal; lra. }
  assert (centred Y = Y) as EY. { unfold centred, Y, vmean, vsum. cbn. repeat f_equal; cbv [vadd vopp vscale v0 vx vy vz]; f_equal; lra. }
  assert (covariance Y X = Mat 2 0 0 0 0 0 0 0 0) as EC. { unfold covariance, Y, X. cbn. unfold madd, outer, mzero. cbn. f_equal; ring. }
  assert (svd_right svd_diagonal X Y) as Hs.
  { unfold svd_right. rewrite EX, EY, EC. unfold svd_diagonal, is_svd_of. cbn. repeat split; try lra; unfold mmul, mT, mI; cbn; f_equal; ring. }
  assert (spread X = 2) as SX by (unfold spread, X, sumR, dot; cbn; ring). assert (spread Y = 8) as SY by (unfold spread, Y, sumR, dot; cbn; ring).
  destruct (superimposition_matrix svd_diagonal X Y true) as [[[m b]|]|e] eqn:E.
  - unfold superimposition_matrix in E. destruct (fit_spec _ _ _ _ _ _ Hs E) as (s & r & -> & Hr & Hp & Eb & Hk & _ & _ & [Hsc _]).
    exists X, Y, s, r, b, 1, mI, v0. split; [done|]. split; [done|]. split; [apply rotation_I|]. split; [lra|].
    rewrite EX, EY, EC in Hk. assert (r = mI) as ->.
    { rewrite Hk. unfold kabsch, svd_diagonal. cbn [m11 m22 m33]. rewrite mmul_I_l. destruct (Rlt_dec (det mI) 0) as [D|D]; [unfold det in D; cbn in D; lra|done]. }
    rewrite EX, EY, SX, SY in Hsc. assert (s = 2) as -> by nra. subst b.
    assert (vmean X = v0) as ->. { unfold vmean, X, vsum. cbn. cbv [vadd vscale v0 vx vy vz]. f_equal; lra. }
    assert (vmean Y = v0) as ->. { unfold vmean, Y, vsum. cbn. cbv [vadd vscale v0 vx vy vz]. f_equal; lra. }
    unfold X, Y, squared_error, moved, dot. cbn. lra.
  - apply C78_not_finite in E as [_ Ha]; [|cbn; lia|done]. exfalso. assert (Vec (-1) 0 0 = v0) as [= Z]; [|lra]. apply Ha; unfold X; [left|right; left].
  - exfalso. destruct (C78_least_squares svd_diagonal true X Y Hs) as (? & ? & ? & E' & _); [cbn; lia|done| |rewrite E' in E; done].
    intros _ Ha. assert (Vec (-1) 0 0 = v0) as [= Z]; [|lra]. apply Ha; unfold X; [left|right; left].
Qed.

(** The matrix of a similarity is taken apart into its scale, rotation and translation *)
Theorem C78_decompose s r b : 0 < s -> rotation r -> decompose_similarity_transform (mscale s r, b) = Some (s, r, b).
Proof.
  intros Hs [Ho Hd]. unfold decompose_similarity_transform. cbn [fst snd]. rewrite det_mscale, Hd, Rmult_1_r.
  assert (0 < s * s * s) as P by (repeat apply Rmult_lt_0_compat; done). destruct (Rlt_dec 0 (s * s * s)); [|done].
  assert (cube_root (s * s * s) = s) as ->.
  { unfold cube_root. destruct (Req_EM_T (s * s * s) 0); [lra|]. unfold Rpower. rewrite !ln_mult by (try apply Rmult_lt_0_compat; done).
    replace (1 / 3 * (ln s + ln s + ln s)) with (ln s) by field. by apply exp_ln. }
  repeat f_equal. rewrite mscale_mscale, Rinv_l by lra. apply mscale_1.
Qed.

(** ** The plane *)
Theorem C78_plane_refused svd scale X Y : (length X < 2)%nat \/ length X <> length Y -> affine_matrix_from_points_2d svd scale X Y = Err ValueError.
Proof.
  intros H. unfold affine_matrix_from_points_2d. destruct ((length X <? 2)%nat || negb (length X =? length Y)%nat) eqn:E; [done|].
  apply orb_false_iff in E as [E1 E2]. apply Nat.ltb_ge in E1. apply negb_false_iff, Nat.eqb_eq in E2. lia.
Qed.
Theorem C78_plane_not_finite svd scale X Y : (2 <= length X)%nat -> length X = length Y ->
  (affine_matrix_from_points_2d svd scale X Y = Ok None <-> scale = true /\ all_equal X).
Proof.
  intros H1 H2. unfold affine_matrix_from_points_2d. rewrite H2, Nat.eqb_refl. replace (length Y <? 2)%nat with false by (symmetry; apply Nat.ltb_ge; lia). cbn [orb negb].
  destruct scale; cbn [andb]; [|split; [done|by intros [? _]]]. destruct (Req_EM_T (spread2 (centred2 X)) 0) as [E|E].
  - split; [|done]. intros _. split; [done|]. by apply centred2_zero.
  - split; [done|]. intros [_ Ha]. by apply all_equal_centred2 in Ha.
Qed.
Theorem C78_plane_least_squares svd scale X Y : svd2_right svd X Y -> (2 <= length X)%nat -> length X = length Y -> (scale = true -> ~ all_equal X) ->
  exists m b s t, affine_matrix_from_points_2d svd scale X Y = Ok (Some (m, b)) /\ (forall x, vadd2 (mvec2 m x) b = moved2 s t b x) /\ 0 <= s /\
    (if scale then s * s * scatter2 X = scatter2 Y else s = 1) /\
    forall t' b', squared_error2 (moved2 s t b) (zip X Y) <= squared_error2 (moved2 s t' b') (zip X Y).
Proof.
  intros Hs H1 H2 H3. destruct (affine_matrix_from_points_2d svd scale X Y) as [[[m b]|]|e] eqn:E.
  - destruct (fit2_spec _ _ _ _ _ _ Hs E) as (s & t & -> & Hp & Eb & Hk & _ & _ & Hsc).
    exists (mscale2 s (turn2 t)), b, s, t. repeat split; try done.
    + intros x. by rewrite moved2_affine.
    + destruct scale; [|done]. rewrite !scatter2_spread. apply Hsc.
    + intros t' b'. subst b. apply fit2_best; try done. by destruct X; cbn in H1; [lia|].
  - apply C78_plane_not_finite in E as [E Ha]; [|done|done]. by apply H3 in Ha.
  - exfalso. revert E. unfold affine_matrix_from_points_2d. rewrite H2, Nat.eqb_refl. replace (length Y <? 2)%nat with false by (symmetry; apply Nat.ltb_ge; lia). cbn [orb negb].
    by destruct scale, (Req_EM_T (spread2 (centred2 X)) 0).
Qed.
Lemma moved2_zip s a b X x y : (x, y) ∈ zip X (moved2 s a b <$> X) -> x ∈ X /\ y = moved2 s a b x.
Proof. induction X as [|z X IH]; [set_solver|]. cbn [zip_with fmap list_fmap]. intros [[= -> ->]|H]%elem_of_cons; [set_solver|]. apply IH in H as [? ?]. set_solver. Qed.
Lemma zip_moved2 s a b X x : x ∈ X -> (x, moved2 s a b x) ∈ zip X (moved2 s a b <$> X).
Proof. induction X as [|z X IH]; [set_solver|]. cbn [zip_with fmap list_fmap]. intros [->|H]%elem_of_cons; [left|right; by apply IH]. Qed.
Lemma find_or2 (x0 : R * R) (l : list (R * R)) : (exists x, x ∈ l /\ x <> x0) \/ (forall x, x ∈ l -> x = x0).
Proof.
  induction l as [|x l [(y & Hy & Py)|IH]]; [right; set_solver|left; exists y; set_solver|].
  assert ({x = x0} + {x <> x0}) as [->|N]. { destruct x as [a b], x0 as [c d]. destruct (Req_EM_T a c) as [->|N]; [|right; congruence]. destruct (Req_EM_T b d) as [->|N]; [by left|right; congruence]. }
  - right. intros z [->|Hz]%elem_of_cons; [done|by apply IH].
  - left. exists x. set_solver.
Qed.
Lemma plane_exact svd (scale : bool) s a b X : svd2_right svd X (moved2 s a b <$> X) -> (2 <= length X)%nat -> ~ all_equal X -> 0 < s -> (scale = false -> s = 1) ->
  exists m, affine_matrix_from_points_2d svd scale X (moved2 s a b <$> X) = Ok (Some (m, b)) /\ forall x, vadd2 (mvec2 m x) b = moved2 s a b x.
Proof.
  intros Hs H1 Hn Hp Hus. assert (X <> []) as Hne by (by destruct X; cbn in H1; [lia|]).
  destruct (C78_plane_least_squares svd scale X (moved2 s a b <$> X) Hs H1) as (m & b' & k & t & E & Hm & Hk & Hsc & Hb); [by rewrite fmap_length|done|].
  assert (0 < spread2 (centred2 X)) as Hpos. { pose proof (spread2_nonneg (centred2 X)). destruct (Req_dec (spread2 (centred2 X)) 0) as [Z|Z]; [|lra]. by apply centred2_zero in Z. }
  assert (k = s) as ->. { destruct scale; [|rewrite Hsc; symmetry; by apply Hus]. rewrite !scatter2_spread, spread2_moved in Hsc by done. apply Rmult_eq_reg_r in Hsc; [|lra]. nra. }
  specialize (Hb a b).
  assert (squared_error2 (moved2 s a b) (zip X (moved2 s a b <$> X)) = 0) as Z. { apply error2_exact. intros x y [_ ->]%moved2_zip. done. }
  assert (squared_error2 (moved2 s t b') (zip X (moved2 s a b <$> X)) = 0) as Z'. { pose proof (error2_nonneg (moved2 s t b') (zip X (moved2 s a b <$> X))). lra. }
  pose proof (error2_zero _ _ Z') as Z''.
  assert (forall x, x ∈ X -> moved2 s t b' x = moved2 s a b x) as Hx. { intros x Ix. apply Z''. by apply zip_moved2. }
  destruct X as [|x0 X]; [done|]. destruct (find_or2 x0 (x0 :: X)) as [(x1 & I1 & N1)|Ne].
  2: { destruct Hn. intros x y Ix Iy. by rewrite (Ne x), (Ne y). }
  pose proof (Hx x0 ltac:(left)) as E0. pose proof (Hx x1 I1) as E1. unfold moved2 in E0, E1. injection E0 as A1 A2. injection E1 as A3 A4.
  set (u := x1.1 - x0.1) in *. set (v := x1.2 - x0.2) in *. assert (0 < u * u + v * v) as Puv.
  { destruct (Req_dec (u * u + v * v) 0) as [Zu|Zu]; [|nra]. exfalso. apply N1. destruct (two_squares u v 0) as [U V]; [lra|lra|]. destruct x1, x0. unfold u, v in *. cbn in *. f_equal; lra. }
  assert (cos t * u - sin t * v = cos a * u - sin a * v) as B1 by (apply (Rmult_eq_reg_l s); [unfold u, v; lra|lra]).
  assert (sin t * u + cos t * v = sin a * u + cos a * v) as B2 by (apply (Rmult_eq_reg_l s); [unfold u, v; lra|lra]).
  assert (cos t = cos a) as C.
  { assert ((cos t - cos a) * (u * u + v * v) = 0) as Q; [|apply Rmult_integral in Q; lra].
    replace ((cos t - cos a) * (u * u + v * v)) with (u * (cos t * u - sin t * v - (cos a * u - sin a * v)) + v * (sin t * u + cos t * v - (sin a * u + cos a * v))) by ring. rewrite B1, B2. ring. }
  assert (sin t = sin a) as S.
  { assert ((sin t - sin a) * (u * u + v * v) = 0) as Q; [|apply Rmult_integral in Q; lra].
    replace ((sin t - sin a) * (u * u + v * v)) with (u * (sin t * u + cos t * v - (sin a * u + cos a * v)) - v * (cos t * u - sin t * v - (cos a * u - sin a * v))) by ring. rewrite B1, B2. ring. }
  assert (b' = b) as ->. { destruct b' as [b1 b2], b as [b3 b4]. cbn in *. rewrite C, S in *. f_equal; lra. }
  exists m. split; [done|]. intros x. rewrite Hm. unfold moved2. rewrite C, S. done.
Qed.

(** In the plane two different points are enough: the similarity that explains the points is found *)
Theorem C78_plane_exact svd s a b X : svd2_right svd X (moved2 s a b <$> X) -> (2 <= length X)%nat -> ~ all_equal X -> 0 < s ->
  exists m, affine_matrix_from_points_2d svd true X (moved2 s a b <$> X) = Ok (Some (m, b)) /\ forall x, vadd2 (mvec2 m x) b = moved2 s a b x.
Proof. intros. by apply plane_exact. Qed.

(** ** The robust fit *)
Lemma inliers_spec T pts th i : i ∈ inliers_under T pts th <-> exists t p, T = Some t /\ pts !! i = Some p /\ fit_error t p < th.
Proof.
  unfold inliers_under. destruct T as [t|]; [|split; [set_solver|naive_solver]]. rewrite elem_of_list_fmap.
  assert (forall k j q, (j, q) ∈ zip (seq k (length pts)) pts <-> (k <= j)%nat /\ pts !! (j - k)%nat = Some q) as Hz.
  { clear. induction pts as [|p pts IH]; intros k j q; [cbn; split; [set_solver|intros [_ H]; by destruct (j - k)%nat]|]. cbn [length seq zip_with]. rewrite elem_of_cons, IH. split.
    - intros [[= -> ->]|[H1 H2]]; [split; [lia|by rewrite Nat.sub_diag]|]. split; [lia|]. replace (j - k)%nat with (S (j - S k)) by lia. done.
    - intros [H1 H2]. destruct (decide (j = k)) as [->|N]; [left; rewrite Nat.sub_diag in H2; by injection H2 as ->|right]. split; [lia|].
      replace (j - k)%nat with (S (j - S k)) in H2 by lia. done. }
  split.
  - intros ([j p] & -> & H). apply elem_of_list_In, filter_In in H as [H1 H2]. apply elem_of_list_In, Hz in H1 as [_ H1]. rewrite Nat.sub_0_r in H1. cbn in *.
    destruct (Rlt_dec (fit_error t p) th) as [L|L]; [|done]. eauto 6.
  - intros (t' & p & [= <-] & H1 & H2). exists (i, p). split; [done|]. apply elem_of_list_In, filter_In. split; [|cbn; by destruct (Rlt_dec (fit_error t p) th)].
    apply elem_of_list_In, Hz. rewrite Nat.sub_0_r. split; [lia|done].
Qed.
Definition own (pts : list (vec * vec)) (th : R) (best : option (option (mat * vec)) * list nat) : Prop :=
  match best.1 with Some T => best.2 = inliers_under T pts th | None => best.2 = [] end.
Lemma fit_loop_own svd pts th draws best r : own pts th best -> fit_loop svd pts th draws best = Ok r -> own pts th r.
Proof.
  revert best. induction draws as [|d draws IH]; intros best Hb; cbn [fit_loop]; [by intros [= <-]|]. unfold fit_step.
  destruct (fit_rows svd pts (take 3 d)) as [T|e]; cbn [res_bind]; [|done]. destruct (length best.2 <=? length (inliers_under T pts th))%nat; cbn [res_bind]; intros H; (eapply IH; [|exact H]); done.
Qed.
(** The inliers returned are those of the transformation returned: the indices of the points brought nearer than the threshold *)
Theorem C78_robust_inliers svd draws p1 p2 th T inl : fit_similarity_transform svd draws p1 p2 th = Ok (Some (Some T), inl) ->
  forall i, i ∈ inl <-> exists x y, p1 !! i = Some x /\ p2 !! i = Some y /\ norm (vsub y (vadd (mvec T.1 x) T.2)) < th.
Proof.
  unfold fit_similarity_transform. destruct (length p1 =? length p2)%nat eqn:El; cbn [negb]; [|done]. apply Nat.eqb_eq in El.
  assert (forall i, (exists t p, Some T = Some t /\ zip p1 p2 !! i = Some p /\ fit_error t p < th) <-> exists x y, p1 !! i = Some x /\ p2 !! i = Some y /\ norm (vsub y (vadd (mvec T.1 x) T.2)) < th) as Hz.
  { intros i. split.
    - intros (t & [x y] & [= <-] & H1 & H2). apply lookup_zip_with_Some in H1 as (x' & y' & [= -> ->] & H3 & H4). eauto.
    - intros (x & y & H1 & H2 & H3). exists T, (x, y). split; [done|]. split; [|done]. apply lookup_zip_with_Some. eauto. }
  destruct (fit_loop svd (zip p1 p2) th draws (None, [])) as [best|e] eqn:Eb; cbn [res_bind]; [|done].
  assert (own (zip p1 p2) th best) as Ho by (eapply fit_loop_own; [|exact Eb]; done). destruct (3 + 3 <? length best.2)%nat.
  - destruct (fit_rows svd (zip p1 p2) best.2) as [T'|e]; cbn [res_bind]; [|done]. intros [= -> <-] i. rewrite <- Hz. exact (inliers_spec (Some T) (zip p1 p2) th i).
  - intros [= ->] i. change (inl = inliers_under (Some T) (zip p1 p2) th) in Ho. rewrite Ho, <- Hz. exact (inliers_spec (Some T) (zip p1 p2) th i).
Qed.
Lemma rows_fst X Y ids : length X = length Y -> fst <$> rows (zip X Y) ids = omap (fun i => X !! i) ids.
Proof.
  intros Hl. unfold rows. induction ids as [|i ids IH]; [done|]. cbn [omap list_omap]. destruct (zip X Y !! i) as [[x y]|] eqn:E.
  - apply lookup_zip_with_Some in E as (x' & y' & [= -> ->] & -> & _). cbn [fmap list_fmap]. f_equal. exact IH.
  - assert (X !! i = None) as ->; [|exact IH]. apply lookup_ge_None in E. rewrite zip_with_length in E. apply lookup_ge_None. lia.
Qed.
Lemma rows_snd s a b X ids : snd <$> rows (zip X (moved s a b <$> X)) ids = moved s a b <$> omap (fun i => X !! i) ids.
Proof.
  unfold rows. induction ids as [|i ids IH]; [done|]. cbn [omap list_omap]. destruct (zip X (moved s a b <$> X) !! i) as [[x y]|] eqn:E.
  - apply lookup_zip_with_Some in E as (x' & y' & [= -> ->] & E1 & E2). rewrite list_lookup_fmap, E1 in E2. injection E2 as <-. rewrite E1. cbn [fmap list_fmap]. f_equal. exact IH.
  - assert (X !! i = None) as ->; [|exact IH]. apply lookup_ge_None in E. rewrite zip_with_length, fmap_length in E. apply lookup_ge_None. lia.
Qed.
Definition chosen (X : list vec) (ids : list nat) : list vec := omap (fun i => X !! i) ids.
Lemma omap_seq {A} (pre X : list A) : omap (fun i => (pre ++ X) !! i) (seq (length pre) (length X)) = X.
Proof.
  revert pre. induction X as [|x X IH]; intros pre; [done|]. cbn [length seq omap list_omap]. rewrite list_lookup_middle by done. f_equal.
  specialize (IH (pre ++ [x])). rewrite app_length, <- app_assoc in IH. cbn in IH. rewrite Nat.add_1_r in IH. exact IH.
Qed.
Lemma chosen_seq X : chosen X (seq 0 (length X)) = X. Proof. apply (omap_seq []). Qed.
Lemma inliers_sublist T pts th : inliers_under T pts th `sublist_of` seq 0 (length pts).
Proof.
  unfold inliers_under. destruct T as [t|]; [|apply sublist_nil_l].
  assert (forall k (q : list (vec * vec)), (fun ip : nat * (vec * vec) => ip.1) <$> List.filter (fun ip => if Rlt_dec (fit_error t ip.2) th then true else false) (zip (seq k (length q)) q) `sublist_of` seq k (length q)) as H; [|apply H].
  intros k q. revert k. induction q as [|p q IH]; intros k; [done|]. cbn [length seq zip_with List.filter]. destruct (Rlt_dec _ th); [cbn [fmap list_fmap fst]; by apply sublist_skip|by apply sublist_cons].
Qed.
Lemma sublist_full {A} (l k : list A) : l `sublist_of` k -> (length k <= length l)%nat -> l = k.
Proof.
  induction 1 as [|x l k H IH|x l k H IH]; cbn; intros Hl; [done|f_equal; apply IH; lia|]. pose proof (sublist_length _ _ H). lia.
Qed.
Lemma inliers_all T pts th : (length pts <= length (inliers_under T pts th))%nat -> inliers_under T pts th = seq 0 (length pts).
Proof. intros H. pose proof (inliers_sublist T pts th) as Hs. apply sublist_full in Hs; [done|]. by rewrite seq_length. Qed.
Lemma chosen_length X ids : Forall (fun i => (i < length X)%nat) ids -> length (chosen X ids) = length ids.
Proof.
  unfold chosen. induction ids as [|i ids IH]; [done|]. intros H. inversion H as [|? ? H1 H2]; subst. cbn [omap list_omap].
  destruct (lookup_lt_is_Some_2 X i H1) as [x ->]. cbn [length]. by rewrite IH.
Qed.
Lemma fit_rows_exact svd s a b X ids : fit_rows svd (zip X (moved s a b <$> X)) ids = superimposition_matrix svd (chosen X ids) (moved s a b <$> chosen X ids) true.
Proof. unfold fit_rows, superimposition_matrix. rewrite rows_fst, rows_snd by (by rewrite fmap_length). done. Qed.
(** When all pairs are explained by one similarity and one of the samples is not on a line, that similarity is found, with all points as inliers,
    whatever the other samples are (more than six points, so that there is a final fit to all) *)
Theorem C78_robust_exact svd draws s a b X th :
  (forall d, d ∈ draws -> svd_right svd (chosen X (take 3 d)) (moved s a b <$> chosen X (take 3 d))) -> svd_right svd X (moved s a b <$> X) ->
  (6 < length X)%nat -> 0 < s -> rotation a -> 0 < th -> (forall d, d ∈ draws -> d ≡ₚ seq 0 (length X)) ->
  (exists d, d ∈ draws /\ ~ on_a_line (chosen X (take 3 d))) ->
  fit_similarity_transform svd draws X (moved s a b <$> X) th = Ok (Some (Some (mscale s a, b)), seq 0 (length X)).
Proof.
  intros Hs Hsa H6 Hp Ha Hth Hd (d0 & Hd0 & Hl0).
  assert (length X = length (moved s a b <$> X)) as El by (by rewrite fmap_length).
  set (pts := zip X (moved s a b <$> X)). assert (length pts = length X) as Ep by (unfold pts; rewrite zip_with_length, <- El, Nat.min_id; done).
  assert (inliers_under (Some (mscale s a, b)) pts th = seq 0 (length X)) as Eall.
  { unfold inliers_under. rewrite <- Ep. assert (Forall (fun ip : nat * (vec * vec) => fit_error (mscale s a, b) ip.2 < th) (zip (seq 0 (length pts)) pts)) as Hf.
    { apply Forall_forall. intros [i [x y]] Hin. apply elem_of_zip_r in Hin. apply moved_zip in Hin as [_ ->]. cbn. unfold fit_error. cbn. rewrite <- moved_affine.
      replace (vsub (moved s a b x) (moved s a b x)) with v0 by (generalize (moved s a b x); vring). by rewrite norm_v0. }
    assert (length (seq 0 (length pts)) = length pts) as Elen by apply seq_length. revert Hf Elen. generalize (seq 0 (length pts)). clear. intros l. revert l. generalize pts. induction pts0 as [|p q IH]; intros [|i l] Hf Elen; try done.
    cbn [zip_with List.filter] in *. inversion Hf as [|? ? H1 H2]; subst. destruct (Rlt_dec _ th) as [L|L]; [|done]. cbn [fmap list_fmap fst]. f_equal. apply IH; [done|]. by injection Elen. }
  assert (forall d best, d ∈ draws -> exists T, fit_step svd pts th best d = Ok (if (length best.2 <=? length (inliers_under T pts th))%nat then (Some T, inliers_under T pts th) else best) /\
     (~ on_a_line (chosen X (take 3 d)) -> T = Some (mscale s a, b))) as Hstep.
  { intros d best Hin. unfold fit_step, pts. rewrite fit_rows_exact. specialize (Hd d Hin). specialize (Hs d Hin).
    assert (length (chosen X (take 3 d)) = 3%nat) as E3.
    { rewrite chosen_length.
      - rewrite take_length. rewrite Hd, seq_length. lia.
      - apply Forall_take. rewrite Hd. apply Forall_forall. intros i Hi. apply elem_of_seq in Hi. lia. }
    destruct (superimposition_matrix svd (chosen X (take 3 d)) (moved s a b <$> chosen X (take 3 d)) true) as [T|e] eqn:E.
    - exists T. split; [cbn [res_bind]; by destruct (length best.2 <=? _)%nat|]. intros Hl.
      assert (~ all_equal (chosen X (take 3 d))) as Hn.
      { intros Heq. apply Hl. destruct (chosen X (take 3 d)) as [|x l] eqn:Ec; [done|]. exists x, v0. intros y Hy. exists 0. rewrite (Heq y x) by (try done; left). vring. }
      destruct (C78_exact svd s a b (chosen X (take 3 d)) Hs) as (r & b' & E' & _ & _ & Hu); [lia|done|done|done|]. destruct (Hu Hl) as [-> ->]. congruence.
    - exfalso. revert E. unfold superimposition_matrix, affine_matrix_from_points. rewrite fmap_length, E3, Nat.eqb_refl. cbn [orb negb Nat.ltb Nat.leb].
      by destruct (true && (if Req_EM_T (spread (centred (chosen X (take 3 d)))) 0 then true else false)). }
  assert (forall ds best, (forall d, d ∈ ds -> d ∈ draws) -> exists r, fit_loop svd pts th ds best = Ok r /\
     ((exists d, d ∈ ds /\ ~ on_a_line (chosen X (take 3 d))) \/ best.2 = seq 0 (length X) -> (length best.2 <= length X)%nat -> r.2 = seq 0 (length X))) as Hloop.
  { induction ds as [|d ds IH]; intros best Hds.
    - exists best. split; [done|]. intros [(d & Hin & _)|H] _; [set_solver|done].
    - destruct (Hstep d best ltac:(apply Hds; left)) as (T & Es & Ht). cbn [fit_loop]. rewrite Es. cbn [res_bind].
      set (best' := if (length best.2 <=? length (inliers_under T pts th))%nat then (Some T, inliers_under T pts th) else best).
      destruct (IH best' ltac:(intros; apply Hds; by right)) as (r & Er & Hr). exists r. split; [done|]. intros Hor Hle. apply Hr.
      + destruct Hor as [(d' & Hin & Hl)|Hb].
        * apply elem_of_cons in Hin as [->|Hin]; [|left; eauto]. right. unfold best'. rewrite (Ht Hl), Eall, seq_length.
          replace (length best.2 <=? length X)%nat with true by (symmetry; by apply Nat.leb_le). done.
        * right. unfold best'. destruct (Nat.leb_spec (length best.2) (length (inliers_under T pts th))) as [L|L]; [|done]. cbn [snd]. rewrite Hb, seq_length, <- Ep in L. rewrite <- Ep. by apply inliers_all.
      + unfold best'. destruct (length best.2 <=? length (inliers_under T pts th))%nat; [|done]. cbn [snd]. pose proof (sublist_length _ _ (inliers_sublist T pts th)) as L. by rewrite seq_length, Ep in L. }
  unfold fit_similarity_transform. rewrite <- El, Nat.eqb_refl. cbn [negb]. fold pts. destruct (Hloop draws (None, []) ltac:(done)) as (r & -> & Hr). cbn [res_bind].
  rewrite Hr; [|left; eauto|cbn; lia]. rewrite seq_length. replace (3 + 3 <? length X)%nat with true by (symmetry; apply Nat.ltb_lt; lia).
  unfold pts at 1. rewrite fit_rows_exact, chosen_seq.
  assert (~ on_a_line X) as HlX.
  { intros (c & d & Hx). apply Hl0. exists c, d. intros x Hin. apply Hx. unfold chosen in Hin. apply elem_of_list_omap in Hin as (i & _ & Hi). by eapply elem_of_list_lookup_2. }
  assert (~ all_equal X) as Hn.
  { intros Heq. apply HlX. destruct X as [|x l]; [cbn in H6; lia|]. exists x, v0. intros y Hy. exists 0. rewrite (Heq y x) by (try done; left). vring. }
  destruct (C78_exact svd s a b X Hsa) as (rr & b' & -> & _ & _ & Hu); [lia|done|done|done|]. destruct (Hu HlX) as [-> ->]. cbn [res_bind]. by rewrite Eall.
Qed.
Print Assumptions C78_refused. Print Assumptions C78_not_finite. Print Assumptions C78_least_squares. Print Assumptions C78_exact. Print Assumptions C78_scale_refuted.
Print Assumptions C78_decompose. Print Assumptions C78_plane_refused. Print Assumptions C78_plane_not_finite. Print Assumptions C78_plane_least_squares. Print Assumptions C78_plane_exact.
Print Assumptions C78_robust_inliers. Print Assumptions C78_robust_exact.

(** ** Cases *)
Definition quarter : mat := Mat 0 (-1) 0 1 0 0 0 0 1.
(** The decomposition of quarter . diagonal *)
Definition svd_quarter : svd_of := fun m => let d := mmul (mT quarter) m in (quarter, (m11 d, m22 d, m33 d), mI).
Definition seven : list vec := [Vec 2 0 0; Vec (-1) 1 0; Vec (-1) (-1) 0; Vec 0 0 1; Vec 0 0 (-1); Vec 3 0 0; Vec (-3) 0 0].
Lemma quarter_rotation : rotation quarter.
Proof. unfold rotation, quarter, mmul, mT, mI, det. cbn. split; [f_equal; ring|ring]. Qed.
Lemma seven_right X : X = seven \/ X = take 3 seven -> svd_right svd_quarter X (moved 2 quarter (Vec 1 2 3) <$> X).
Proof.
  intros HX. unfold svd_right. rewrite centred_moved by (by destruct HX as [-> | ->]).
  assert (centred X = X) as ->. { destruct HX as [-> | ->]; unfold seven; cbn [take]; unfold centred, vmean, vsum; cbn; repeat f_equal; cbv [vadd vopp vscale v0 vx vy vz]; f_equal; lra. }
  assert (exists d1 d2 d3, covariance ((fun x => vscale 2 (mvec quarter x)) <$> X) X = mmul quarter (Mat d1 0 0 0 d2 0 0 0 d3) /\ d1 >= d2 /\ d2 >= d3 /\ d3 >= 0) as (d1 & d2 & d3 & E & H1 & H2 & H3).
  { destruct HX as [-> | ->]; [exists 48, 4, 4|exists 12, 4, 0]; (split; [|lra]); unfold covariance, seven; cbn [take fmap list_fmap zip_with foldr]; cbv [madd outer mzero mmul mvec vscale quarter vx vy vz m11 m12 m13 m21 m22 m23 m31 m32 m33]; apply mat_eq; cbn [m11 m12 m13 m21 m22 m23 m31 m32 m33]; lra. }
  rewrite E. unfold svd_quarter. cbn zeta.
  replace (mmul (mT quarter) (mmul quarter (Mat d1 0 0 0 d2 0 0 0 d3))) with (Mat d1 0 0 0 d2 0 0 0 d3) by (by rewrite (mmul_assoc (mT quarter)), (rotation_l quarter quarter_rotation), mmul_I_l).
  unfold is_svd_of. cbn [m11 m22 m33]. split; [apply quarter_rotation|]. split; [apply rotation_I|]. split; [by rewrite mmul_I_r|]. done.
Qed.
Lemma three_not_line : ~ on_a_line (take 3 seven).
Proof.
  intros (c & d & H). destruct (H (Vec 2 0 0)) as [t1 E1]; [left|]. destruct (H (Vec (-1) 1 0)) as [t2 E2]; [right; left|]. destruct (H (Vec (-1) (-1) 0)) as [t3 E3]; [right; right; left|].
  destruct c as [c1 c2 c3], d as [e1 e2 e3]. unfold vadd, vscale in *. cbn in *. injection E1 as A1 A2 A3. injection E2 as B1 B2 B3. injection E3 as C1 C2 C3.
  assert ((t1 - t2) * e1 = 3) as P1 by lra. assert ((t1 - t2) * e2 = -1) as P2 by lra. assert ((t2 - t3) * e1 = 0) as P3 by lra. assert ((t2 - t3) * e2 = 2) as P4 by lra.
  assert (e1 <> 0) as N by (intros ->; lra). apply Rmult_integral in P3 as [P3|P3]; [|done]. rewrite P3 in P4. lra.
Qed.
(** Seven points turned by a quarter turn, doubled and shifted: the samples of both orders *)
Example C78_case : fit_similarity_transform svd_quarter [[0; 1; 2; 3; 4; 5; 6]%nat] seven (moved 2 quarter (Vec 1 2 3) <$> seven) 1 =
  Ok (Some (Some (mscale 2 quarter, Vec 1 2 3)), [0; 1; 2; 3; 4; 5; 6]%nat).
Proof.
  apply C78_robust_exact.
  - intros d ->%elem_of_list_singleton. apply seven_right. by right.
  - apply seven_right. by left.
  - cbn. lia.
  - lra.
  - apply quarter_rotation.
  - lra.
  - by intros d ->%elem_of_list_singleton.
  - eexists. split; [left|]. apply three_not_line.
Qed.
Example C78_case_plane : exists svd m, affine_matrix_from_points_2d svd true [(0, 0); (1, 0)] (moved2 3 0 (5, 6) <$> [(0, 0); (1, 0)]) = Ok (Some (m, (5, 6))) /\
  forall x, vadd2 (mvec2 m x) (5, 6) = moved2 3 0 (5, 6) x.
Proof.
  exists (fun m => (((1, 0), (0, 1)), (m.1.1, m.2.2), ((1, 0), (0, 1)))). apply C78_plane_exact.
  - unfold svd2_right. cbn zeta. set (m := covariance2 _ _). assert (m = Mat2 (3 / 2) 0 0 0) as ->.
    { unfold m, covariance2, centred2, vmean2, vsum2, moved2. cbn. rewrite cos_0, sin_0. unfold madd2, outer2, vsub2, vscale2, vadd2. cbn. f_equal; field. }
    unfold is_svd2_of. cbn. repeat split; lra.
  - cbn. lia.
  - intros H. assert ((0, 0) = (1, 0)) as [= E]; [|lra]. apply H; [left|right; left].
  - lra.
Qed.
