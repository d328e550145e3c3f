(** Proofs about the fit of similarities to point pairs *)
From stdpp Require Import prelude.
From Coq Require Import Reals Lra Psatz.
From Verif Require Import Base Lin RotModel RotProofs PlaneSpec PlaneProofs TriangModel FitModel FitSpec.
Local Open Scope R_scope.

(** ** Sums *)
Definition frob (a b : mat) : R :=
  m11 a * m11 b + m12 a * m12 b + m13 a * m13 b + m21 a * m21 b + m22 a * m22 b + m23 a * m23 b + m31 a * m31 b + m32 a * m32 b + m33 a * m33 b.
Definition trace (m : mat) : R := m11 m + m22 m + m33 m.
Ltac dv := repeat match goal with v : vec |- _ => destruct v | m : mat |- _ => destruct m end.
Ltac dreal := intros; dv; cbv [frob trace outer mzero dot cross det adj vadd vsub vopp vscale mvec mmul mT mscale madd mI v0 vx vy vz m11 m12 m13 m21 m22 m23 m31 m32 m33]; ring.
Ltac dvec := intros; dv; cbv [dot cross v0 vadd vsub vopp vscale vx vy vz]; f_equal; ring.
Lemma frob_outer r y x : frob r (outer y x) = dot y (mvec r x). Proof. dreal. Qed.
Lemma frob_madd r a b : frob r (madd a b) = frob r a + frob r b. Proof. dreal. Qed.
Lemma frob_zero r : frob r mzero = 0. Proof. dreal. Qed.
Lemma frob_svd r u s1 s2 s3 vh : frob r (mmul u (mmul (Mat s1 0 0 0 s2 0 0 0 s3) vh)) =
  s1 * m11 (mmul (mT u) (mmul r (mT vh))) + s2 * m22 (mmul (mT u) (mmul r (mT vh))) + s3 * m33 (mmul (mT u) (mmul r (mT vh))).
Proof. dreal. Qed.

Lemma error_linear s r : rotation r -> forall l, squared_error (fun x => vscale s (mvec r x)) l =
  spread (snd <$> l) - 2 * s * frob r (covariance (snd <$> l) (fst <$> l)) + s * s * spread (fst <$> l).
Proof.
  intros Hr. induction l as [|[x y] l IH].
  - unfold spread, covariance, sumR. cbn [fmap list_fmap foldr zip_with squared_error]. rewrite frob_zero. ring.
  - cbn [squared_error]. rewrite IH. unfold spread, covariance, sumR. cbn [fmap list_fmap foldr zip_with fst snd]. rewrite frob_madd, frob_outer.
    pose proof (dot_mvec r x x Hr) as E.
    replace (dot (vsub y (vscale s (mvec r x))) (vsub y (vscale s (mvec r x)))) with
      (dot y y - 2 * s * dot y (mvec r x) + s * s * dot (mvec r x) (mvec r x)) by (generalize (mvec r x); dreal).
    rewrite E. ring.
Qed.
Lemma error_shift m b c0 c1 l : squared_error (fun x => vadd (mvec m x) b) l =
  squared_error (mvec m) ((fun p => (vadd p.1 (vopp c0), vadd p.2 (vopp c1))) <$> l)
  + 2 * dot (vsub (vsub c1 (mvec m c0)) b) (vsub (vsum ((fun p => vadd p (vopp c1)) <$> (snd <$> l))) (mvec m (vsum ((fun p => vadd p (vopp c0)) <$> (fst <$> l)))))
  + INR (length l) * dot (vsub (vsub c1 (mvec m c0)) b) (vsub (vsub c1 (mvec m c0)) b).
Proof.
  induction l as [|[x y] l IH].
  - unfold vsum. cbn [squared_error fmap list_fmap foldr length INR]. rewrite mvec_0. dreal.
  - cbn [squared_error]. rewrite IH. unfold vsum. cbn [fmap list_fmap foldr fst snd squared_error length]. rewrite S_INR.
    set (sx := foldr vadd v0 ((fun p => vadd p (vopp c0)) <$> (fst <$> l))). set (sy := foldr vadd v0 ((fun p => vadd p (vopp c1)) <$> (snd <$> l))).
    clearbody sx sy. generalize (squared_error (mvec m) ((fun p : vec * vec => (vadd p.1 (vopp c0), vadd p.2 (vopp c1))) <$> l)) (INR (length l)). intros e n.
    rewrite !mvec_add, !mvec_opp. generalize (mvec m x) (mvec m c0) (mvec m sx). clear. dreal.
Qed.
Lemma vsum_shift c l : vsum ((fun p => vadd p (vopp c)) <$> l) = vsub (vsum l) (vscale (INR (length l)) c).
Proof.
  induction l as [|x l IH]; [unfold vsum; cbn; vring|]. cbn [fmap list_fmap length]. rewrite S_INR. unfold vsum in *. cbn [foldr]. rewrite IH.
  generalize (foldr vadd v0 l) (INR (length l)). vring.
Qed.
Lemma vsum_centred l : l <> [] -> vsum (centred l) = v0.
Proof.
  intros Hl. unfold centred. rewrite vsum_shift. unfold vmean. assert (INR (length l) <> 0) as H by (apply not_0_INR; destruct l; cbn; [done|lia]).
  rewrite vscale_vscale, Rinv_r, vscale_1 by done. generalize (vsum l). vring.
Qed.
(** The error of a map is the error of its linear part on the centred points, and what is left at the centroids *)
Lemma error_centred m b l : l <> [] -> squared_error (fun x => vadd (mvec m x) b) l =
  squared_error (mvec m) (zip (centred (fst <$> l)) (centred (snd <$> l)))
  + INR (length l) * dot (vsub (vsub (vmean (snd <$> l)) (mvec m (vmean (fst <$> l)))) b) (vsub (vsub (vmean (snd <$> l)) (mvec m (vmean (fst <$> l)))) b).
Proof.
  intros Hl. rewrite (error_shift m b (vmean (fst <$> l)) (vmean (snd <$> l))).
  pose proof (vsum_centred (fst <$> l)) as E1. pose proof (vsum_centred (snd <$> l)) as E2. unfold centred in E1, E2.
  rewrite E1, E2 by (by intros ?%fmap_nil_inv). rewrite mvec_0.
  assert ((fun p : vec * vec => (vadd p.1 (vopp (vmean (fst <$> l))), vadd p.2 (vopp (vmean (snd <$> l))))) <$> l =
    zip (centred (fst <$> l)) (centred (snd <$> l))) as ->.
  { unfold centred. generalize (vmean (fst <$> l)) (vmean (snd <$> l)). intros c0 c1. clear. induction l as [|[x y] l IH]; [done|]. cbn [fmap list_fmap fst snd zip_with]. f_equal. exact IH. }
  replace (dot _ (vsub v0 v0)) with 0; [ring|]. generalize (vsub (vsub (vmean (snd <$> l)) (mvec m (vmean (fst <$> l)))) b). dreal.
Qed.

Lemma sub_eq x y : vsub x y = v0 -> x = y.
Proof. destruct x, y. unfold vsub, v0; cbn; intros [= ]. f_equal; lra. Qed.
Lemma add_opp_eq x y : vadd x (vopp y) = v0 -> x = y.
Proof. destruct x, y. unfold vadd, vopp, v0; cbn; intros [= ]. f_equal; lra. Qed.

(** ** The rotation from the decomposition is the best one *)
Lemma trace_low r : rotation r -> -1 <= trace r.
Proof.
  intros H. destruct (quaternion_spec r H) as [U <-]. destruct (quaternion r) as [w [x y z]]. unfold trace, qmat, dot in *. cbn in *. nra.
Qed.
Lemma diag_le q : mmul q (mT q) = mI -> m11 q <= 1 /\ m22 q <= 1 /\ m33 q <= 1.
Proof. destruct q. unfold mmul, mT, mI. cbn. intros [= ]. repeat split; nra. Qed.
Lemma rotation_of_orthogonal m : mmul m (mT m) = mI -> 0 < det m -> rotation m.
Proof. intros H D. split; [done|]. pose proof (orthogonal_det m H). nra. Qed.
Lemma rotation_neg m : mmul m (mT m) = mI -> det m < 0 -> rotation (mscale (-1) m).
Proof.
  intros H D. split; [|rewrite det_mscale; pose proof (orthogonal_det m H); nra].
  replace (mmul (mscale (-1) m) (mT (mscale (-1) m))) with (mmul m (mT m)); [done|]. vring.
Qed.
Lemma orthogonal_mmul a b : mmul a (mT a) = mI -> mmul b (mT b) = mI -> mmul (mmul a b) (mT (mmul a b)) = mI.
Proof. intros Ha Hb. rewrite mT_mmul, mmul_assoc, <- (mmul_assoc a b), Hb, mmul_I_r. done. Qed.
Lemma last_flip u vh : mmul (mT u) (madd (mmul u vh) (mscale (-1) (outer (last_column u) (vscale 2 (last_row vh))))) = 
  mmul (mmul (mT u) u) (madd vh (mscale (-1) (outer (Vec 0 0 1) (vscale 2 (last_row vh))))).
Proof.
  replace (outer (last_column u) (vscale 2 (last_row vh))) with (mmul u (outer (Vec 0 0 1) (vscale 2 (last_row vh)))).
  - generalize (outer (Vec 0 0 1) (vscale 2 (last_row vh))). intros o. rewrite <- (mmul_assoc (mT u) u). f_equal. vring.
  - destruct u, vh. unfold outer, last_column, last_row, mmul, vscale. cbn. f_equal; ring.
Qed.
Lemma flip_diag vh : madd vh (mscale (-1) (outer (Vec 0 0 1) (vscale 2 (last_row vh)))) = mmul (Mat 1 0 0 0 1 0 0 0 (-1)) vh.
Proof. destruct vh. unfold outer, last_row, mmul, vscale, madd, mscale. cbn. f_equal; ring. Qed.
Lemma flip_matrix u vh : madd (mmul u vh) (mscale (-1) (outer (last_column u) (vscale 2 (last_row vh)))) = mmul u (mmul (Mat 1 0 0 0 1 0 0 0 (-1)) vh).
Proof. destruct u, vh. unfold outer, last_row, last_column, mmul, vscale, madd, mscale. cbn. f_equal; ring. Qed.
Lemma det_flip : det (Mat 1 0 0 0 1 0 0 0 (-1)) = -1. Proof. unfold det. cbn. ring. Qed.
Lemma flip_orthogonal : mmul (Mat 1 0 0 0 1 0 0 0 (-1)) (mT (Mat 1 0 0 0 1 0 0 0 (-1))) = mI.
Proof. unfold mmul, mT, mI. cbn. f_equal; ring. Qed.
Lemma conj_middle u d vh : mmul u (mT u) = mI -> mmul vh (mT vh) = mI -> mmul (mT u) (mmul (mmul u (mmul d vh)) (mT vh)) = d.
Proof.
  intros Hu Hv. rewrite <- (mmul_assoc u), <- (mmul_assoc d), Hv, mmul_I_r, mmul_assoc, (orthogonal_l u Hu), mmul_I_l. done.
Qed.

Lemma kabsch_rotation (svd : svd_of) m : is_svd_of m (svd m) -> rotation (kabsch svd m).
Proof.
  intros Hs. unfold kabsch. destruct (svd m) as [[u [[s1 s2] s3]] vh]. destruct Hs as (Hu & Hv & _).
  pose proof (orthogonal_mmul u vh Hu Hv) as Ho. destruct (Rlt_dec (det (mmul u vh)) 0) as [D|D].
  - rewrite flip_matrix. apply rotation_of_orthogonal.
    + apply orthogonal_mmul; [done|]. apply orthogonal_mmul; [apply flip_orthogonal|done].
    + rewrite !det_mmul, det_flip. rewrite det_mmul in D. lra.
  - apply rotation_of_orthogonal; [done|]. pose proof (orthogonal_det _ Ho). nra.
Qed.
Lemma kabsch_best (svd : svd_of) m r : is_svd_of m (svd m) -> rotation r -> frob r m <= frob (kabsch svd m) m.
Proof.
  intros Hs Hr. unfold kabsch. destruct (svd m) as [[u [[s1 s2] s3]] vh]. destruct Hs as (Hu & Hv & Em & S12 & S23 & S3). rewrite Em. clear Em m.
  set (q := mmul (mT u) (mmul r (mT vh))).
  assert (mmul q (mT q) = mI) as Hq.
  { apply orthogonal_mmul; [by apply orthogonal_T|]. apply orthogonal_mmul; [apply Hr|by apply orthogonal_T]. }
  assert (det q = det (mmul u vh)) as Dq. { unfold q. rewrite !det_mmul, !det_T. destruct Hr as [_ ->]. ring. }
  pose proof (diag_le q Hq) as (q1 & q2 & q3). rewrite (frob_svd r). fold q.
  destruct (Rlt_dec (det (mmul u vh)) 0) as [D|D].
  - rewrite flip_matrix, frob_svd, conj_middle by done. cbn [m11 m22 m33]. rewrite <- Dq in D.
    pose proof (trace_low _ (rotation_neg q Hq D)) as T. unfold trace in T. destruct q. cbn in *.
    assert ((s1 - s3) * (1 - m11) >= 0) by nra. assert ((s2 - s3) * (1 - m22) >= 0) by nra. assert (s3 * (1 - (m11 + m22 + m33)) >= 0) by nra. nra.
  - replace (mmul u vh) with (mmul u (mmul mI vh)) at 1 by (by rewrite mmul_I_l). rewrite frob_svd, conj_middle by done. cbn [mI m11 m22 m33].
    assert (s1 * (1 - m11 q) >= 0) by nra. assert (s2 * (1 - m22 q) >= 0) by nra. assert (s3 * (1 - m33 q) >= 0) by nra. nra.
Qed.
Lemma spread_nonneg l : 0 <= spread l.
Proof. unfold spread, sumR. induction l as [|x l IH]; cbn; [lra|]. pose proof (dot_nonneg x). unfold spread, sumR in IH. lra. Qed.
Lemma spread_zero l : spread l = 0 -> forall x, x ∈ l -> x = v0.
Proof.
  induction l as [|y l IH]; [set_solver|]. unfold spread, sumR in *. cbn [fmap list_fmap foldr]. intros H x Hx.
  pose proof (dot_nonneg y). pose proof (spread_nonneg l) as H2. unfold spread, sumR in H2.
  apply elem_of_cons in Hx as [->|Hx]; [apply dot_0; lra|]. apply IH; [lra|done].
Qed.
Lemma centred_length l : length (centred l) = length l. Proof. apply fmap_length. Qed.
Lemma zip_fst {A B} (l : list A) (k : list B) : length l = length k -> fst <$> zip l k = l.
Proof. revert k. induction l as [|x l IH]; intros [|y k]; cbn; try done. intros [= H]. f_equal. by apply IH. Qed.
Lemma zip_snd {A B} (l : list A) (k : list B) : length l = length k -> snd <$> zip l k = k.
Proof. revert k. induction l as [|x l IH]; intros [|y k]; cbn; try done. intros [= H]. f_equal. by apply IH. Qed.

(** The result of the fit *)
(** The decomposition of the covariance of the two sets of points is right *)
Definition svd_right (svd : svd_of) (X Y : list vec) : Prop := is_svd_of (covariance (centred Y) (centred X)) (svd (covariance (centred Y) (centred X))).
Lemma fit_spec svd scale X Y m b : svd_right svd X Y -> affine_matrix_from_points svd scale X Y = Ok (Some (m, b)) ->
  exists s r, m = mscale s r /\ rotation r /\ 0 <= s /\ b = vsub (vmean Y) (mvec m (vmean X)) /\ r = kabsch svd (covariance (centred Y) (centred X)) /\
    length X = length Y /\ (3 <= length X)%nat /\ (if scale then s * s * spread (centred X) = spread (centred Y) /\ spread (centred X) <> 0 else s = 1).
Proof.
  intros Hs. unfold affine_matrix_from_points. destruct ((length X <? 3)%nat || negb (length X =? length Y)%nat) eqn:E; [done|].
  apply orb_false_iff in E as [E1 E2]. apply Nat.ltb_ge in E1. apply negb_false_iff, Nat.eqb_eq in E2.
  pose proof (kabsch_rotation svd (covariance (centred Y) (centred X)) Hs) as Hk. set (r := kabsch svd (covariance (centred Y) (centred X))) in *. clearbody r.
  destruct scale; cbn [andb].
  - destruct (Req_EM_T (spread (centred X)) 0) as [Z|Z]; [done|]. intros [= <- <-]. pose proof (spread_nonneg (centred X)). pose proof (spread_nonneg (centred Y)).
    exists (sqrt (spread (centred Y) / spread (centred X))), r. repeat split; try done; [apply Hk|apply Hk|apply sqrt_pos| |].
    + generalize (mscale (sqrt (spread (centred Y) / spread (centred X))) r) (vmean X) (vmean Y). vring.
    + rewrite sqrt_sqrt; [field; done|]. apply Rle_mult_inv_pos; [done|]. lra.
  - intros [= <- <-]. exists 1, r. repeat split; try done; [by rewrite mscale_1|apply Hk|apply Hk|lra|].
    generalize r (vmean X) (vmean Y). vring.
Qed.
Lemma error_ext f g l : (forall x, f x = g x) -> squared_error f l = squared_error g l.
Proof. intros H. induction l as [|[x y] l IH]; [done|]. cbn. by rewrite H, IH. Qed.
Lemma moved_affine s r b x : moved s r b x = vadd (mvec (mscale s r) x) b.
Proof. unfold moved. by rewrite mvec_mscale. Qed.
Lemma error_similarity s r b X Y : rotation r -> length X = length Y -> X <> [] -> squared_error (moved s r b) (zip X Y) =
  spread (centred Y) - 2 * s * frob r (covariance (centred Y) (centred X)) + s * s * spread (centred X)
  + INR (length X) * dot (vsub (vsub (vmean Y) (mvec (mscale s r) (vmean X))) b) (vsub (vsub (vmean Y) (mvec (mscale s r) (vmean X))) b).
Proof.
  intros Hr Hl Hn. rewrite (error_ext _ _ _ (moved_affine s r b)).
  rewrite error_centred; [|destruct X, Y; done]. rewrite zip_fst, zip_snd, zip_with_length, <- Hl, Nat.min_id by done.
  rewrite (error_ext (mvec (mscale s r)) (fun x => vscale s (mvec r x))); [|intros x; apply mvec_mscale].
  rewrite error_linear by done. rewrite zip_fst, zip_snd by (rewrite !centred_length; done). done.
Qed.
Lemma fit_best svd X Y s r r' b' : svd_right svd X Y -> 0 <= s -> length X = length Y -> X <> [] -> r = kabsch svd (covariance (centred Y) (centred X)) -> rotation r' ->
  squared_error (moved s r (vsub (vmean Y) (mvec (mscale s r) (vmean X)))) (zip X Y) <= squared_error (moved s r' b') (zip X Y).
Proof.
  intros Hs Hp Hl Hn Hr Hr'. rewrite error_similarity; [|subst r; by apply kabsch_rotation|done|done]. rewrite (error_similarity s r' b' X Y) by done.
  pose proof (kabsch_best svd (covariance (centred Y) (centred X)) r' Hs Hr') as K. rewrite <- Hr in K.
  replace (vsub (vsub (vmean Y) (mvec (mscale s r) (vmean X))) (vsub (vmean Y) (mvec (mscale s r) (vmean X)))) with v0 by (generalize (mvec (mscale s r) (vmean X)) (vmean Y); vring).
  replace (dot v0 v0) with 0 by (cbv [dot v0]; cbn; ring).
  pose proof (dot_nonneg (vsub (vsub (vmean Y) (mvec (mscale s r') (vmean X))) b')). pose proof (pos_INR (length X)).
  assert (2 * s * frob r' (covariance (centred Y) (centred X)) <= 2 * s * frob r (covariance (centred Y) (centred X))) by (apply Rmult_le_compat_l; lra). nra.
Qed.
Lemma error_nonneg f l : 0 <= squared_error f l.
Proof. induction l as [|[x y] l IH]; cbn; [lra|]. pose proof (dot_nonneg (vsub y (f x))). lra. Qed.
Lemma error_zero f l : squared_error f l = 0 <-> forall x y, (x, y) ∈ l -> f x = y.
Proof.
  induction l as [|[x y] l IH]; [cbn; split; [set_solver|done]|]. cbn. pose proof (dot_nonneg (vsub y (f x))). pose proof (error_nonneg f l). split.
  - intros H1 x' y' [[= -> ->]|Hx]%elem_of_cons; [|apply IH; [lra|done]].
    assert (vsub y (f x) = v0) as E by (apply dot_0; lra). by apply sub_eq in E.
  - intros H1. rewrite (H1 x y) by set_solver. assert (squared_error f l = 0) as ->. { apply IH. intros. apply H1. set_solver. }
    replace (vsub y y) with v0 by vring. cbv [dot v0]. cbn. ring.
Qed.
Lemma vmean_moved s r b l : l <> [] -> vmean (moved s r b <$> l) = moved s r b (vmean l).
Proof.
  intros Hl. unfold vmean. rewrite fmap_length. assert (INR (length l) <> 0) as H by (apply not_0_INR; destruct l; cbn; [done|lia]).
  assert (vsum (moved s r b <$> l) = vadd (vscale s (mvec r (vsum l))) (vscale (INR (length l)) b)) as ->.
  { clear. induction l as [|x l IH]; [unfold vsum; cbn; vring|]. cbn [fmap list_fmap length]. rewrite S_INR. unfold vsum in *. cbn [foldr]. rewrite IH.
    unfold moved. rewrite mvec_add. generalize (mvec r x) (mvec r (foldr vadd v0 l)) (INR (length l)). vring. }
  unfold moved. rewrite vscale_add, (vscale_vscale _ (INR (length l))), Rinv_l, vscale_1, mvec_scale by done. f_equal. generalize (mvec r (vsum l)) (/ INR (length l)). vring.
Qed.
Lemma centred_moved s r b l : l <> [] -> centred (moved s r b <$> l) = (fun x => vscale s (mvec r x)) <$> centred l.
Proof.
  intros Hl. unfold centred. rewrite vmean_moved by done. rewrite <- !list_fmap_compose. apply list_fmap_ext. intros _ x _. cbn. unfold moved.
  rewrite mvec_add, mvec_opp. generalize (mvec r x) (mvec r (vmean l)). vring.
Qed.
Lemma spread_moved s r b l : rotation r -> l <> [] -> spread (centred (moved s r b <$> l)) = s * s * spread (centred l).
Proof.
  intros Hr Hl. rewrite centred_moved by done. unfold spread, sumR. generalize (centred l). intros k. induction k as [|x k IH]; [cbn; ring|].
  cbn [fmap list_fmap foldr]. rewrite IH. assert (dot (vscale s (mvec r x)) (vscale s (mvec r x)) = s * s * dot x x) as ->; [|ring].
  rewrite <- (dot_mvec r x x Hr). generalize (mvec r x). dreal.
Qed.
Lemma centred_zero l : spread (centred l) = 0 -> all_equal l.
Proof.
  intros H x y Hx Hy. pose proof (spread_zero _ H) as Z. assert (forall z, z ∈ l -> z = vmean l) as E; [|by rewrite (E x), (E y)].
  intros z Hz. assert (vadd z (vopp (vmean l)) = v0) as E. { apply Z. unfold centred. apply elem_of_list_fmap. eauto. }
  by apply add_opp_eq.
Qed.
Lemma all_equal_centred l : all_equal l -> spread (centred l) = 0.
Proof.
  intros H. destruct l as [|x l]; [unfold spread, sumR, centred; cbn; ring|].
  assert (forall k, (forall y, y ∈ k -> y = x) -> vsum k = vscale (INR (length k)) x) as V.
  { induction k as [|y k IH]; intros Hk; [unfold vsum; cbn; vring|]. cbn [length]. rewrite S_INR. unfold vsum in *. cbn [foldr]. rewrite IH by set_solver.
    rewrite (Hk y) by set_solver. generalize (INR (length k)). vring. }
  assert (vmean (x :: l) = x) as M.
  { unfold vmean. rewrite V by (intros y Hy; by apply H; [|left]). rewrite vscale_vscale, Rinv_l by (apply not_0_INR; cbn; lia). apply vscale_1. }
  unfold spread, centred. rewrite M. assert (forall k, (forall y, y ∈ k -> y = x) -> sumR ((fun p => dot p p) <$> ((fun p => vadd p (vopp x)) <$> k)) = 0) as S.
  { unfold sumR. induction k as [|y k IH]; intros Hk; [done|]. cbn [fmap list_fmap foldr]. rewrite IH by set_solver. rewrite (Hk y) by set_solver.
    rewrite vadd_opp. cbv [dot v0]. cbn. ring. }
  apply S. intros y Hy. by apply H; [|left].
Qed.

(** ** A rotation is known from its values on two directions *)
Lemma two_directions a b d1 d2 : rotation a -> rotation b -> mvec a d1 = mvec b d1 -> mvec a d2 = mvec b d2 -> cross d1 d2 <> v0 -> a = b.
Proof.
  intros Ha Hb H1 H2 Hc. apply mvec_inj'. intros v.
  assert (mvec a (cross d1 d2) = mvec b (cross d1 d2)) as H3 by (rewrite <- !cross_rotation by done; by rewrite H1, H2).
  assert (0 < dot (cross d1 d2) (cross d1 d2)) as P.
  { destruct (Req_dec (dot (cross d1 d2) (cross d1 d2)) 0) as [E|E]; [by apply dot_0 in E|]. pose proof (dot_nonneg (cross d1 d2)). lra. }
  set (c := cross d1 d2) in *. 
  assert (v = vadd (vadd (vscale (dot (cross d2 c) v / dot c c) d1) (vscale (dot (cross c d1) v / dot c c) d2)) (vscale (dot c v / dot c c) c)) as E.
  { assert (vscale (dot c c) v = vadd (vadd (vscale (dot (cross d2 c) v) d1) (vscale (dot (cross c d1) v) d2)) (vscale (dot c v) c)) as E.
    { unfold c. clear. dvec. }
    transitivity (vscale (/ dot c c) (vscale (dot c c) v)); [rewrite vscale_vscale, Rinv_l, vscale_1 by lra; done|]. rewrite E.
    generalize (dot (cross d2 c) v) (dot (cross c d1) v) (dot c v) (/ dot c c) c. clear. unfold Rdiv. vring. }
  rewrite E. rewrite !mvec_add, !mvec_scale, H1, H2, H3. done.
Qed.
Definition veq_dec (u v : vec) : {u = v} + {u <> v}.
Proof.
  destruct u as [a b c], v as [d e f]. destruct (Req_EM_T a d) as [->|N]; [|right; congruence]. destruct (Req_EM_T b e) as [->|N]; [|right; congruence].
  destruct (Req_EM_T c f) as [->|N]; [by left|right; congruence].
Defined.
Lemma find_or (P : vec -> Prop) (Pd : forall x, {P x} + {~ P x}) (l : list vec) : (exists x, x ∈ l /\ P x) \/ (forall x, x ∈ l -> ~ P x).
Proof.
  induction l as [|x l [(y & Hy & Py)|IH]]; [right; set_solver|left; exists y; set_solver|]. destruct (Pd x) as [Px|Nx]; [left; exists x; set_solver|].
  right. intros z [->|Hz]%elem_of_cons; [done|by apply IH].
Qed.
Lemma not_on_line l : ~ on_a_line l -> exists x0 x1 x2, x0 ∈ l /\ x1 ∈ l /\ x2 ∈ l /\ cross (vsub x1 x0) (vsub x2 x0) <> v0.
Proof.
  intros H. destruct l as [|x0 l]; [destruct H; exists v0, v0; set_solver|].
  destruct (find_or (fun x => x <> x0) (fun x => match veq_dec x x0 with left e => right (fun n => n e) | right n => left n end) (x0 :: l)) as [(x1 & H1 & N1)|E].
  - destruct (find_or (fun x => cross (vsub x1 x0) (vsub x x0) <> v0)
      (fun x => match veq_dec (cross (vsub x1 x0) (vsub x x0)) v0 with left e => right (fun n => n e) | right n => left n end) (x0 :: l)) as [(x2 & H2 & N2)|E].
    + exists x0, x1, x2. repeat split; [left|done|done|done].
    + destruct H. exists x0, (vsub x1 x0). intros x Hx. specialize (E x Hx). destruct (veq_dec (cross (vsub x1 x0) (vsub x x0)) v0) as [Z|Z]; [|done].
      set (d := vsub x1 x0) in *. set (w := vsub x x0) in *. assert (d <> v0) as Nd.
      { intros Ed. apply N1. by apply sub_eq. }
      assert (0 < dot d d) as P. { destruct (Req_dec (dot d d) 0) as [Ez|Ez]; [by apply dot_0 in Ez|]. pose proof (dot_nonneg d). lra. }
      exists (dot d w / dot d d).
      assert (vscale (dot d d) w = vscale (dot d w) d) as Ew.
      { assert (vsub (vscale (dot d w) d) (vscale (dot d d) w) = cross d (cross d w)) as E1 by (clear; generalize d w; dvec).
        rewrite Z in E1. replace (cross d v0) with v0 in E1 by (clear; generalize d; dvec).
        symmetry. by apply sub_eq. }
      transitivity (vadd x0 w); [unfold w; vring|]. f_equal.
      transitivity (vscale (/ dot d d) (vscale (dot d d) w)); [rewrite vscale_vscale, Rinv_l, vscale_1 by lra; done|].
      rewrite Ew, vscale_vscale. f_equal. unfold Rdiv. ring.
  - destruct H. exists x0, v0. intros x Hx. exists 0. specialize (E x Hx). destruct (veq_dec x x0) as [->|N]; [vring|done].
Qed.
