(** Proofs about the factorizations of camera matrices and homographies. *)
From stdpp Require Import prelude.
From Coq Require Import Reals Lra Lia Psatz.
From Verif Require Import Base Lin FitModel FitSpec FitProofs PlaneProofs MultiviewModel MultiviewSpec.
Local Open Scope R_scope.

Ltac mats := cbv [mvec mmul mT mscale madd mI det flipud fliplr diag vscale vopp vx vy vz m11 m12 m13 m21 m22 m23 m31 m32 m33] in *.

Lemma rq_correct qr a : is_qr_of (mT (flipud a)) (qr (mT (flipud a))) -> let '(k, r) := rq qr a in upper k /\ mmul r (mT r) = mI /\ mmul k r = a.
Proof.
  unfold rq. destruct (qr (mT (flipud a))) as [q r]. intros (Hq & Hu & Hm). cbn [fst snd] in *.
  pose proof (orthogonal_l q Hq) as Hq'. split; [|split].
  - destruct Hu as (H1 & H2 & H3). destruct r. unfold upper. mats. auto.
  - clear -Hq'. destruct q. mats. injection Hq' as. f_equal; lra.
  - assert (flipud a = mmul (mT r) (mT q)) as E by (rewrite <- mT_mmul, Hm, mT_T; done).
    assert (a = flipud (flipud a)) as -> by (destruct a; reflexivity). rewrite E. clear. destruct r, q. mats. f_equal; ring.
Qed.
Lemma sign_sq x : x <> 0 -> sign x * sign x = 1 /\ 0 < x * sign x.
Proof. intros H. unfold sign. destruct (Rlt_dec 0 x); [lra|]. destruct (Rlt_dec x 0); lra. Qed.
Lemma sign_0 x : x = 0 -> sign x = 0.
Proof. intros ->. unfold sign. destruct (Rlt_dec 0 0); [lra|]. destruct (Rlt_dec 0 0); lra. Qed.
Lemma upper_det k : upper k -> det k = m11 k * m22 k * m33 k.
Proof. intros (H1 & H2 & H3). destruct k. mats. subst. ring. Qed.
Lemma minv_r k : det k <> 0 -> forall v, mvec k (mvec (minv k) v) = v.
Proof.
  intros H v. rewrite <- mvec_mmul. unfold minv. assert (mmul k (mscale (/ det k) (adj k)) = mscale (/ det k) (mmul k (adj k))) as -> by vring. rewrite adj_r.
  assert (mscale (/ det k) (mscale (det k) mI) = mscale (/ det k * det k) mI) as -> by vring. rewrite Rinv_l by done. rewrite mscale_1. apply mvec_I.
Qed.

Lemma factorize qr M p : is_qr_of (mT (flipud M)) (qr (mT (flipud M))) -> det M <> 0 ->
  exists K R t l, KRt_from_P qr (M, p) = Ok (K, R, t) /\ calibration K /\ rotation R /\ l <> 0 /\ M = mscale l (mmul K R) /\ p = vscale l (mvec K t).
Proof.
  intros Hqr HM. unfold KRt_from_P. cbn [fst snd]. pose proof (rq_correct qr M Hqr) as H. destruct (rq qr M) as [k r]. destruct H as (Hu & Hr & Hm).
  pose proof (orthogonal_det r Hr) as Hdr. assert (det k <> 0) as Hk by (intros E; apply HM; rewrite <- Hm, det_mmul, E; ring).
  rewrite (upper_det k Hu) in Hk. assert (m11 k <> 0 /\ m22 k <> 0 /\ m33 k <> 0) as (H1 & H2 & H3) by (repeat split; intros E; apply Hk; rewrite E; ring).
  destruct (sign_sq _ H1) as [S1 P1]. destruct (sign_sq _ H2) as [S2 P2]. destruct (sign_sq _ H3) as [S3 P3].
  set (s1 := sign (m11 k)) in *. set (s2 := sign (m22 k)) in *. set (s3 := sign (m33 k)) in *. set (T := diag s1 s2 s3).
  assert (mmul T T = mI) as HTT by (unfold T; mats; f_equal; lra). assert (mT T = T) as HT by (unfold T; mats; done).
  set (k' := mmul k T). set (r' := mmul T r).
  assert (upper k') as Hu' by (destruct Hu as (U1 & U2 & U3); unfold k', T, upper; destruct k; mats; subst; repeat split; ring).
  assert (mmul k' r' = M) as Hm' by (unfold k', r'; rewrite <- mmul_assoc, (mmul_assoc T T), HTT, mmul_I_l; done).
  assert (mmul r' (mT r') = mI) as Hr' by (unfold r'; rewrite mT_mmul, HT, mmul_assoc, <- (mmul_assoc T r), Hr, mmul_I_r; done).
  assert (0 < m11 k' /\ 0 < m22 k' /\ 0 < m33 k') as (Q1 & Q2 & Q3) by (destruct Hu as (U1 & U2 & U3); unfold k', T; destruct k; mats; subst; repeat split; lra).
  assert (det k' <> 0) as Hk'. { rewrite (upper_det k' Hu'). apply Rmult_integral_contrapositive_currified; [apply Rmult_integral_contrapositive_currified|]; lra. }
  unfold solve. destruct (Req_EM_T (det k') 0) as [E|_]; [done|]. cbn [res_bind].
  pose proof (orthogonal_det r' Hr') as Hd. pose proof (minv_r k' Hk' p) as Ht. set (t := mvec (minv k') p) in *.
  clearbody t k' r'. clear P1 P2 P3.
  assert (calibration (mscale (/ m33 k') k')) as Hc.
  { clear -Hu' Q1 Q2 Q3. destruct Hu' as (U1 & U2 & U3). unfold calibration, upper. pose proof (Rinv_0_lt_compat _ Q3) as Hi. destruct k'. mats. subst. repeat split; try ring; try (apply Rmult_lt_0_compat; done). field. lra. }
  destruct (Rlt_dec (det r') 0) as [D|D].
  - exists (mscale (/ m33 k') k'), (mscale (-1) r'), (vopp t), (- m33 k'). split; [done|]. split; [done|]. split; [|split; [lra|]].
    + split; [|clear -D Hd; destruct r'; mats; nra]. rewrite <- Hr'. clear. destruct r'. mats. f_equal; ring.
    + rewrite <- Hm', <- Ht. clear -Q3. destruct k', r', t. mats. split; f_equal; field; lra.
  - exists (mscale (/ m33 k') k'), r', t, (m33 k'). split; [done|]. split; [done|]. split; [|split; [lra|]].
    + apply rotation_of_orthogonal; [done|]. nra.
    + rewrite <- Hm', <- Ht. clear -Q3. destruct k', r', t. mats. split; f_equal; field; lra.
Qed.

Lemma calibration_unique K K' S l : calibration K -> calibration K' -> rotation S -> mmul K S = mscale l K' -> S = mI /\ l = 1 /\ K = K'.
Proof.
  intros ((U1 & U2 & U3) & P1 & P2 & P3) ((U1' & U2' & U3') & P1' & P2' & P3') HS H. pose proof (rotation_l S HS) as HL. destruct HS as [HR HD].
  destruct K as [k11 k12 k13 k21 k22 k23 k31 k32 k33], K' as [c11 c12 c13 c21 c22 c23 c31 c32 c33], S as [a b c d e f g h i]. mats. subst. injection H as E1 E2 E3 E4 E5 E6 E7 E8 E9.
  assert (g = 0) by lra. assert (h = 0) by lra. assert (i = l) by lra. subst g h i. injection HR as R1 R2 R3 R4 R5 R6 R7 R8 R9. injection HL as L1 L2 L3 L4 L5 L6 L7 L8 L9.
  assert (d = 0) by (apply (Rmult_eq_reg_l k22); lra). subst d.
  assert (l * l = 1) as Hl by lra. assert (c = 0) by nra. assert (f = 0) by nra. subst c f.
  assert (a * a = 1) as Ha by lra. assert (b = 0) by nra. subst b. assert (e * e = 1) as He by lra. ring_simplify in HD.
  assert (k11 * a = l * c11) as Ea by lra. assert (k22 * e = l * c22) as Ee by lra.
  assert (0 < l * a) as Sa. { assert (k11 * (l * a) = c11) as E by (replace (k11 * (l * a)) with (l * (k11 * a)) by ring; rewrite Ea; replace (l * (l * c11)) with (l * l * c11) by ring; rewrite Hl; ring). destruct (Rlt_dec 0 (l * a)); [done|]. exfalso. nra. }
  assert (0 < l * e) as Se. { assert (k22 * (l * e) = c22) as E by (replace (k22 * (l * e)) with (l * (k22 * e)) by ring; rewrite Ee; replace (l * (l * c22)) with (l * l * c22) by ring; rewrite Hl; ring). destruct (Rlt_dec 0 (l * e)); [done|]. exfalso. nra. }
  assert (l = 1 \/ l = -1) as [-> | ->] by (assert ((l - 1) * (l + 1) = 0) as [?|?]%Rmult_integral by lra; [left|right]; lra).
  - assert (a = 1) by nra. assert (e = 1) by nra. subst a e. split; [done|]. split; [done|]. f_equal; lra.
  - exfalso. assert (a = -1) by nra. assert (e = -1) by nra. subst a e. lra.
Qed.

(** ** Homographies *)
Lemma det_scaled k m : det (mscale k m) = k * k * k * det m.
Proof. destruct m. mats. ring. Qed.
Lemma det_rotation_homography k f1 f2 Rm : f1 <> 0 -> rotation Rm -> det (rotation_homography k f1 f2 Rm) = k * k * k * (f2 * f2 / (f1 * f1)).
Proof.
  intros H [_ HD]. unfold rotation_homography. rewrite det_scaled, !det_mmul, HD. mats. field. done.
Qed.
Lemma cube_root k : 0 < k -> Rpower (k * k * k) (1 / 3) = k.
Proof.
  intros H. assert (k * k * k = Rpower k 3) as ->.
  { replace 3 with (1 + 1 + 1) by lra. rewrite !Rpower_plus, Rpower_1 by done. done. }
  rewrite Rpower_mult. replace (3 * (1 / 3)) with 1 by lra. by apply Rpower_1.
Qed.
Lemma image2_nonneg a v : 0 <= image2 a v.
Proof.
  induction a as [|r a IH]; [unfold image2; cbn; lra|]. change (image2 (r :: a) v) with ((r.1 * v.1 + r.2 * v.2) * (r.1 * v.1 + r.2 * v.2) + image2 a v).
  pose proof (Rle_0_sqr (r.1 * v.1 + r.2 * v.2)) as Hs. unfold Rsqr in Hs. lra.
Qed.
Lemma image2_0 a v : image2 a v <= 0 -> forall r, r ∈ a -> r.1 * v.1 + r.2 * v.2 = 0.
Proof.
  induction a as [|x a IH]; intros H r Hr; [inversion H; inversion Hr|]. change (image2 (x :: a) v) with ((x.1 * v.1 + x.2 * v.2) * (x.1 * v.1 + x.2 * v.2) + image2 a v) in H.
  pose proof (image2_nonneg a v). pose proof (Rle_0_sqr (x.1 * v.1 + x.2 * v.2)) as Hs. unfold Rsqr in Hs. apply elem_of_cons in Hr as [-> |Hr]; [|apply IH; [lra|done]].
  assert ((x.1 * v.1 + x.2 * v.2) * (x.1 * v.1 + x.2 * v.2) = 0) as [?|?]%Rmult_integral by lra; done.
Qed.
Lemma kernel_image a w : (forall r, r ∈ a -> r.1 * w.1 + r.2 * w.2 = 0) -> image2 a w = 0.
Proof.
  induction a as [|x a IH]; intros H; [done|]. change (image2 (x :: a) w) with ((x.1 * w.1 + x.2 * w.2) * (x.1 * w.1 + x.2 * w.2) + image2 a w).
  rewrite (H x) by left. rewrite IH by (intros; apply H; by right). ring.
Qed.
Lemma singular_kernel a v w : is_last_singular a v -> w.1 * w.1 + w.2 * w.2 <> 0 -> (forall r, r ∈ a -> r.1 * w.1 + r.2 * w.2 = 0) -> v.1 * v.1 + v.2 * v.2 = 1 /\ forall r, r ∈ a -> r.1 * v.1 + r.2 * v.2 = 0.
Proof.
  intros [H1 H2] Hw Hk. split; [done|]. apply image2_0. set (s := sqrt (w.1 * w.1 + w.2 * w.2)).
  assert (0 < w.1 * w.1 + w.2 * w.2) as Hp by nra. pose proof (sqrt_lt_R0 _ Hp) as Hs. fold s in Hs. pose proof (sqrt_sqrt _ (Rlt_le _ _ Hp)) as Hss. fold s in Hss.
  rewrite <- (kernel_image a (w.1 / s, w.2 / s)).
  - apply H2. cbn [fst snd]. replace (w.1 / s * (w.1 / s) + w.2 / s * (w.2 / s)) with ((w.1 * w.1 + w.2 * w.2) / (s * s)) by (field; lra). rewrite Hss. field. lra.
  - intros r Hr. cbn [fst snd]. replace (r.1 * (w.1 / s) + r.2 * (w.2 / s)) with ((r.1 * w.1 + r.2 * w.2) / s) by (field; lra). rewrite Hk by done. field. lra.
Qed.
Lemma normalized_rotation k f Rm : 0 < k -> 0 < f -> rotation Rm -> normalized_homography (rotation_homography k f f Rm) = Mat (m11 Rm) (m12 Rm) (f * m13 Rm) (m21 Rm) (m22 Rm) (f * m23 Rm) (m31 Rm / f) (m32 Rm / f) (m33 Rm).
Proof.
  intros Hk Hf HR. assert (det (rotation_homography k f f Rm) = k * k * k) as Hd by (rewrite det_rotation_homography by (try done; lra); field; lra).
  unfold normalized_homography. rewrite Hd, cube_root by done. unfold rotation_homography; destruct Rm; mats; f_equal; field; lra.
Qed.
Lemma focal_kernel k f Rm : 0 < k -> 0 < f -> rotation Rm -> forall r, r ∈ focal_equations (normalized_homography (rotation_homography k f f Rm)) -> r.1 * (f * f) + r.2 * 1 = 0.
Proof.
  intros Hk Hf HR. rewrite normalized_rotation by done. unfold focal_equations. cbn [m11 m12 m13 m21 m22 m23 m31 m32 m33].
  pose proof (rotation_r Rm HR) as HRR. destruct Rm as [a b c d e g h i j]. mats. injection HRR as R1 R2 R3 R4 R5 R6 R7 R8 R9.
  intros r Hr. rewrite !elem_of_cons, elem_of_nil in Hr. destruct Hr as [-> |[-> |[-> |[-> |[-> |[-> |[]]]]]]]; cbn [fst snd].
  + replace (a * a + b * b - 1) with (- (c * c)) by lra. ring.
  + replace (a * d + b * e) with (- (c * g)) by lra. ring.
  + replace (a * (h / f) + b * (i / f)) with ((a * h + b * i) / f) by (field; lra). replace (a * h + b * i) with (- (c * j)) by lra. field. lra.
  + replace (d * d + e * e - 1) with (- (g * g)) by lra. ring.
  + replace (d * (h / f) + e * (i / f)) with ((d * h + e * i) / f) by (field; lra). replace (d * h + e * i) with (- (g * j)) by lra. field. lra.
  + replace (h / f * (h / f) + i / f * (i / f)) with ((h * h + i * i) / (f * f)) by (field; lra). replace (h * h + i * i) with (1 - j * j) by lra. field. lra.
Qed.
Lemma focal_ok ns k f Rm : 0 < k -> 0 < f -> rotation Rm -> m33 Rm * m33 Rm <> 1 -> let h := rotation_homography k f f Rm in
  is_last_singular (focal_equations (normalized_homography h)) (ns (focal_equations (normalized_homography h))) -> focal_from_homography ns h = Some f.
Proof.
  intros Hk Hf HR H33 h Hns. assert (det h = k * k * k) as Hd by (unfold h; rewrite det_rotation_homography by (try done; lra); field; lra).
  unfold focal_from_homography. rewrite Hd. destruct (Rlt_dec 0 (k * k * k)) as [_|Hn]; [|exfalso; apply Hn; apply Rmult_lt_0_compat; [apply Rmult_lt_0_compat|]; done].
  set (A := focal_equations (normalized_homography h)) in *.
  destruct (singular_kernel A (ns A) (f * f, 1) Hns) as [Hu Hr].
  - cbn [fst snd]. nra.
  - cbn [fst snd]. by apply focal_kernel.
  - destruct (ns A) as [x y]. cbn [fst snd] in Hu, Hr.
    clear Hns. unfold A, h in Hr. rewrite normalized_rotation in Hr by done. unfold focal_equations in Hr. cbn [m11 m12 m13 m21 m22 m23 m31 m32 m33] in Hr.
    pose proof (Hr _ ltac:(left)) as E1. pose proof (Hr _ ltac:(right; right; right; left)) as E2. cbn [fst snd] in E1, E2. clear Hr A Hd h.
    assert (x = f * f * y) as Hx.
    { pose proof (rotation_r Rm HR) as HRR. pose proof (rotation_l Rm HR) as HL. destruct Rm as [a b c d e g h i j]. mats. injection HRR as R1 R2 R3 R4 R5 R6 R7 R8 R9. injection HL as L1 L2 L3 L4 L5 L6 L7 L8 L9.
      assert ((c * c + g * g) * (f * f * y - x) = 0) as E. { replace (a * a + b * b - 1) with (- (c * c)) in E1 by lra. replace (d * d + e * e - 1) with (- (g * g)) in E2 by lra. lra. }
      apply Rmult_integral in E as [E|E]; [|lra]. exfalso. apply H33. lra. }
    assert (y <> 0) as Hy by (intros ->; rewrite Rmult_0_r in Hx; subst x; lra).
    destruct (Req_EM_T y 0) as [?|_]; [done|]. assert (x / y = f * f) as -> by (rewrite Hx; field; done).
    destruct (Rlt_dec (f * f) 0) as [?|_]; [nra|]. rewrite sqrt_square by lra. done.
Qed.

Lemma R_from_homography_ok svd k f1 f2 Rm : (forall m, is_svd_of m (svd m)) -> k <> 0 -> 0 < f1 -> 0 < f2 -> rotation Rm ->
  R_from_homography svd (rotation_homography k f1 f2 Rm) f1 f2 = Ok (mscale (sign k) Rm).
Proof.
  intros Hsvd Hk H1 H2 HR. unfold R_from_homography. destruct (Req_EM_T _ 0) as [E|_]; [exfalso; mats; assert (f2 * f2 = 0) by lra; nra|].
  assert (mmul (mmul (minv (diag f2 f2 1)) (rotation_homography k f1 f2 Rm)) (diag f1 f1 1) = mscale k Rm) as ->.
  { unfold rotation_homography, minv, adj. destruct Rm. mats. f_equal; field; lra. }
  f_equal. unfold project_to_rotation_matrix. specialize (Hsvd (mscale k Rm)). destruct (svd (mscale k Rm)) as [[u [[s1 s2] s3]] vt]. destruct Hsvd as (Hu & Hv & Hm & Hs1 & Hs2 & Hs3).
  set (D := Mat s1 0 0 0 s2 0 0 0 s3) in *. pose proof (orthogonal_l u Hu) as Hu'. pose proof (orthogonal_l vt Hv) as Hv'.
  (* D = k W with W orthogonal *)
  set (W := mmul (mT u) (mmul Rm (mT vt))). 
  assert (D = mscale k W) as HD.
  { unfold W. assert (mscale k (mmul (mT u) (mmul Rm (mT vt))) = mmul (mT u) (mmul (mscale k Rm) (mT vt))) as -> by vring. rewrite Hm. rewrite <- (mmul_assoc u), <- (mmul_assoc D), Hv, mmul_I_r, mmul_assoc, Hu', mmul_I_l. done. }
  assert (mmul W (mT W) = mI) as HW.
  { unfold W. rewrite !mT_mmul, !mT_T. rewrite <- !mmul_assoc. rewrite (mmul_assoc (mT vt) vt), Hv', mmul_I_l. rewrite (mmul_assoc Rm (mT Rm)), (rotation_r Rm HR), mmul_I_l. done. }
  assert (W = mscale (sign k) mI) as EW.
  { clearbody W. clear -HD HW Hs1 Hs2 Hs3 Hk. unfold D in HD. destruct W as [a b c d e f g h i]. mats. injection HD as E1 E2 E3 E4 E5 E6 E7 E8 E9. injection HW as R1 R2 R3 R4 R5 R6 R7 R8 R9.
    assert (forall x, 0 = k * x -> x = 0) as Hz by (intros x E; symmetry in E; apply Rmult_integral in E as [?|?]; done).
    apply Hz in E2, E3, E4, E6, E7, E8. subst. assert (forall x s, x * x = 1 -> s = k * x -> 0 <= s -> x = sign k) as Hone.
    { intros x s Hx Hs H0. assert ((x - 1) * (x + 1) = 0) as [?|?]%Rmult_integral by lra; unfold sign; destruct (Rlt_dec 0 k); [lra|destruct (Rlt_dec k 0); nra|exfalso; nra|destruct (Rlt_dec k 0); nra]. }
    assert (a = sign k) as -> by (apply (Hone a (k * a)); lra). assert (e = sign k) as -> by (apply (Hone e (k * e)); lra). assert (i = sign k) as -> by (apply (Hone i (k * i)); lra). f_equal; ring. }
  assert (Rm = mmul u (mmul W vt)) as ER.
  { unfold W. rewrite <- !mmul_assoc. rewrite Hv', mmul_I_r. rewrite mmul_assoc, Hu, mmul_I_l. done. }
  rewrite EW in ER. rewrite ER. destruct (sign_sq k Hk) as [Hss _]. clear -Hss. 
  assert (mscale (sign k) (mmul u (mmul (mscale (sign k) mI) vt)) = mscale (sign k * sign k) (mmul u vt)) as -> by vring. rewrite Hss. by rewrite mscale_1.
Qed.
