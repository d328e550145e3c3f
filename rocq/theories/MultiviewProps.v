(** Properties of the factorizations of camera matrices and homographies. *)
From stdpp Require Import prelude.
From Coq Require Import Reals Lra Lia Psatz.
From Verif Require Import Base Lin FitModel FitSpec FitProofs PlaneProofs SvdProofs MultiviewModel MultiviewSpec MultiviewProofs.
Local Open Scope R_scope.

(** rq: an upper triangular matrix times an orthogonal one *)
Theorem C101_rq : forall qr a, is_qr_of (mT (flipud a)) (qr (mT (flipud a))) -> let '(k, r) := rq qr a in upper k /\ mmul r (mT r) = mI /\ mmul k r = a.
Proof. apply rq_correct. Qed.
(** The factors of a camera matrix with regular left block: calibration, rotation and translation, whose product is the matrix up to scale *)
Theorem C101_factorize : forall qr M p, is_qr_of (mT (flipud M)) (qr (mT (flipud M))) -> det M <> 0 ->
  exists K R t l, KRt_from_P qr (M, p) = Ok (K, R, t) /\ calibration K /\ rotation R /\ l <> 0 /\ (M, p) = (mscale l (P_from_KRt K R t).1, vscale l (P_from_KRt K R t).2).
Proof.
  intros qr M p H HM. destruct (factorize qr M p H HM) as (K & R & t & l & H1 & H2 & H3 & H4 & H5 & H6). exists K, R, t, l. repeat split; try done; try apply H2; try apply H3. cbn [P_from_KRt fst snd]. congruence.
Qed.
(** An error for a singular block *)
Theorem C101_singular : forall qr M p, is_qr_of (mT (flipud M)) (qr (mT (flipud M))) -> det M = 0 -> KRt_from_P qr (M, p) = Err RuntimeError.
Proof.
  intros qr M p Hqr HM. unfold KRt_from_P. cbn [fst snd]. pose proof (rq_correct qr M Hqr) as H. destruct (rq qr M) as [k r]. destruct H as (Hu & Hr & Hm).
  pose proof (orthogonal_det r Hr) as Hd. assert (det k = 0) as Hk by (rewrite <- Hm, det_mmul in HM; apply Rmult_integral in HM as [?|E]; [done|rewrite E in Hd; lra]).
  unfold solve. rewrite det_mmul, Hk, Rmult_0_l. by destruct (Req_EM_T 0 0).
Qed.
(** A matrix made of a calibration, a rotation and a translation, and scaled, positively or negatively, gives exactly these, whatever the signs of the QR decomposition *)
Theorem C101_recover : forall qr K R t l, let P := (mscale l (P_from_KRt K R t).1, vscale l (P_from_KRt K R t).2) in
  is_qr_of (mT (flipud P.1)) (qr (mT (flipud P.1))) -> calibration K -> rotation R -> l <> 0 -> KRt_from_P qr P = Ok (K, R, t).
Proof.
  intros qr K0 R0 t0 l0 P Hqr HK0 HR0 Hl0. unfold P in *. cbn [P_from_KRt fst snd] in *.
  assert (det K0 <> 0) as HdK by (destruct HK0 as (Hu & ? & ? & E); rewrite (upper_det _ Hu), E; apply Rmult_integral_contrapositive_currified; [apply Rmult_integral_contrapositive_currified|]; lra).
  assert (det (mscale l0 (mmul K0 R0)) <> 0) as HM. { rewrite det_scaled, det_mmul. destruct HR0 as [_ ->]. repeat apply Rmult_integral_contrapositive_currified; try done; lra. }
  destruct (factorize qr _ (vscale l0 (mvec K0 t0)) Hqr HM) as (K & R & t & l & -> & HK & HR & Hl & EM & Ep).
  assert (mmul K (mmul R (mT R0)) = mscale (l0 / l) K0) as E.
  { rewrite mmul_assoc. assert (mmul K R = mscale (/ l) (mscale l (mmul K R))) as -> by (rewrite <- (mscale_1 (mmul K R)) at 1; replace 1 with (/ l * l) by (field; done); vring).
    rewrite <- EM. assert (mmul (mscale (/ l) (mscale l0 (mmul K0 R0))) (mT R0) = mscale (l0 / l) (mmul K0 (mmul R0 (mT R0)))) as -> by (unfold Rdiv; vring). rewrite (rotation_r R0 HR0), mmul_I_r. done. }
  destruct (calibration_unique K K0 (mmul R (mT R0)) (l0 / l) HK HK0 (rotation_mmul _ _ HR (rotation_T _ HR0)) E) as (ES & El & ->).
  assert (R = R0) as -> by (rewrite <- (mmul_I_r R), <- (rotation_l R0 HR0), mmul_assoc, ES, mmul_I_l; done).
  assert (l0 = l) as -> by (replace l0 with (l0 / l * l) by (field; done); rewrite El; ring).
  assert (t0 = t) as ->; [|done].
  assert (forall x, x = mvec (minv K0) (vscale (/ l) (vscale l (mvec K0 x)))) as Hx.
  { intros x. rewrite vscale_vscale, Rinv_l, vscale_1 by done. rewrite <- mvec_mmul. unfold minv. assert (mmul (mscale (/ det K0) (adj K0)) K0 = mscale (/ det K0) (mmul (adj K0) K0)) as -> by vring. rewrite adj_l. assert (mscale (/ det K0) (mscale (det K0) mI) = mscale (/ det K0 * det K0) mI) as -> by vring. rewrite Rinv_l by done. rewrite mscale_1. by rewrite mvec_I. }
  rewrite (Hx t0), Ep. symmetry. apply Hx.
Qed.

(** The focal length from the homography of a turning camera, up to positive scale, if the axis is moved *)
Theorem C101_focal : forall nullspace k f R, 0 < k -> 0 < f -> rotation R -> m33 R * m33 R <> 1 -> let h := rotation_homography k f f R in
  is_last_singular (focal_equations (normalized_homography h)) (nullspace (focal_equations (normalized_homography h))) -> focal_from_homography nullspace h = Some f.
Proof. apply focal_ok. Qed.
(** If the axis is not moved, it says nothing (refuted: for all rotations): any other focal length may come out *)
Theorem C101_focal_refuted : exists nullspace, forall f, 0 < f -> let h := rotation_homography 1 f f mI in
  is_last_singular (focal_equations (normalized_homography h)) (nullspace (focal_equations (normalized_homography h))) /\ focal_from_homography nullspace h = Some (sqrt (4 / 3)).
Proof.
  exists (fun _ => (4 / 5, 3 / 5)). intros f Hf h. pose proof (normalized_rotation 1 f mI ltac:(lra) Hf rotation_I) as E. fold h in E. split.
  - split; [cbn [fst snd]; lra|]. intros w Hw. assert (forall v, image2 (focal_equations (normalized_homography h)) v = 0) as Hz; [|rewrite !Hz; lra].
    intros v. apply kernel_image. intros r Hr. rewrite E in Hr. unfold focal_equations in Hr. cbn [m11 m12 m13 m21 m22 m23 m31 m32 m33 mI] in Hr. rewrite !elem_of_cons, elem_of_nil in Hr.
    destruct Hr as [-> |[-> |[-> |[-> |[-> |[-> |[]]]]]]]; cbn [fst snd]; field; lra.
  - unfold focal_from_homography. assert (det h = 1) as -> by (unfold h; rewrite det_rotation_homography by (try apply rotation_I; lra); field; lra).
    destruct (Rlt_dec 0 1); [|lra]. destruct (Req_EM_T (3 / 5) 0); [lra|]. replace (4 / 5 / (3 / 5)) with (4 / 3) by lra. destruct (Rlt_dec (4 / 3) 0); [lra|done].
Qed.
(** Homographies of negative scale give no number *)
Theorem C101_focal_negative : forall nullspace h, det h <= 0 -> focal_from_homography nullspace h = None.
Proof. intros ns h H. unfold focal_from_homography. destruct (Rlt_dec 0 (det h)); [lra|done]. Qed.

(** The projection is orthogonal, and a scaled rotation is projected to the rotation *)
Theorem C101_project : forall svd m, is_svd_of m (svd m) -> let r := project_to_rotation_matrix svd m in mmul r (mT r) = mI.
Proof.
  intros svd m H. unfold project_to_rotation_matrix. destruct (svd m) as [[u [[s1 s2] s3]] vt]. destruct H as (Hu & Hv & _). by apply orthogonal_mmul.
Qed.
(** The rotation of a homography of positive scale between cameras with known focal lengths *)
Theorem C101_rotation : forall svd k f1 f2 R, (forall m, is_svd_of m (svd m)) -> 0 < k -> 0 < f1 -> 0 < f2 -> rotation R -> R_from_homography svd (rotation_homography k f1 f2 R) f1 f2 = Ok R.
Proof. intros svd k f1 f2 R Hs Hk H1 H2 HR. rewrite (R_from_homography_ok svd k) by (try done; lra). f_equal. unfold sign. destruct (Rlt_dec 0 k); [|lra]. apply mscale_1. Qed.
(** A homography of negative scale, as good as its opposite, gives the opposite matrix, which is no rotation (refuted: that the result is a rotation) *)
Theorem C101_rotation_refuted : forall svd k f1 f2 R, (forall m, is_svd_of m (svd m)) -> k < 0 -> 0 < f1 -> 0 < f2 -> rotation R ->
  R_from_homography svd (rotation_homography k f1 f2 R) f1 f2 = Ok (mscale (-1) R) /\ ~ rotation (mscale (-1) R).
Proof.
  intros svd k f1 f2 R Hs Hk H1 H2 HR. rewrite (R_from_homography_ok svd k) by (try done; lra). split.
  - f_equal. unfold sign. destruct (Rlt_dec 0 k); [lra|]. destruct (Rlt_dec k 0); [done|lra].
  - intros [_ H]. rewrite det_scaled in H. destruct HR as [_ HD]. rewrite HD in H. lra.
Qed.

(** Examples: a calibration with skew, a turn about the first axis *)
Definition example_K : mat := Mat 2 1 0 0 3 1 0 0 1.
Definition example_R : mat := Mat 1 0 0 0 (3 / 5) (-4 / 5) 0 (4 / 5) (3 / 5).
Definition example_qr : qr_of := fun _ => (mT (flipud (mscale (-1) example_R)), mT (flipud (fliplr (mscale (-2) example_K)))).
Example C101_example_hypotheses : calibration example_K /\ rotation example_R /\ is_qr_of (mT (flipud (mscale 2 (mmul example_K example_R)))) (example_qr (mT (flipud (mscale 2 (mmul example_K example_R))))).
Proof.
  split; [|split].
  - unfold calibration, upper, example_K. cbn. lra.
  - unfold rotation, example_R. mats. split; [f_equal; lra|lra].
  - unfold is_qr_of, example_qr, upper. cbn [fst snd]. unfold example_K, example_R. mats. split; [f_equal; lra|]. split; [lra|]. f_equal; lra.
Qed.
Example C101_example : KRt_from_P example_qr (mscale 2 (mmul example_K example_R), vscale 2 (mvec example_K (Vec 1 2 3))) = Ok (example_K, example_R, Vec 1 2 3).
Proof. destruct C101_example_hypotheses as (H1 & H2 & H3). apply (C101_recover example_qr example_K example_R (Vec 1 2 3) 2); try done; lra. Qed.
(** The kernel of the equations *)
Example C101_example_focal : focal_from_homography (fun _ => (4 / 5 * (5 / 4) / sqrt 2, 1 / sqrt 2)) (rotation_homography 3 1 1 example_R) = Some 1.
Proof.
  destruct C101_example_hypotheses as (_ & HR & _). apply C101_focal; [lra|lra|done|cbn; lra|]. pose proof (sqrt_lt_R0 2 ltac:(lra)) as Hs. pose proof (sqrt_sqrt 2 ltac:(lra)) as Hss. split; cbn [fst snd].
  - replace (4 / 5 * (5 / 4) / sqrt 2 * (4 / 5 * (5 / 4) / sqrt 2) + 1 / sqrt 2 * (1 / sqrt 2)) with (2 / (sqrt 2 * sqrt 2)) by (field; lra). rewrite Hss. lra.
  - intros w _. rewrite kernel_image; [apply image2_nonneg|]. intros r Hr. apply (focal_kernel 3 1 example_R ltac:(lra) ltac:(lra) HR) in Hr. cbn [fst snd].
    replace (r.1 * (4 / 5 * (5 / 4) / sqrt 2) + r.2 * (1 / sqrt 2)) with ((r.1 * (1 * 1) + r.2 * 1) / sqrt 2) by (field; lra). rewrite Hr. field. lra.
Qed.
Example C101_example_rotation : R_from_homography real_svd (rotation_homography 3 1 2 example_R) 1 2 = Ok example_R.
Proof. destruct C101_example_hypotheses as (_ & HR & _). apply C101_rotation; try lra; [apply real_svd_right|done]. Qed.

Print Assumptions C101_rq.
Print Assumptions C101_factorize.
Print Assumptions C101_singular.
Print Assumptions C101_recover.
Print Assumptions C101_focal.
Print Assumptions C101_focal_refuted.
Print Assumptions C101_focal_negative.
Print Assumptions C101_project.
Print Assumptions C101_rotation.
Print Assumptions C101_rotation_refuted.
