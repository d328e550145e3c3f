(** Proofs about depth maps *)
From stdpp Require Import prelude.
From Coq Require Import Reals Lra Psatz.
From Verif Require Import Base Lin PixelModel RecProofs DenseModel DenseSpec.
Local Open Scope R_scope.

Lemma minv_r K : det K <> 0 -> mmul K (minv K) = mI.
Proof. intros H. unfold minv. assert (mmul K (mscale (/ det K) (adj K)) = mscale (/ det K) (mmul K (adj K))) as -> by vring. rewrite adj_r. revert H. generalize (det K). intros d H.
  unfold mscale, mI. cbn. f_equal; field; done. Qed.
Lemma minv_l K : det K <> 0 -> mmul (minv K) K = mI.
Proof. intros H. unfold minv. assert (mmul (mscale (/ det K) (adj K)) K = mscale (/ det K) (mmul (adj K) K)) as -> by vring. rewrite adj_l. revert H. generalize (det K). intros d H.
  unfold mscale, mI. cbn. f_equal; field; done. Qed.
Lemma mvec_mscale' s m v : mvec (mscale s m) v = vscale s (mvec m v). Proof. vring. Qed.
Lemma backproject_seen K Rm t x y d : det K <> 0 -> rotation Rm -> mvec K (vadd (mvec Rm (Backproject x y d K Rm t)) t) = Vec (d * x) (d * y) d.
Proof.
  intros HK HR. unfold Backproject. rewrite <-mvec_mmul, (rotation_r Rm HR), mvec_I, mvec_mscale'.
  assert (forall a b, vadd (vsub a b) b = a) as -> by vring. rewrite mvec_scale, <-mvec_mmul, minv_r, mvec_I by done. unfold vscale. cbn. f_equal; ring.
Qed.
Lemma ray K Rm t x y d X : det K <> 0 -> mvec K (vadd (mvec Rm X) t) = Vec (d * x) (d * y) d -> vadd (mvec Rm X) t = vscale d (mvec (minv K) (Vec x y 1)).
Proof.
  intros HK E. rewrite <-mvec_scale. assert (vscale d (Vec x y 1) = Vec (d * x) (d * y) d) as -> by (unfold vscale; cbn; f_equal; ring).
  rewrite <-E, <-mvec_mmul, minv_l, mvec_I by done. done.
Qed.
Lemma backproject_unique K Rm t x y d X : det K <> 0 -> rotation Rm -> mvec K (vadd (mvec Rm X) t) = Vec (d * x) (d * y) d -> X = Backproject x y d K Rm t.
Proof.
  intros HK HR E. apply ray in E; [|done]. unfold Backproject. rewrite mvec_mscale', <-E.
  assert (forall a b, vsub (vadd a b) b = a) as -> by vring. by rewrite <-mvec_mmul, (rotation_l Rm HR), mvec_I.
Qed.
Lemma column_row_mvec u v x : mvec (column_row u v) x = vscale (dot v x) u.
Proof. unfold column_row, mvec, vscale, dot. destruct u, v, x. cbn. f_equal; ring. Qed.
Lemma mvec_madd a b v : mvec (madd a b) v = vadd (mvec a v) (mvec b v). Proof. vring. Qed.
Lemma homography_point K1 R1 t1 K2 R2 t2 v X : det K1 <> 0 -> rotation R1 -> dot v (vadd (mvec R1 X) t1) = -1 ->
  mvec (PlaneInducedHomography K1 R1 t1 K2 R2 t2 v) (mvec K1 (vadd (mvec R1 X) t1)) = mvec K2 (vadd (mvec R2 X) t2).
Proof.
  intros HK HR E. unfold PlaneInducedHomography. rewrite mvec_mmul, mvec_mmul, <-(mvec_mmul (minv K1)), minv_l, mvec_I, mvec_madd, column_row_mvec, E by done.
  f_equal. rewrite mvec_add, !mvec_mmul, <-(mvec_mmul (mT R1) R1), (rotation_l R1 HR), mvec_I. generalize (mvec R2 (mvec (mT R1) t1)). intros q.
  assert (forall a b c, vadd (vadd a b) (vscale (-1) (vsub b c)) = vadd a c) as -> by vring. done.
Qed.

(** ** Correlation *)
Lemma total_ext f g l : (forall s, f s = g s) -> total f l = total g l.
Proof. intros H. induction l as [|s l IH]; [done|]. cbn. by rewrite H, IH. Qed.
Lemma total_lin a b f g l : total (fun s => a * f s + b * g s) l = a * total f l + b * total g l.
Proof. induction l as [|s l IH]; cbn; [ring|]. rewrite IH. ring. Qed.
Lemma total_nonneg f l : Forall (fun s => 0 <= f s) l -> 0 <= total f l.
Proof. induction 1; cbn; lra. Qed.
Definition pushed (e : ncc) (l : list (R * R * R)) : ncc :=
  Ncc (sumx e + total (fun s => s.2 * s.1.1) l) (sumy e + total (fun s => s.2 * s.1.2) l) (sumxx e + total (fun s => s.2 * (s.1.1 * s.1.1)) l)
      (sumyy e + total (fun s => s.2 * (s.1.2 * s.1.2)) l) (sumxy e + total (fun s => s.2 * (s.1.1 * s.1.2)) l) (sumw e + total weight_of l).
Lemma push_all l : forall e, foldl Push e l = pushed e l.
Proof.
  induction l as [|[[x y] w] l IH]; intros e; [destruct e; unfold pushed; cbn; f_equal; ring|]. cbn [foldl]. rewrite IH. unfold pushed, Push, weight_of. cbn. f_equal; ring.
Qed.
Lemma covar_expand f g l : total weight_of l <> 0 -> covar f g l = mean (fun s => f s * g s) l - mean f l * mean g l.
Proof.
  intros HW. unfold covar. set (mf := mean f l) at 1. set (mg := mean g l) at 1. unfold mean at 1.
  rewrite (total_ext _ (fun s => 1 * (1 * (s.2 * (f s * g s)) + (- mg) * (s.2 * f s)) + 1 * (mf * mg * weight_of s + (- mf) * (s.2 * g s)))) by (intros s; unfold weight_of; ring).
  rewrite total_lin, (total_lin 1), (total_lin (mf * mg)).
  assert (total (fun s => s.2 * f s) l = mf * total weight_of l) as -> by (unfold mf, mean; field; done).
  assert (total (fun s => s.2 * g s) l = mg * total weight_of l) as -> by (unfold mg, mean; field; done).
  unfold mean. fold mf mg. change (total (fun s => s.2 * f s) l / total weight_of l) with mf. change (total (fun s => s.2 * g s) l / total weight_of l) with mg. field. done.
Qed.
Lemma correlation_covar l : correlation l =
  if Req_EM_T (total weight_of l) 0 then -1 else if Rlt_dec (covar first_of first_of l) (1 / 10) then -1 else if Rlt_dec (covar second_of second_of l) (1 / 10) then -1
  else covar first_of second_of l / sqrt (covar first_of first_of l * covar second_of second_of l).
Proof.
  unfold correlation. rewrite push_all. unfold Get, pushed, ncc0. cbn [sumx sumy sumxx sumyy sumxy sumw]. rewrite !Rplus_0_l.
  destruct (Req_EM_T (total weight_of l) 0) as [|HW]; [done|]. rewrite !covar_expand by done. unfold mean, first_of, second_of. done.
Qed.
Lemma covar_cauchy f g l : 0 < total weight_of l -> Forall (fun s : R * R * R => 0 <= s.2) l -> covar f g l * covar f g l <= covar f f l * covar g g l.
Proof.
  intros HW Hw.
  assert (forall (u v : R * R * R -> R) a b, 0 <= a * a * mean (fun s => u s * u s) l + 2 * a * b * mean (fun s => u s * v s) l + b * b * mean (fun s => v s * v s) l) as Q.
  { intros u v a b. assert (a * a * mean (fun s => u s * u s) l + 2 * a * b * mean (fun s => u s * v s) l + b * b * mean (fun s => v s * v s) l =
      total (fun s => s.2 * ((a * u s + b * v s) * (a * u s + b * v s))) l / total weight_of l) as ->.
    { unfold mean. rewrite (total_ext (fun s => s.2 * ((a * u s + b * v s) * (a * u s + b * v s)))
        (fun s => 1 * (a * a * (s.2 * (u s * u s)) + 2 * a * b * (s.2 * (u s * v s))) + b * b * (s.2 * (v s * v s)))) by (intros; ring).
      rewrite (total_lin 1 (b * b)), total_lin. field. lra. }
    apply Rmult_le_pos; [|left; by apply Rinv_0_lt_compat]. apply total_nonneg. eapply Forall_impl; [exact Hw|]. cbn. intros s Hs. apply Rmult_le_pos; [done|apply Rle_0_sqr]. }
  unfold covar. set (u := fun s => f s - mean f l). set (v := fun s => g s - mean g l). specialize (Q u v).
  change (mean (fun s => u s * v s) l * mean (fun s => u s * v s) l <= mean (fun s => u s * u s) l * mean (fun s => v s * v s) l).
  set (A := mean (fun s => u s * u s) l) in *. set (B := mean (fun s => u s * v s) l) in *. set (C := mean (fun s => v s * v s) l) in *.
  pose proof (Q 1 0) as QA. pose proof (Q 0 1) as QC. pose proof (Q C (- B)) as Q1. pose proof (Q 1 1) as Q2. pose proof (Q 1 (-1)) as Q3. pose proof (Q (B) (- A)) as Q4.
  destruct (Req_EM_T C 0) as [C0|C0]; [|assert (0 < C) by lra; nra].
  destruct (Req_EM_T A 0) as [A0|A0]; [|assert (0 < A) by lra; nra]. rewrite A0, C0 in *. nra.
Qed.

(** ** Interpolation *)
Lemma trunc_unique x (n : Z) : 0 <= x -> IZR n <= x < IZR n + 1 -> trunc x = n.
Proof.
  intros Hx [H1 H2]. unfold trunc. destruct (Rle_dec 0 x) as [_|?]; [|lra]. destruct (base_Int_part x) as [A B].
  assert (IZR (Int_part x) < IZR n + 1) by lra. assert (IZR n < IZR (Int_part x) + 1) by lra. rewrite <-plus_IZR in *. apply lt_IZR in H, H0. lia.
Qed.
Lemma trunc_spec x : 0 <= x -> IZR (trunc x) <= x < IZR (trunc x) + 1 /\ (0 <= trunc x)%Z.
Proof.
  intros Hx. unfold trunc. destruct (Rle_dec 0 x) as [_|?]; [|lra]. destruct (base_Int_part x) as [A B]. split; [lra|].
  assert (-1 < IZR (Int_part x)) as C by lra. apply lt_IZR in C. lia.
Qed.
(** the bilinear form of four values *)
Definition bilinear (a b c d dx dy : R) : R := (1 - dy) * ((1 - dx) * a + dx * b) + dy * ((1 - dx) * c + dx * d).
Lemma interpolation_inside im y x : 0 <= x < IZR (im_cols im - 1) -> 0 <= y < IZR (im_rows im - 1) -> exists i j : Z,
  (0 <= i /\ i + 1 < im_rows im /\ 0 <= j /\ j + 1 < im_cols im)%Z /\ IZR i <= y < IZR i + 1 /\ IZR j <= x < IZR j + 1 /\
  LinearInterpolation im y x = bilinear (im_at im i j) (im_at im i (j + 1)) (im_at im (i + 1) j) (im_at im (i + 1) (j + 1)) (x - IZR j) (y - IZR i).
Proof.
  intros Hx Hy. exists (trunc y), (trunc x). destruct (trunc_spec x ltac:(lra)) as [[X1 X2] X3]. destruct (trunc_spec y ltac:(lra)) as [[Y1 Y2] Y3].
  assert (IZR (trunc x) < IZR (im_cols im - 1)) as CX by lra. assert (IZR (trunc y) < IZR (im_rows im - 1)) as CY by lra. apply lt_IZR in CX, CY.
  split_and!; try lia; try lra. unfold LinearInterpolation.
  destruct (Rlt_dec x 0); [lra|]. destruct (Rle_dec (IZR (im_cols im - 1)) x); [lra|]. destruct (Rlt_dec y 0); [lra|]. destruct (Rle_dec (IZR (im_rows im - 1)) y); [lra|]. done.
Qed.
Lemma interpolation_outside im y x : ~ (0 <= x < IZR (im_cols im - 1) /\ 0 <= y < IZR (im_rows im - 1)) -> LinearInterpolation im y x = 0.
Proof.
  intros H. unfold LinearInterpolation. destruct (Rlt_dec x 0); [done|]. destruct (Rle_dec (IZR (im_cols im - 1)) x); [done|].
  destruct (Rlt_dec y 0); [done|]. destruct (Rle_dec (IZR (im_rows im - 1)) y); [done|]. exfalso. apply H. lra.
Qed.
Lemma bilinear_between lo hi a b c d dx dy : lo <= a <= hi -> lo <= b <= hi -> lo <= c <= hi -> lo <= d <= hi -> 0 <= dx <= 1 -> 0 <= dy <= 1 -> lo <= bilinear a b c d dx dy <= hi.
Proof.
  intros. unfold bilinear. assert (forall p q t, lo <= p <= hi -> lo <= q <= hi -> 0 <= t <= 1 -> lo <= (1 - t) * p + t * q <= hi) as L by (clear; intros; nra).
  apply L; try done; by apply L.
Qed.

(** ** Derivatives of a homography *)
Lemma quotient_derivative (a b c d : R) x : c * x + d <> 0 -> derivable_pt_lim (fun x => (a * x + b) / (c * x + d)) x ((a * (c * x + d) - c * (a * x + b)) / ((c * x + d) * (c * x + d))).
Proof.
  intros H. assert (forall a b, derivable_pt_lim (fun x => a * x + b) x a) as L.
  { intros p q. pose proof (derivable_pt_lim_plus (fun x => p * x) (fun _ => q) x (p * 1) 0) as P. replace (p * 1 + 0) with p in P by ring. apply P; [|apply derivable_pt_lim_const].
    apply (derivable_pt_lim_scal id p x 1). apply derivable_pt_lim_id. }
  pose proof (derivable_pt_lim_div (fun x => a * x + b) (fun x => c * x + d) x a c (L a b) (L c d) H) as D. unfold div_fct, Rsqr in D. exact D.
Qed.
Lemma derivative_ext f g x d : derivable_pt_lim f x d -> (exists e, 0 < e /\ forall y, Rabs (y - x) < e -> g y = f y) -> derivable_pt_lim g x d.
Proof.
  intros D (e & He & E) eps Heps. destruct (D eps Heps) as [[del Hdel] H]. assert (0 < Rmin del e) as P by (apply Rmin_glb_lt; lra). exists (mkposreal _ P). intros h Hh Hlt.
  cbn in *. rewrite (E (x + h)), (E x). 2: { rewrite Rminus_diag_eq, Rabs_R0 by done. lra. } 2: { replace (x + h - x) with h by ring. pose proof (Rmin_r del e). lra. }
  apply H; [done|]. pose proof (Rmin_l del e). lra.
Qed.
Lemma nonzero_near c d x : c * x + d <> 0 -> exists e, 0 < e /\ forall y, Rabs (y - x) < e -> c * y + d <> 0.
Proof.
  intros H. exists (Rabs (c * x + d) / (Rabs c + 1)). pose proof (Rabs_pos c) as C. pose proof (Rabs_pos_lt _ H) as P. split; [apply Rdiv_lt_0_compat; lra|].
  intros y Hy E. assert (c * x + d = c * (x - y)) as E2 by lra.
  assert (Rabs (c * x + d) = Rabs c * Rabs (y - x)) as E3 by (rewrite E2, Rabs_mult, (Rabs_minus_sym x y); done).
  apply (Rmult_lt_compat_r (Rabs c + 1)) in Hy; [|lra]. unfold Rdiv in Hy. rewrite Rmult_assoc, Rinv_l, Rmult_1_r in Hy by lra. pose proof (Rabs_pos (y - x)). nra.
Qed.
