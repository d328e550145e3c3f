(** Proofs about motions from the homography of a plane *)
From stdpp Require Import prelude.
From Coq Require Import Reals Lra Psatz.
From Verif Require Import Base Lin RotModel RotProofs GeoModel GeoProofs AnglesModel PlaneSpec.
Local Open Scope R_scope.

Lemma orthogonal_det m : orthogonal m -> det m * det m = 1.
Proof. intros H. rewrite <- (det_T m) at 2. rewrite <- det_mmul, H. unfold det. cbn. ring. Qed.
Lemma orthogonal_l m : orthogonal m -> mmul (mT m) m = mI.
Proof.
  intros H. pose proof (orthogonal_det m H) as D. 
  assert (mT m = mscale (det m) (adj m)) as E.
  { transitivity (mmul mI (mT m)); [by rewrite mmul_I_l|]. replace mI with (mscale (det m) (mmul (adj m) m)).
    - replace (mmul (mscale (det m) (mmul (adj m) m)) (mT m)) with (mscale (det m) (mmul (adj m) (mmul m (mT m)))) by vring. by rewrite H, mmul_I_r.
    - rewrite adj_l. replace (mscale (det m) (mscale (det m) mI)) with (mscale (det m * det m) mI) by vring. rewrite D. vring. }
  rewrite E. replace (mmul (mscale (det m) (adj m)) m) with (mscale (det m) (mmul (adj m) m)) by vring. rewrite adj_l.
  replace (mscale (det m) (mscale (det m) mI)) with (mscale (det m * det m) mI) by vring. rewrite D. vring.
Qed.
Lemma orthogonal_T m : orthogonal m -> orthogonal (mT m).
Proof. intros H. unfold orthogonal. rewrite mT_T. by apply orthogonal_l. Qed.
Lemma dot_mT m u v : dot (mvec m u) v = dot u (mvec (mT m) v).
Proof. destruct m, u, v. unfold dot, mvec. cbn. ring. Qed.
Lemma dot_orth m u v : orthogonal m -> dot (mvec m u) (mvec m v) = dot u v.
Proof. intros H. rewrite dot_mT, <- mvec_mmul, orthogonal_l, mvec_I by done. done. Qed.
Lemma norm_one v : norm v = 1 <-> dot v v = 1.
Proof. rewrite <- norm_sq. pose proof (norm_nonneg v). split; [intros ->; ring|nra]. Qed.
Lemma mvec_mscale s m v : mvec (mscale s m) v = vscale s (mvec m v). Proof. vring. Qed.
(** H is d R - t n^T. *)
Lemma explains_matrix h r t n d : rotation r -> dot n n = 1 ->
  (forall y, mvec h y = vsub (vscale d (mvec r y)) (vscale (dot n y) t)) -> explains h r t n d.
Proof.
  intros Hr Hn H. split; [done|]. split; [by apply norm_one|]. intros X HX. rewrite H. replace (dot n X) with (- d) by lra.
  destruct (mvec r X), t. unfold vsub, vscale, vadd. cbn. f_equal; ring.
Qed.
Lemma explains_matrix' h r t n d : det h <> 0 -> explains h r t n d ->
  d <> 0 /\ forall y, mvec h y = vsub (vscale d (mvec r y)) (vscale (dot n y) t).
Proof.
  intros Hd (Hr & Hn & H). apply norm_one in Hn. assert (forall y, mvec h y = v0 -> y = v0) as Hinj.
  { intros y E. assert (mvec (adj h) (mvec h y) = v0) as E2 by (rewrite E; apply mvec_0). rewrite <- mvec_mmul, adj_l, mvec_mscale, mvec_I in E2.
    destruct y as [a b c]. unfold vscale, v0 in *. cbn in E2. injection E2 as E1 E2 E3. apply Rmult_integral in E1, E2, E3. f_equal; tauto. }
  assert (d <> 0) as Hnz.
  { intros ->. assert (forall y, dot n y = 0 -> y = v0) as Hz. { intros y Hy. apply Hinj. rewrite H by lra. vring. }
    destruct n as [a b c]. assert (Vec (- b) a 0 = v0) as E1 by (apply Hz; unfold dot; cbn; ring). assert (Vec (- c) 0 a = v0) as E2 by (apply Hz; unfold dot; cbn; ring).
    assert (Vec 0 (- c) b = v0) as E3 by (apply Hz; unfold dot; cbn; ring). injection E1 as E1 E1'. injection E2 as E2 _. unfold dot in Hn. cbn in Hn.
    assert (a = 0) as -> by lra. assert (b = 0) as -> by lra. assert (c = 0) as -> by lra. lra. }
  split; [done|]. intros y.
  (* y = (n . y) n + y' *)
  set (k := dot n y). pose proof (H (vadd (vsub y (vscale k n)) (vscale (- d) n))) as H1. pose proof (H (vscale (- d) n)) as H2.
  assert (dot n (vscale (- d) n) = - d) as E2. { transitivity (- d * dot n n); [unfold dot, vscale; cbn; ring|rewrite Hn; ring]. }
  assert (dot n (vadd (vsub y (vscale k n)) (vscale (- d) n)) = - d) as E1.
  { transitivity (dot n y - k * dot n n + - d * dot n n); [unfold dot, vscale, vadd, vsub; cbn; ring|rewrite Hn; unfold k; ring]. }
  specialize (H1 ltac:(lra)). specialize (H2 ltac:(lra)). clear E1 E2 H Hn. clearbody k. rewrite !mvec_add, !mvec_scale in H1. rewrite !mvec_scale in H2.
  replace (mvec h (vsub y (vscale k n))) with (vsub (mvec h y) (vscale k (mvec h n))) in H1 by vring.
  replace (mvec r (vsub y (vscale k n))) with (vsub (mvec r y) (vscale k (mvec r n))) in H1 by vring.
  destruct (mvec h y) as [a1 a2 a3], (mvec h n) as [b1 b2 b3], (mvec r y) as [c1 c2 c3], (mvec r n) as [e1 e2 e3], t as [t1 t2 t3].
  unfold vsub, vscale, vadd in *. cbn in *. injection H1 as X1 X2 X3. injection H2 as Y1 Y2 Y3.
  assert (forall b e t, - d * b = d * (- d * e + t) -> b = d * e - t) as Hb. { intros b e t0 E. apply (Rmult_eq_reg_l (- d)); [|lra]. rewrite E. ring. }
  apply Hb in Y1, Y2, Y3. subst b1 b2 b3. f_equal; lra.
Qed.
(** * The motions for a diagonal homography [diag d1 d2 d3] = d' R' + t' n'^T *)
Section diag.
Variables d1 d2 d3 : R.
Hypothesis H12 : d2 < d1.
Hypothesis H23 : d3 < d2.
Hypothesis H3 : 0 < d3.
Let x1s := (d1 ^ 2 - d2 ^ 2) / (d1 ^ 2 - d3 ^ 2).
Let x3s := (d2 ^ 2 - d3 ^ 2) / (d1 ^ 2 - d3 ^ 2).
Lemma den_pos : 0 < d1 ^ 2 - d3 ^ 2. Proof. nra. Qed.
Lemma x1s_pos : 0 < x1s. Proof. apply Rdiv_lt_0_compat; [nra|apply den_pos]. Qed.
Lemma x3s_pos : 0 < x3s. Proof. apply Rdiv_lt_0_compat; [nra|apply den_pos]. Qed.
Lemma xs_sum : x1s + x3s = 1. Proof. unfold x1s, x3s. pose proof den_pos. field. lra. Qed.
Lemma xs_d2 : d3 ^ 2 * x1s + d1 ^ 2 * x3s = d2 ^ 2. Proof. unfold x1s, x3s. pose proof den_pos. field. lra. Qed.
(** The normals *)
Lemma normals (n : vec) (d : R) (r : mat) : rotation r -> dot n n = 1 -> (forall y, dot n y = 0 -> mvec (diagonal d1 d2 d3) y = vscale d (mvec r y)) ->
  d * d = d2 * d2 /\ vy n = 0 /\ vx n * vx n = x1s /\ vz n * vz n = x3s.
Proof.
  intros Hr Hn H. destruct n as [x1 x2 x3]. unfold dot in Hn. cbn in Hn.
  assert (forall y, dot (Vec x1 x2 x3) y = 0 -> d1 ^ 2 * (vx y * vx y) + d2 ^ 2 * (vy y * vy y) + d3 ^ 2 * (vz y * vz y) = d * d * dot y y) as Hl.
  { intros y Hy. specialize (H y Hy). assert (dot (mvec (diagonal d1 d2 d3) y) (mvec (diagonal d1 d2 d3) y) = d * d * dot y y) as <-.
    - rewrite H. transitivity (d * d * dot (mvec r y) (mvec r y)); [unfold dot, vscale; cbn; ring|]. by rewrite dot_mvec.
    - unfold dot, mvec, diagonal. cbn. ring. }
  pose proof (Hl (Vec (- x2) x1 0) ltac:(unfold dot; cbn; ring)) as E1. pose proof (Hl (Vec (- x3) 0 x1) ltac:(unfold dot; cbn; ring)) as E2.
  pose proof (Hl (Vec 0 (- x3) x2) ltac:(unfold dot; cbn; ring)) as E3. clear Hl H Hr r. unfold dot in *. cbn [vx vy vz] in *.
  set (a := d1 ^ 2) in *. set (b := d2 ^ 2) in *. set (c := d3 ^ 2) in *. set (e := d * d) in *.
  assert (c < b) as Hcb by (unfold b, c; nra). assert (b < a) as Hba by (unfold a, b; nra).
  assert (0 <= x1 * x1) by nra. assert (0 <= x2 * x2) by nra. assert (0 <= x3 * x3) by nra.
  set (p := x1 * x1) in *. set (q := x2 * x2) in *. set (s := x3 * x3) in *.
  assert (F1 : (e - a) * q + (e - b) * p = 0) by (unfold p, q in *; nra).
  assert (F2 : (e - a) * s + (e - c) * p = 0) by (unfold p, s in *; nra).
  assert (F3 : (e - b) * s + (e - c) * q = 0) by (unfold s, q in *; nra).
  assert (e = b) as He.
  { destruct (Rtotal_order e b) as [L|[L|L]]; [exfalso|done|exfalso].
    - assert (p = 0 /\ q = 0) as [Ep Eq] by (split; nra). rewrite Ep, Eq in *. assert ((e - a) * s = 0) by lra. assert (s = 1) by lra. nra.
    - assert (s = 0 /\ q = 0) as [Ep Eq] by (split; nra). rewrite Ep, Eq in *. assert ((e - c) * p = 0) by lra. assert (p = 1) by lra. nra. }
  rewrite He in *. assert (q = 0) as Eq by nra. rewrite Eq in *.
  split; [unfold b; ring|]. split; [unfold q in Eq; nra|]. pose proof den_pos. fold a c in H2. unfold x1s, x3s. fold a b c. split.
  - apply (Rmult_eq_reg_r (a - c)); [|lra]. unfold Rdiv. rewrite Rmult_assoc, Rinv_l, Rmult_1_r by lra. nra.
  - apply (Rmult_eq_reg_r (a - c)); [|lra]. unfold Rdiv. rewrite Rmult_assoc, Rinv_l, Rmult_1_r by lra. nra.
Qed.
End diag.
Lemma cross_rotation m u v : rotation m -> cross (mvec m u) (mvec m v) = mvec m (cross u v).
Proof.
  intros H. pose proof (rotation_adj m H) as A. destruct m as [a b c d e f g h i], u as [u1 u2 u3], v as [w1 w2 w3]. unfold adj, mT in A. cbn in A. injection A as A1 A2 A3 A4 A5 A6 A7 A8 A9.
  unfold cross, mvec. cbn. f_equal.
  - transitivity ((e * i - f * h) * (u2 * w3 - u3 * w2) + (f * g - d * i) * (u3 * w1 - u1 * w3) + (d * h - e * g) * (u1 * w2 - u2 * w1)); [ring|]. rewrite A1, A4, A7. ring.
  - transitivity ((c * h - b * i) * (u2 * w3 - u3 * w2) + (a * i - c * g) * (u3 * w1 - u1 * w3) + (b * g - a * h) * (u1 * w2 - u2 * w1)); [ring|]. rewrite A2, A5, A8. ring.
  - transitivity ((b * f - c * e) * (u2 * w3 - u3 * w2) + (c * d - a * f) * (u3 * w1 - u1 * w3) + (a * e - b * d) * (u1 * w2 - u2 * w1)); [ring|]. rewrite A3, A6, A9. ring.
Qed.
Lemma mvec_inj' a b : (forall v, mvec a v = mvec b v) -> a = b.
Proof.
  intros H. pose proof (H (Vec 1 0 0)) as H1. pose proof (H (Vec 0 1 0)) as H2. pose proof (H (Vec 0 0 1)) as H3. destruct a, b. unfold mvec in *. cbn in *.
  injection H1 as A1 A2 A3. injection H2 as B1 B2 B3. injection H3 as C1 C2 C3. f_equal; lra.
Qed.
(** The motion is given by the homography, the normal and the distance. *)
Lemma decomposition_unique n d r1 r2 t1 t2 : rotation r1 -> rotation r2 -> dot n n = 1 -> d <> 0 ->
  (forall y, vadd (vscale d (mvec r1 y)) (vscale (dot n y) t1) = vadd (vscale d (mvec r2 y)) (vscale (dot n y) t2)) -> r1 = r2 /\ t1 = t2.
Proof.
  intros Hr1 Hr2 Hn Hd H.
  assert (forall y, dot n y = 0 -> mvec r1 y = mvec r2 y) as Hp.
  { intros y Hy. specialize (H y). rewrite Hy in H. destruct (mvec r1 y), (mvec r2 y), t1, t2. unfold vadd, vscale in H. cbn in H. injection H as A B C.
    f_equal; (apply (Rmult_eq_reg_l d); [lra|done]). }
  assert (exists y, dot n y = 0 /\ dot y y <> 0) as (y & Hy & Hyy).
  { destruct n as [a b c]. unfold dot in Hn. cbn in Hn. destruct (Req_dec a 0) as [->|Ha].
    - exists (Vec 1 0 0). unfold dot. cbn. split; [ring|lra].
    - exists (Vec (- b) a 0). unfold dot. cbn. split; [ring|nra]. }
  assert (mvec r1 n = mvec r2 n) as En.
  { assert (forall r, rotation r -> vscale (dot y y) (mvec r n) = cross (mvec r y) (mvec r (cross n y))) as Hc.
    { intros r Hr. rewrite cross_rotation, <- mvec_scale by done. f_equal. destruct n as [a b c], y as [p q s]. unfold dot in *. cbn in Hy. unfold vscale, cross. cbn.
      f_equal; [transitivity ((p*p+q*q+s*s)*a - p * (a*p+b*q+c*s)); [rewrite Hy; ring|ring]|transitivity ((p*p+q*q+s*s)*b - q * (a*p+b*q+c*s)); [rewrite Hy; ring|ring]|transitivity ((p*p+q*q+s*s)*c - s * (a*p+b*q+c*s)); [rewrite Hy; ring|ring]]. }
    pose proof (Hc r1 Hr1) as C1. pose proof (Hc r2 Hr2) as C2. rewrite (Hp y Hy) in C1. rewrite (Hp (cross n y)) in C1.
    - rewrite <- C2 in C1. destruct (mvec r1 n), (mvec r2 n). unfold vscale in C1. cbn in C1. injection C1 as A B C. f_equal; by apply (Rmult_eq_reg_l (dot y y)).
    - unfold dot, cross. cbn. ring. }
  assert (r1 = r2) as ->.
  { apply mvec_inj'. intros v. replace v with (vadd (vsub v (vscale (dot n v) n)) (vscale (dot n v) n)) by vring.
    rewrite !mvec_add, !mvec_scale, En. f_equal. apply Hp. transitivity (dot n v - dot n v * dot n n); [unfold dot, vsub, vscale; cbn; ring|rewrite Hn; ring]. }
  split; [done|]. specialize (H n). rewrite Hn in H. destruct t1, t2, (mvec r2 n). unfold vadd, vscale in H. cbn in H. injection H as A B C. f_equal; lra.
Qed.
Section diag2.
Variables d1 d2 d3 : R.
Hypothesis H12 : d2 < d1.
Hypothesis H23 : d3 < d2.
Hypothesis H3 : 0 < d3.
Let X1 := (d1 ^ 2 - d2 ^ 2) / (d1 ^ 2 - d3 ^ 2).
Let X3 := (d2 ^ 2 - d3 ^ 2) / (d1 ^ 2 - d3 ^ 2).
Variables x1 x3 : R.
Hypothesis E1 : x1 * x1 = X1.
Hypothesis E3 : x3 * x3 = X3.
Let st := (d1 - d3) * (x1 * x3 / d2).
Let ct := (d3 * x1 ^ 2 + d1 * x3 ^ 2) / d2.
Let sp := (d1 + d3) * (x1 * x3 / d2).
Let cp := (d3 * x1 ^ 2 - d1 * x3 ^ 2) / d2.
Lemma sum13 : x1 * x1 + x3 * x3 = 1. Proof. rewrite E1, E3. by apply xs_sum. Qed.
Lemma sum_d2 : d3 ^ 2 * (x1 * x1) + d1 ^ 2 * (x3 * x3) = d2 ^ 2. Proof. rewrite E1, E3. by apply xs_d2. Qed.
Lemma sc_theta : st * st + ct * ct = 1.
Proof.
  pose proof sum13. pose proof sum_d2. unfold st, ct. apply (Rmult_eq_reg_r (d2 * d2)); [|nra].
  transitivity ((d3 ^ 2 * (x1 * x1) + d1 ^ 2 * (x3 * x3)) * (x1 * x1 + x3 * x3)); [field; lra|]. rewrite H, H0. ring.
Qed.
Lemma sc_phi : sp * sp + cp * cp = 1.
Proof.
  pose proof sum13. pose proof sum_d2. unfold sp, cp. apply (Rmult_eq_reg_r (d2 * d2)); [|nra].
  transitivity ((d3 ^ 2 * (x1 * x1) + d1 ^ 2 * (x3 * x3)) * (x1 * x1 + x3 * x3)); [field; lra|]. rewrite H, H0. ring.
Qed.
Let Rp := Mat ct 0 (- st) 0 1 0 st 0 ct.
Let Rn := Mat cp 0 sp 0 (-1) 0 sp 0 (- cp).
Lemma Rp_rotation : rotation Rp.
Proof. pose proof sc_theta as H. unfold Rp. clearbody st ct. assert (E : st * st = 1 - ct * ct) by lra. split; [apply mat_eq; cbn; ring [E]|unfold det; cbn; ring [E]]. Qed.
Lemma Rn_rotation : rotation Rn.
Proof. pose proof sc_phi as H. unfold Rn. clearbody sp cp. assert (E : sp * sp = 1 - cp * cp) by lra. split; [apply mat_eq; cbn; ring [E]|unfold det; cbn; ring [E]]. Qed.
Lemma Rp_dec y : mvec (diagonal d1 d2 d3) y = vadd (vscale d2 (mvec Rp y)) (vscale (dot (Vec x1 0 x3) y) (vscale (d1 - d3) (Vec x1 0 (- x3)))).
Proof.
  pose proof sum13 as E. destruct y as [a b c]. unfold Rp, ct, st, mvec, diagonal, vadd, vscale, dot. cbn. f_equal; [transitivity (d1 * a * (x1 * x1 + x3 * x3)); [rewrite E; ring|field; lra]|field; lra|transitivity (d3 * c * (x1 * x1 + x3 * x3)); [rewrite E; ring|field; lra]].
Qed.
Lemma Rn_dec y : mvec (diagonal d1 d2 d3) y = vadd (vscale (- d2) (mvec Rn y)) (vscale (dot (Vec x1 0 x3) y) (vscale (d1 + d3) (Vec x1 0 x3))).
Proof.
  pose proof sum13 as E. destruct y as [a b c]. unfold Rn, cp, sp, mvec, diagonal, vadd, vscale, dot. cbn. f_equal; [transitivity (d1 * a * (x1 * x1 + x3 * x3)); [rewrite E; ring|field; lra]|field; lra|transitivity (d3 * c * (x1 * x1 + x3 * x3)); [rewrite E; ring|field; lra]].
Qed.
End diag2.

Lemma mT_mscale k m : mT (mscale k m) = mscale k (mT m). Proof. vring. Qed.
Lemma mmul_scale_l k a b : mmul (mscale k a) b = mscale k (mmul a b). Proof. vring. Qed.
Lemma mmul_scale_r k a b : mmul a (mscale k b) = mscale k (mmul a b). Proof. vring. Qed.
Lemma mscale_mscale k l a : mscale k (mscale l a) = mscale (k * l) a. Proof. vring. Qed.
Lemma add_opp_scale x k t : vadd x (vscale k t) = vsub x (vscale (- k) t). Proof. vring. Qed.
Lemma sub_scale m x k t : mvec m (vsub x (vscale k t)) = vadd (mvec m x) (vscale (- k) (mvec m t)). Proof. vring. Qed.
Lemma vopp_vopp x : vopp (vopp x) = x. Proof. vring. Qed.
(** * The general homography *)
Section general.
Variables u vh : mat.
Variables d1 d2 d3 : R.
Hypothesis Hu : orthogonal u.
Hypothesis Hv : orthogonal vh.
Let s := det u * det vh.
Let h := mmul (mmul u (diagonal d1 d2 d3)) vh.
Lemma s_sq : s * s = 1.
Proof. unfold s. pose proof (orthogonal_det u Hu). pose proof (orthogonal_det vh Hv). transitivity (det u * det u * (det vh * det vh)); [ring|]. rewrite H, H0. ring. Qed.
Lemma h_det : det h = s * (d1 * d2 * d3).
Proof. unfold h. rewrite !det_mmul. unfold s. replace (det (diagonal d1 d2 d3)) with (d1 * d2 * d3) by (unfold det, diagonal; cbn; ring). ring. Qed.
Lemma det_mscale k m : det (mscale k m) = k * k * k * det m.
Proof. destruct m. unfold det, mscale. cbn. ring. Qed.
Lemma lift_rotation a b r : orthogonal a -> orthogonal b -> det a * det b = s -> rotation r -> rotation (mscale s (mmul (mmul a r) b)).
Proof.
  intros Ha Hb Hs [Hr1 Hr2]. pose proof s_sq as Hss. split.
  - rewrite mT_mscale, mmul_scale_l, mmul_scale_r, mscale_mscale, Hss, mscale_1, !mT_mmul. rewrite <- !mmul_assoc, (mmul_assoc b), Hb, mmul_I_l, (mmul_assoc r), Hr1, mmul_I_l. done.
  - rewrite det_mscale, !det_mmul, Hr2. rewrite Rmult_1_r, Hs. transitivity (s * s * (s * s)); [ring|]. rewrite Hss. ring.
Qed.
Lemma lift_explains r t n d : rotation r -> dot n n = 1 -> (forall y, mvec (diagonal d1 d2 d3) y = vadd (vscale d (mvec r y)) (vscale (dot n y) t)) ->
  explains h (mscale s (mmul (mmul u r) vh)) (mvec u t) (vopp (mvec (mT vh) n)) (s * d).
Proof.
  intros Hr Hn H. pose proof s_sq as Hss. apply explains_matrix.
  - by apply lift_rotation.
  - transitivity (dot (mvec (mT vh) n) (mvec (mT vh) n)); [unfold dot, vopp; cbn; ring|]. rewrite dot_orth; [done|by apply orthogonal_T].
  - intros y. unfold h. rewrite !mvec_mmul, H, mvec_add, !mvec_scale, mvec_mscale, !mvec_mmul.
    replace (dot (vopp (mvec (mT vh) n)) y) with (- dot n (mvec vh y)).
    + rewrite vscale_vscale. replace (s * d * s) with (d * (s * s)) by ring. rewrite Hss, Rmult_1_r. apply add_opp_scale.
    + transitivity (- dot (mvec (mT vh) n) y); [|unfold dot, vopp; cbn; ring]. by rewrite dot_mT, mT_T.
Qed.
Lemma lower_explains R t n d : d1 * d2 * d3 <> 0 -> explains h R t n d -> let r := mscale s (mmul (mmul (mT u) R) (mT vh)) in
  rotation r /\ dot (vopp (mvec vh n)) (vopp (mvec vh n)) = 1 /\ s * d <> 0 /\
  (forall y, mvec (diagonal d1 d2 d3) y = vadd (vscale (s * d) (mvec r y)) (vscale (dot (vopp (mvec vh n)) y) (mvec (mT u) t))) /\
  R = mscale s (mmul (mmul u r) vh) /\ t = mvec u (mvec (mT u) t) /\ n = vopp (mvec (mT vh) (vopp (mvec vh n))) /\ d = s * (s * d).
Proof.
  intros Hd He r. pose proof s_sq as Hss. assert (det h <> 0) as Hdet. { rewrite h_det. apply Rmult_integral_contrapositive_currified; [|done]. intros E. rewrite E in Hss. lra. }
  destruct (explains_matrix' _ _ _ _ _ Hdet He) as [Hdn Hm]. destruct He as (HR & Hn & _). apply norm_one in Hn.
  split; [apply lift_rotation; [by apply orthogonal_T|by apply orthogonal_T|by rewrite !det_T|done]|].
  split; [transitivity (dot (mvec vh n) (mvec vh n)); [unfold dot, vopp; cbn; ring|by rewrite dot_orth]|].
  split; [intros E; apply Hdn; transitivity (s * s * d); [rewrite Hss; ring|transitivity (s * (s * d)); [ring|rewrite E; ring]]|].
  split; [|split; [|split; [|split]]].
  - intros y. transitivity (mvec (mT u) (mvec h (mvec (mT vh) y))).
    { unfold h. rewrite !mvec_mmul. rewrite <- (mvec_mmul vh), Hv, mvec_I. rewrite <- (mvec_mmul (mT u)), orthogonal_l, mvec_I by done. done. }
    rewrite Hm. unfold r. rewrite mvec_mscale, !mvec_mmul, vscale_vscale. replace (s * d * s) with (d * (s * s)) by ring. rewrite Hss, Rmult_1_r.
    replace (dot (vopp (mvec vh n)) y) with (- dot n (mvec (mT vh) y)); [by rewrite sub_scale, mvec_scale|].
    transitivity (- dot (mvec vh n) y); [by rewrite dot_mT|unfold dot, vopp; cbn; ring].
  - unfold r. rewrite mmul_scale_r, mmul_scale_l, mscale_mscale, Hss, mscale_1. rewrite <- !mmul_assoc, (orthogonal_l vh), mmul_I_r, mmul_assoc, Hu, mmul_I_l by done. done.
  - by rewrite <- mvec_mmul, Hu, mvec_I.
  - rewrite mvec_opp, <- mvec_mmul, orthogonal_l, mvec_I by done. by rewrite vopp_vopp.
  - transitivity (s * s * d); [rewrite Hss; ring|ring].
Qed.
End general.
