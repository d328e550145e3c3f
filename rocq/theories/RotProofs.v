From Coq Require Import Reals Lra Psatz.
From Verif Require Import Lin RotModel.
Local Open Scope R_scope.

(** The rotation matrix of a unit quaternion *)
Definition qmat (q : R * vec) : mat :=
  let w := fst q in let v := snd q in
  Mat (w * w + vx v * vx v - vy v * vy v - vz v * vz v) (2 * (vx v * vy v - w * vz v)) (2 * (vx v * vz v + w * vy v))
      (2 * (vx v * vy v + w * vz v)) (w * w - vx v * vx v + vy v * vy v - vz v * vz v) (2 * (vy v * vz v - w * vx v))
      (2 * (vx v * vz v - w * vy v)) (2 * (vy v * vz v + w * vx v)) (w * w - vx v * vx v - vy v * vy v + vz v * vz v).

Lemma mat_eq (a b : mat) : m11 a = m11 b -> m12 a = m12 b -> m13 a = m13 b -> m21 a = m21 b -> m22 a = m22 b -> m23 a = m23 b ->
  m31 a = m31 b -> m32 a = m32 b -> m33 a = m33 b -> a = b.
Proof. destruct a, b; simpl; congruence. Qed.

Section SO3.
Variables a b c d e f g h i : R.
Hypothesis H : rotation (Mat a b c d e f g h i).
Lemma so3 :
  (a * a + b * b + c * c = 1 /\ d * d + e * e + f * f = 1 /\ g * g + h * h + i * i = 1 /\
   a * d + b * e + c * f = 0 /\ a * g + b * h + c * i = 0 /\ d * g + e * h + f * i = 0) /\
  (a * a + d * d + g * g = 1 /\ b * b + e * e + h * h = 1 /\ c * c + f * f + i * i = 1 /\
   a * b + d * e + g * h = 0 /\ a * c + d * f + g * i = 0 /\ b * c + e * f + h * i = 0) /\
  (e * i - f * h = a /\ f * g - d * i = b /\ d * h - e * g = c /\
   c * h - b * i = d /\ a * i - c * g = e /\ b * g - a * h = f /\
   b * f - c * e = g /\ c * d - a * f = h /\ a * e - b * d = i).
Proof.
  pose proof (rotation_r _ H) as Hr. pose proof (rotation_l _ H) as Hl. pose proof (rotation_adj _ H) as Ha.
  cbv [mmul mT mI adj m11 m12 m13 m21 m22 m23 m31 m32 m33] in Hr, Hl, Ha.
  injection Hr; injection Hl; injection Ha; intros. repeat split; lra.
Qed.
Let D0 := 1 + a + e + i.
Let D1 := 1 + a - e - i.
Let D2 := 1 - a + e - i.
Let D3 := 1 - a - e + i.
Lemma so3_products :
  ((h - f) * (h - f) = D0 * D1 /\ (c - g) * (c - g) = D0 * D2 /\ (d - b) * (d - b) = D0 * D3) /\
  ((h - f) * (c - g) = D0 * (b + d) /\ (h - f) * (d - b) = D0 * (c + g) /\ (c - g) * (d - b) = D0 * (f + h)) /\
  ((b + d) * (b + d) = D1 * D2 /\ (c + g) * (c + g) = D1 * D3 /\ (f + h) * (f + h) = D2 * D3) /\
  ((b + d) * (c + g) = D1 * (f + h) /\ (b + d) * (f + h) = D2 * (c + g) /\ (c + g) * (f + h) = D3 * (b + d)) /\
  ((h - f) * (b + d) = D1 * (c - g) /\ (h - f) * (c + g) = D1 * (d - b) /\
   (c - g) * (b + d) = D2 * (h - f) /\ (c - g) * (f + h) = D2 * (d - b) /\
   (d - b) * (c + g) = D3 * (h - f) /\ (d - b) * (f + h) = D3 * (c - g)).
Proof.
  destruct so3 as ((? & ? & ? & ? & ? & ?) & (? & ? & ? & ? & ? & ?) & (? & ? & ? & ? & ? & ? & ? & ? & ?)).
  unfold D0, D1, D2, D3. repeat split; lra.
Qed.
End SO3.

Lemma qcase (t D w x y z : R) : 0 < D -> t = sqrt D ->
  forall X Y Z : R, (w = t / 2) -> x = X * (/ 2 / t) -> y = Y * (/ 2 / t) -> z = Z * (/ 2 / t) ->
  w * w = D / 4 /\ w * x = X / 4 /\ w * y = Y / 4 /\ w * z = Z / 4 /\
  (forall P, X * X = D * P -> x * x = P / 4) /\ (forall P, Y * Y = D * P -> y * y = P / 4) /\ (forall P, Z * Z = D * P -> z * z = P / 4) /\
  (forall P, X * Y = D * P -> x * y = P / 4) /\ (forall P, X * Z = D * P -> x * z = P / 4) /\ (forall P, Y * Z = D * P -> y * z = P / 4).
Proof.
  intros HD Ht X Y Z -> -> -> ->.
  assert (T : t * t = D) by (subst t; apply sqrt_sqrt; lra). assert (Hp : t <> 0) by (subst t; apply Rgt_not_eq, sqrt_lt_R0; lra).
  assert (E : forall A B P, A * B = D * P -> A * (/ 2 / t) * (B * (/ 2 / t)) = P / 4).
  { intros A B P HE. replace (A * (/ 2 / t) * (B * (/ 2 / t))) with (A * B / (4 * (t * t))) by (field; assumption).
    rewrite HE, T. field. lra. }
  repeat split; try (intros P HP; apply E; exact HP); try (field; assumption).
  rewrite <- T. field.
Qed.

Lemma quaternion_spec m : rotation m ->
  fst (quaternion m) * fst (quaternion m) + dot (snd (quaternion m)) (snd (quaternion m)) = 1 /\ qmat (quaternion m) = m.
Proof.
  destruct m as [a b c d e f g h i]. intros H.
  destruct (so3_products _ _ _ _ _ _ _ _ _ H) as ((Q1 & Q2 & Q3) & (Q4 & Q5 & Q6) & (Q7 & Q8 & Q9) & (Q10 & Q11 & Q12) & (Q13 & Q14 & Q15 & Q16 & Q17 & Q18)).
  unfold quaternion; simpl.
  destruct (Rlt_dec 0 (a + e + i)) as [Ht|Ht]; [|destruct (Rlt_dec (if Rlt_dec a e then e else a) i) as [Hm|Hm]; [|destruct (Rlt_dec a e) as [Hn|Hn]]].
  - destruct (qcase (sqrt (a + e + i + 1)) (a + e + i + 1) _ _ _ _ ltac:(lra) eq_refl (h - f) (c - g) (d - b) eq_refl eq_refl eq_refl eq_refl)
      as (K1 & K2 & K3 & K4 & K5 & K6 & K7 & K8 & K9 & K10).
    specialize (K5 (1 + a - e - i) ltac:(lra)). specialize (K6 (1 - a + e - i) ltac:(lra)). specialize (K7 (1 - a - e + i) ltac:(lra)).
    specialize (K8 (b + d) ltac:(lra)). specialize (K9 (c + g) ltac:(lra)). specialize (K10 (f + h) ltac:(lra)).
    split; [unfold dot; simpl; lra|]. apply mat_eq; simpl; lra.
  - assert (i - a - e + 1 > 0) by (destruct (Rlt_dec a e); lra).
    destruct (qcase (sqrt (i - a - e + 1)) (i - a - e + 1) _ _ _ _ ltac:(lra) eq_refl (d - b) (c + g) (f + h) eq_refl eq_refl eq_refl eq_refl)
      as (K1 & K2 & K3 & K4 & K5 & K6 & K7 & K8 & K9 & K10).
    specialize (K5 (1 + a + e + i) ltac:(lra)). specialize (K6 (1 + a - e - i) ltac:(lra)). specialize (K7 (1 - a + e - i) ltac:(lra)).
    specialize (K8 (h - f) ltac:(lra)). specialize (K9 (c - g) ltac:(lra)). specialize (K10 (b + d) ltac:(lra)).
    split; [unfold dot; simpl; lra|]. apply mat_eq; simpl; lra.
  - assert (e - i - a + 1 > 0) by lra.
    destruct (qcase (sqrt (e - i - a + 1)) (e - i - a + 1) _ _ _ _ ltac:(lra) eq_refl (c - g) (b + d) (h + f) eq_refl eq_refl eq_refl eq_refl)
      as (K1 & K2 & K3 & K4 & K5 & K6 & K7 & K8 & K9 & K10).
    specialize (K5 (1 + a + e + i) ltac:(lra)). specialize (K6 (1 + a - e - i) ltac:(lra)). specialize (K7 (1 - a - e + i) ltac:(lra)).
    specialize (K8 (h - f) ltac:(lra)). specialize (K9 (d - b) ltac:(lra)). specialize (K10 (c + g) ltac:(lra)).
    split; [unfold dot; simpl; lra|]. apply mat_eq; simpl; lra.
  - assert (a - e - i + 1 > 0) by lra.
    destruct (qcase (sqrt (a - e - i + 1)) (a - e - i + 1) _ _ _ _ ltac:(lra) eq_refl (h - f) (d + b) (g + c) eq_refl eq_refl eq_refl eq_refl)
      as (K1 & K2 & K3 & K4 & K5 & K6 & K7 & K8 & K9 & K10).
    specialize (K5 (1 + a + e + i) ltac:(lra)). specialize (K6 (1 - a + e - i) ltac:(lra)). specialize (K7 (1 - a - e + i) ltac:(lra)).
    specialize (K8 (c - g) ltac:(lra)). specialize (K9 (d - b) ltac:(lra)). specialize (K10 (f + h) ltac:(lra)).
    split; [unfold dot; simpl; lra|]. apply mat_eq; simpl; lra.
Qed.

Lemma sincos_double_atan2 n w : 0 < n -> 0 <= w -> n * n + w * w = 1 ->
  sin (2 * atan2_pos n w) = 2 * (n * w) /\ cos (2 * atan2_pos n w) = w * w - n * n.
Proof.
  intros Hn Hw Hu. unfold atan2_pos. destruct (Req_EM_T w 0) as [->|Hw0].
  - replace (2 * (PI / 2)) with PI by field. rewrite sin_PI, cos_PI. split; lra.
  - assert (0 < w) by lra.
    assert (E : 1 + (n / w)² = / w * / w) by (unfold Rsqr; replace 1 with (w * w / (w * w)) by (field; lra); field_simplify; [|lra|lra]; f_equal; lra).
    assert (S : sqrt (1 + (n / w)²) = / w) by (rewrite E; apply sqrt_square; left; apply Rinv_0_lt_compat; assumption).
    rewrite sin_2a, cos_2a, sin_atan, cos_atan, S. split; field; lra.
Qed.
Lemma atan2_pos_range n w : 0 < n -> 0 <= w -> 0 < atan2_pos n w <= PI / 2.
Proof.
  intros Hn Hw. unfold atan2_pos. destruct (Req_EM_T w 0); [pose proof PI_RGT_0; lra|].
  assert (0 < n / w) by (apply Rdiv_lt_0_compat; lra). pose proof (atan_bound (n / w)). pose proof (atan_increasing 0 (n / w) H). rewrite atan_0 in H1. lra.
Qed.

Lemma norm_vscale s v : norm (vscale s v) = Rabs s * norm v.
Proof.
  unfold norm. replace (dot (vscale s v) (vscale s v)) with ((s * s) * dot v v) by (unfold dot, vscale; simpl; ring).
  rewrite sqrt_mult; [|nra|apply dot_nonneg]. f_equal. apply sqrt_Rsqr_abs.
Qed.

(** The vector of a rotation has a norm in [0, pi] and gives the rotation back. *)
Lemma exp_log m : rotation m -> vector_to_rotation (rotation_to_vector m) = m /\ norm (rotation_to_vector m) <= PI.
Proof.
  intros H. destruct (quaternion_spec m H) as (Hu & Hq). unfold rotation_to_vector, quaternion_angle_axis.
  destruct (quaternion m) as [w v]. simpl in *. pose proof (norm_sq v) as Hn. pose proof (norm_nonneg v) as Hp.
  destruct (Req_EM_T (norm v) 0) as [E0|E0].
  - apply norm_0 in E0. subst v. replace (vscale 0 (Vec 1 0 0)) with v0 by (unfold vscale, v0; simpl; f_equal; ring).
    unfold vector_to_rotation. rewrite norm_v0. destruct (Req_EM_T 0 0) as [_|]; [|lra].
    split; [|pose proof PI_RGT_0; lra]. rewrite <- Hq. unfold dot in Hu. simpl in Hu.
    unfold angle_axis_matrix, qmat. rewrite sin_0, cos_0. apply mat_eq; simpl; lra.
  - assert (Hn0 : 0 < norm v) by lra. set (n := norm v) in *.
    assert (Hw : n * n + Rabs w * Rabs w = 1) by (rewrite <- Rabs_mult, Rabs_pos_eq by nra; lra).
    destruct (sincos_double_atan2 n (Rabs w) Hn0 (Rabs_pos w) Hw) as (Hs & Hc).
    pose proof (atan2_pos_range n (Rabs w) Hn0 (Rabs_pos w)) as Hr. set (th := 2 * atan2_pos n (Rabs w)) in *.
    assert (Hc' : cos th = w * w - n * n) by (rewrite Hc, <- Rabs_mult, Rabs_pos_eq by nra; reflexivity). clear Hc.
    assert (0 < th) by (unfold th; lra).
    set (k := if Rlt_dec w 0 then - n else n).
    assert (Hk : k * k = n * n) by (unfold k; destruct (Rlt_dec w 0); ring).
    assert (Hk0 : k <> 0) by (unfold k; destruct (Rlt_dec w 0); lra).
    assert (Hkw : sin th = 2 * (k * w)).
    { rewrite Hs. unfold k, Rabs. destruct (Rlt_dec w 0), (Rcase_abs w); lra. }
    assert (Hax : norm (vscale (/ k) v) = 1).
    { rewrite norm_vscale. fold n. rewrite Rabs_inv. replace (Rabs k) with n; [field; lra|].
      unfold k. destruct (Rlt_dec w 0); [rewrite Rabs_Ropp|]; rewrite Rabs_pos_eq; lra. }
    assert (Hnorm : norm (vscale th (vscale (/ k) v)) = th) by (rewrite norm_vscale, Hax, Rabs_pos_eq by lra; ring).
    split; [|rewrite Hnorm; unfold th; lra].
    unfold vector_to_rotation. rewrite Hnorm. destruct (Req_EM_T th 0); [lra|].
    rewrite vscale_vscale. replace (/ th * th) with 1 by (field; lra). rewrite vscale_1.
    rewrite <- Hq. unfold angle_axis_matrix, qmat. rewrite Hkw, Hc'. destruct v as [x y z]. unfold dot in Hn, Hu. simpl in *.
    assert (Hd : 1 - (w * w - n * n) = 2 * (k * k)) by lra. rewrite Hd.
    apply mat_eq; simpl; field_simplify; try assumption; lra.
Qed.

(** The matrix of a vector is a rotation. *)
Lemma angle_axis_rotation th u : dot u u = 1 -> rotation (angle_axis_matrix th u).
Proof.
  intros Hu. pose proof (sin2_cos2 th) as Hs. unfold Rsqr in Hs. destruct u as [x y z]. unfold dot in Hu. simpl in Hu.
  unfold angle_axis_matrix. simpl. set (s := sin th) in *. set (c := cos th) in *. clearbody s c.
  assert (Ez : z * z = 1 - x * x - y * y) by lra. assert (Es : s * s = 1 - c * c) by lra.
  split.
  - unfold mmul, mT, mI; simpl. f_equal.
    all: (clear Hu Hs).
    all: try (ring [Ez Es]).
  - unfold det; simpl. ring [Ez Es].
Qed.
Lemma exp_zero : vector_to_rotation v0 = mI.
Proof.
  unfold vector_to_rotation. rewrite norm_v0. destruct (Req_EM_T 0 0) as [_|]; [|lra].
  unfold angle_axis_matrix. rewrite sin_0, cos_0. apply mat_eq; simpl; ring.
Qed.
Lemma unit_axis r : norm r <> 0 -> dot (vscale (/ norm r) r) (vscale (/ norm r) r) = 1.
Proof.
  intros H. replace (dot (vscale (/ norm r) r) (vscale (/ norm r) r)) with (dot r r / (norm r * norm r))
    by (unfold dot, vscale; simpl; field; exact H).
  rewrite norm_sq. field. rewrite <- norm_sq. nra.
Qed.
Lemma exp_rotation r : rotation (vector_to_rotation r).
Proof.
  destruct (Req_EM_T (norm r) 0) as [E|E].
  - rewrite (norm_0 _ E), exp_zero. apply rotation_I.
  - unfold vector_to_rotation. destruct (Req_EM_T (norm r) 0); [contradiction|]. apply angle_axis_rotation, unit_axis, E.
Qed.
Lemma norm_vopp r : norm (vopp r) = norm r.
Proof. unfold norm. f_equal. unfold dot, vopp; simpl; ring. Qed.
Lemma exp_opp r : vector_to_rotation (vopp r) = mT (vector_to_rotation r).
Proof.
  unfold vector_to_rotation. rewrite norm_vopp. destruct (Req_EM_T (norm r) 0) as [E|E].
  - rewrite (norm_0 _ E). unfold angle_axis_matrix. rewrite sin_0, cos_0. apply mat_eq; simpl; ring.
  - unfold angle_axis_matrix, mT. apply mat_eq; simpl; ring.
Qed.

(** Unit quaternions with the same matrix are equal up to sign. *)
Lemma qmat_inj (w w' : R) (v v' : vec) : w * w + dot v v = 1 -> w' * w' + dot v' v' = 1 -> qmat (w, v) = qmat (w', v') ->
  (w', v') = (w, v) \/ (w', v') = (- w, vopp v).
Proof.
  destruct v as [x y z], v' as [x' y' z']. unfold dot, vopp; simpl. intros H1 H2 H. injection H; clear H; intros.
  assert (W : w * w = w' * w') by lra. assert (X : x * x = x' * x') by lra. assert (Y : y * y = y' * y') by lra. assert (Z : z * z = z' * z') by lra.
  assert (WX : w * x = w' * x') by lra. assert (WY : w * y = w' * y') by lra. assert (WZ : w * z = w' * z') by lra.
  assert (XY : x * y = x' * y') by lra. assert (XZ : x * z = x' * z') by lra. assert (YZ : y * z = y' * z') by lra.
  clear - H1 H2 W X Y Z WX WY WZ XY XZ YZ.
  (* s = q . q' satisfies s^2 = 1 and s q = q' *)
  set (s := w * w' + x * x' + y * y' + z * z').
  assert (H2' : w' * w' + x' * x' + y' * y' + z' * z' = 1) by lra.
  assert (Sw : s * w = w').
  { replace (s * w) with (w * w * w' + w * x * x' + w * y * y' + w * z * z') by (unfold s; ring). rewrite W, WX, WY, WZ.
    transitivity (w' * (w' * w' + x' * x' + y' * y' + z' * z')); [ring|rewrite H2'; ring]. }
  assert (Sx : s * x = x').
  { replace (s * x) with (w * x * w' + x * x * x' + x * y * y' + x * z * z') by (unfold s; ring). rewrite X, WX, XY, XZ.
    transitivity (x' * (w' * w' + x' * x' + y' * y' + z' * z')); [ring|rewrite H2'; ring]. }
  assert (Sy : s * y = y').
  { replace (s * y) with (w * y * w' + x * y * x' + y * y * y' + y * z * z') by (unfold s; ring). rewrite Y, WY, XY, YZ.
    transitivity (y' * (w' * w' + x' * x' + y' * y' + z' * z')); [ring|rewrite H2'; ring]. }
  assert (Sz : s * z = z').
  { replace (s * z) with (w * z * w' + x * z * x' + y * z * y' + z * z * z') by (unfold s; ring). rewrite Z, WZ, XZ, YZ.
    transitivity (z' * (w' * w' + x' * x' + y' * y' + z' * z')); [ring|rewrite H2'; ring]. }
  assert (S1 : (s - 1) * (s + 1) = 0).
  { replace ((s - 1) * (s + 1)) with (s * s * (w * w + x * x + y * y + z * z) - 1) by (replace (w * w + x * x + y * y + z * z) with 1 by lra; ring).
    replace (s * s * (w * w + x * x + y * y + z * z)) with (s * w * (s * w) + s * x * (s * x) + s * y * (s * y) + s * z * (s * z)) by ring.
    rewrite Sw, Sx, Sy, Sz. lra. }
  apply Rmult_integral in S1 as [S1|S1].
  - left. assert (s = 1) by lra. f_equal; [|f_equal]; nra.
  - right. assert (s = -1) by lra. f_equal; [|f_equal]; nra.
Qed.
Lemma quaternion_angle_axis_opp w v : w <> 0 -> quaternion_angle_axis (- w, vopp v) = quaternion_angle_axis (w, v).
Proof.
  intros Hw. unfold quaternion_angle_axis; simpl. rewrite norm_vopp, Rabs_Ropp. destruct (Req_EM_T (norm v) 0); [reflexivity|].
  f_equal. unfold vscale, vopp; simpl. destruct (Rlt_dec w 0), (Rlt_dec (- w) 0); try lra; f_equal; field; assumption.
Qed.

Lemma log_exp r : norm r < PI -> rotation_to_vector (vector_to_rotation r) = r.
Proof.
  intros Hr. pose proof (norm_nonneg r) as Hp. pose proof PI_RGT_0 as HPI.
  set (hf := norm r / 2).
  assert (Hc : 0 < cos hf) by (apply cos_gt_0; unfold hf; lra).
  set (ax := vscale (/ norm r) r).
  (* the quaternion of r *)
  set (q := (cos hf, if Req_EM_T (norm r) 0 then v0 else vscale (sin hf) ax)).
  assert (Hq : fst q * fst q + dot (snd q) (snd q) = 1 /\ qmat q = vector_to_rotation r).
  { unfold q. simpl. pose proof (sin2_cos2 hf) as SC. unfold Rsqr in SC.
    destruct (Req_EM_T (norm r) 0) as [E|E].
    - rewrite (norm_0 _ E), exp_zero. unfold hf. rewrite E. replace (0 / 2) with 0 by field. rewrite cos_0.
      split; [unfold dot, v0; simpl; ring|]. apply mat_eq; simpl; ring.
    - pose proof (unit_axis r E) as Hax. fold ax in Hax.
      unfold vector_to_rotation. destruct (Req_EM_T (norm r) 0); [contradiction|]. fold ax.
      replace (norm r) with (2 * hf) by (unfold hf; field). unfold angle_axis_matrix. rewrite sin_2a, cos_2a.
      clear q; revert Hax; generalize ax; intros [x y z] Hax. unfold dot in *. simpl in *. set (s := sin hf) in *. set (c := cos hf) in *. clearbody s c.
      assert (Ec : c * c = 1 - s * s) by lra. assert (Ez : z * z = 1 - x * x - y * y) by lra.
      split; [ring [Ec Ez]|]. apply mat_eq; simpl; ring [Ec Ez]. }
  destruct Hq as [Hu Hm].
  destruct (quaternion_spec _ (exp_rotation r)) as [Hu' Hm'].
  unfold rotation_to_vector. destruct (quaternion (vector_to_rotation r)) as [w' v'] eqn:Eq. destruct q as [w v] eqn:Eqq. simpl in *.
  assert (Hw : w = cos hf) by (unfold q in Eqq; injection Eqq; auto).
  assert (Hqa : quaternion_angle_axis (w', v') = quaternion_angle_axis (w, v)).
  { destruct (qmat_inj w w' v v' Hu Hu') as [->|E]; [congruence|reflexivity|]. rewrite E. apply quaternion_angle_axis_opp. lra. }
  rewrite Hqa. unfold quaternion_angle_axis; simpl. subst w. unfold q in Eqq.
  destruct (Req_EM_T (norm r) 0) as [E|E].
  - injection Eqq as <-. rewrite norm_v0. destruct (Req_EM_T 0 0); [|lra].
    rewrite (norm_0 _ E). unfold vscale, v0; simpl. f_equal; ring.
  - injection Eqq as <-. assert (Hs : 0 < sin hf) by (apply sin_gt_0; unfold hf; lra).
    assert (Hn : norm (vscale (sin hf) ax) = sin hf).
    { rewrite norm_vscale. replace (norm ax) with 1; [rewrite Rabs_pos_eq by lra; ring|].
      symmetry. unfold norm. unfold ax. rewrite (unit_axis r E). apply sqrt_1. }
    rewrite Hn. destruct (Req_EM_T (sin hf) 0); [lra|]. rewrite Rabs_pos_eq by lra. destruct (Rlt_dec (cos hf) 0); [lra|].
    assert (Ha : atan2_pos (sin hf) (cos hf) = hf).
    { unfold atan2_pos. destruct (Req_EM_T (cos hf) 0); [lra|]. replace (sin hf / cos hf) with (tan hf) by reflexivity. apply atan_tan. unfold hf; lra. }
    rewrite Ha. unfold ax. rewrite !vscale_vscale. replace (2 * hf * / sin hf * sin hf * / norm r) with 1 by (assert (Hh : norm r = 2 * hf) by (unfold hf; field); rewrite Hh in *; field; lra).
    apply vscale_1.
Qed.
