(** Proofs about the geodetic conversions. *)
From stdpp Require Import prelude.
From Coq Require Import Reals Lra Nsatz.
From Verif Require Import Base Lin PoseModel GeoModel GeoSpec.
Local Open Scope R_scope.

Lemma a_pos : 0 < WGS84_a. Proof. unfold WGS84_a. lra. Qed.
Lemma b_pos : 0 < WGS84_b. Proof. unfold WGS84_b. lra. Qed.
Lemma b_lt_a : WGS84_b < WGS84_a. Proof. unfold WGS84_a, WGS84_b. lra. Qed.
Lemma sc2 t : sin t * sin t + cos t * cos t = 1.
Proof. pose proof (sin2_cos2 t) as H. unfold Rsqr in H. exact H. Qed.

(** The denominator of the model's L *)
Definition D2 (t : R) : R := WGS84_a ^ 2 * cos t ^ 2 + WGS84_b ^ 2 * sin t ^ 2.
Definition L (t : R) : R := 1 / sqrt (D2 t).
Lemma D2_pos t : 0 < D2 t.
Proof.
  pose proof a_pos. pose proof b_pos. pose proof b_lt_a. pose proof (sc2 t). unfold D2.
  assert (WGS84_b ^ 2 * cos t ^ 2 <= WGS84_a ^ 2 * cos t ^ 2). { apply Rmult_le_compat_r; [nra|]. nra. }
  assert (0 < WGS84_b ^ 2) by nra. assert (WGS84_b ^ 2 * cos t ^ 2 + WGS84_b ^ 2 * sin t ^ 2 = WGS84_b ^ 2). { rewrite <- Rmult_plus_distr_l. replace (cos t ^ 2 + sin t ^ 2) with 1 by (simpl; lra). ring. }
  lra.
Qed.
Lemma L_pos t : 0 < L t.
Proof. unfold L. apply Rdiv_lt_0_compat; [lra|]. apply sqrt_lt_R0, D2_pos. Qed.
Lemma L_sq t : L t * L t * D2 t = 1.
Proof.
  unfold L. pose proof (D2_pos t) as H. assert (sqrt (D2 t) <> 0) by (apply Rgt_not_eq, sqrt_lt_R0, H).
  rewrite <- (sqrt_sqrt (D2 t)) at 3 by lra. field. done.
Qed.

Lemma ecef_eq lat lon alt : ecef_from_lla lat lon alt =
  let t := radians lat in let o := radians lon in
  Vec ((WGS84_a ^ 2 * L t + alt) * cos t * cos o) ((WGS84_a ^ 2 * L t + alt) * cos t * sin o) ((WGS84_b ^ 2 * L t + alt) * sin t).
Proof. reflexivity. Qed.

(** ** atan2 *)
Lemma atan2_polar r t : 0 < r -> - PI < t <= PI -> atan2 (r * sin t) (r * cos t) = t.
Proof.
  intros Hr Ht. pose proof PI_RGT_0 as HP. unfold atan2.
  assert (forall c, c <> 0 -> r * sin t / (r * c) = sin t / c) as Ediv by (intros; field; split; lra).
  destruct (Rlt_dec 0 (r * cos t)) as [Hc|Hc].
  - assert (0 < cos t) as Hc' by nra. rewrite Ediv by lra. change (sin t / cos t) with (tan t).
    assert (- PI / 2 < t < PI / 2) as Hr'; [|rewrite atan_tan; [done|lra]]. split.
    + destruct (Rlt_dec (- PI / 2) t) as [|n]; [done|]. exfalso. assert (cos (- t) <= 0) by (apply cos_le_0; lra). rewrite cos_neg in H. lra.
    + destruct (Rlt_dec t (PI / 2)) as [|n]; [done|]. exfalso. assert (cos t <= 0) by (apply cos_le_0; lra). lra.
  - destruct (Rlt_dec (r * cos t) 0) as [Hc2|Hc2].
    + assert (cos t < 0) as Hc' by nra. rewrite Ediv by lra. change (sin t / cos t) with (tan t).
      destruct (Rle_dec 0 (r * sin t)) as [Hs|Hs].
      * assert (0 <= sin t) as Hs' by nra.
        assert (PI / 2 < t) as Ht2.
        { destruct (Rlt_dec (PI / 2) t); [done|]. exfalso. destruct (Rle_dec (- (PI / 2)) t); [pose proof (cos_ge_0 t); lra|]. assert (sin (- t) > 0) as H by (apply sin_gt_0; lra). rewrite sin_neg in H. lra. }
        replace (tan t) with (tan (t - PI)); [rewrite atan_tan; lra|]. unfold tan. replace (t - PI) with (- (PI - t)) by ring. rewrite sin_neg, cos_neg, sin_PI_x, Rtrigo_facts.cos_pi_minus. field. lra.
      * assert (sin t < 0) as Hs' by nra.
        assert (t < - (PI / 2)) as Ht2.
        { destruct (Rlt_dec t (- (PI / 2))); [done|]. exfalso. destruct (Rle_dec t (PI / 2)); [pose proof (cos_ge_0 t); lra|]. assert (0 <= sin t) as H by (apply sin_ge_0; lra). lra. }
        replace (tan t) with (tan (t + PI)); [rewrite atan_tan; lra|]. unfold tan. rewrite neg_sin, neg_cos. field. lra.
    + assert (cos t = 0) as Hc0 by nra. pose proof (sc2 t) as H. rewrite Hc0 in H.
      assert (sin t = 1 \/ sin t = -1) as [Hs|Hs]. { assert ((sin t - 1) * (sin t + 1) = 0) as E by nra. apply Rmult_integral in E as [E|E]; [left|right]; lra. }
      * rewrite Hs, Rmult_1_r. destruct (Rlt_dec 0 r) as [_|]; [|lra].
        destruct (Rle_dec 0 t) as [Ht0|Ht0].
        -- apply cos_inj; try lra. by rewrite cos_PI2.
        -- exfalso. assert (sin (- t) > 0) as H' by (apply sin_gt_0; lra). rewrite sin_neg in H'. lra.
      * rewrite Hs. destruct (Rlt_dec 0 (r * -1)) as [|_]; [lra|]. destruct (Rlt_dec (r * -1) 0) as [_|]; [|lra].
        destruct (Rle_dec 0 t) as [Ht0|Ht0]; [pose proof (sin_ge_0 t Ht0); lra|].
        assert (PI / 2 = - t); [|lra]. apply cos_inj; try lra. by rewrite cos_PI2, cos_neg.
Qed.
(** For positive x, atan2 is the angle of (x, y) *)
Lemma atan2_sincos y x r s c : 0 < c -> 0 < r -> s * s + c * c = 1 -> y = r * s -> x = r * c -> sin (atan2 y x) = s /\ cos (atan2 y x) = c.
Proof.
  intros Hc Hr H -> ->. unfold atan2. assert (0 < r * c) by nra. destruct (Rlt_dec 0 (r * c)); [|done].
  replace (r * s / (r * c)) with (s / c) by (field; split; lra). set (t := atan (s / c)).
  assert (tan t = s / c) as Ht by apply atan_right_inv. pose proof (atan_bound (s / c)) as Hb. fold t in Hb.
  assert (0 < cos t) as Hct by (apply cos_gt_0; lra). pose proof (sc2 t) as H2.
  assert (sin t = s / c * cos t) as E. { unfold tan in Ht. rewrite <- Ht. field. lra. }
  rewrite E in H2. assert (cos t * cos t = c * c) as E2. { assert (c * c * (s / c * cos t * (s / c * cos t) + cos t * cos t) = c * c) as E3 by (rewrite H2; ring). assert (c * c * (s / c * cos t * (s / c * cos t) + cos t * cos t) = (s * s + c * c) * (cos t * cos t)) as E4 by (field; lra). rewrite E4, H in E3. lra. }
  assert (cos t = c) as E5. { assert ((cos t - c) * (cos t + c) = 0) as E6 by nra. apply Rmult_integral in E6 as [?|?]; lra. }
  split; [|done]. rewrite E, E5. field. lra.
Qed.

(** ** The frame *)
Lemma frame_rotation lat lon alt : rotation (af_mat (ecef_from_topocentric_transform lat lon alt)).
Proof.
  unfold ecef_from_topocentric_transform. cbn [af_mat]. pose proof (sc2 (radians lat)) as H1. pose proof (sc2 (radians lon)) as H2.
  set (sa := sin (radians lat)) in *. set (ca := cos (radians lat)) in *. set (so := sin (radians lon)) in *. set (co := cos (radians lon)) in *. clearbody sa ca so co.
  split.
  - unfold mmul, mT, mI. cbn [m11 m12 m13 m21 m22 m23 m31 m32 m33]. f_equal; try nsatz.
  - unfold det. cbn [m11 m12 m13 m21 m22 m23 m31 m32 m33]. nsatz.
Qed.
Lemma affine_inverse_l T x : rotation (af_mat T) -> affine_apply T (affine_apply (affine_inverse T) x) = x.
Proof.
  intros H. unfold affine_apply, affine_inverse, inv_rot, inv_tr. cbn [af_mat af_vec]. rewrite mvec_add, mvec_opp, <- !mvec_mmul, (rotation_inv _ H), (rotation_r _ H), !mvec_I, <- vadd_assoc, vopp_add. apply vadd_0_r.
Qed.
Lemma affine_inverse_r T x : rotation (af_mat T) -> affine_apply (affine_inverse T) (affine_apply T x) = x.
Proof.
  intros H. unfold affine_apply, affine_inverse, inv_rot, inv_tr. cbn [af_mat af_vec]. rewrite mvec_add, <- !mvec_mmul, (rotation_inv _ H), (rotation_l _ H), !mvec_I, <- vadd_assoc, vadd_opp. apply vadd_0_r.
Qed.
Lemma affine_distance T x y : rotation (af_mat T) -> distance (affine_apply T x) (affine_apply T y) = distance x y.
Proof.
  intros H. unfold distance, norm. f_equal. assert (vsub (affine_apply T x) (affine_apply T y) = mvec (af_mat T) (vsub x y)) as ->; [|by apply dot_mvec].
  unfold affine_apply. destruct T as [m v]. cbn. vring.
Qed.
Lemma affine_inverse_rotation T : rotation (af_mat T) -> rotation (af_mat (affine_inverse T)).
Proof. intros H. cbn. unfold inv_rot. rewrite (rotation_inv _ H). by apply rotation_T. Qed.

(** ** Bowring's formula on the ellipsoid *)
Lemma degrees_radians x : degrees (radians x) = x.
Proof. unfold degrees, radians. pose proof PI_RGT_0. field. lra. Qed.
Lemma sqrt_e2 k : WGS84_b < k \/ k = WGS84_b -> 0 < k -> sqrt ((WGS84_a ^ 2 - WGS84_b ^ 2) / k ^ 2) ^ 2 = (WGS84_a ^ 2 - WGS84_b ^ 2) / k ^ 2.
Proof.
  intros _ Hk. pose proof a_pos. pose proof b_pos. pose proof b_lt_a. rewrite <- Rsqr_pow2, Rsqr_sqrt; [done|].
  apply Rle_mult_inv_pos; nra.
Qed.
Lemma radians_lat x : -90 < x < 90 -> - (PI / 2) < radians x < PI / 2.
Proof. intros H. pose proof PI_RGT_0. unfold radians. split; [assert (-90 * (PI / 180) < x * (PI / 180)) by (apply Rmult_lt_compat_r; lra)|assert (x * (PI / 180) < 90 * (PI / 180)) by (apply Rmult_lt_compat_r; lra)]; lra. Qed.
Lemma radians_lon x : -180 < x <= 180 -> - PI < radians x <= PI.
Proof. intros H. pose proof PI_RGT_0. unfold radians. split; [assert (-180 * (PI / 180) < x * (PI / 180)) by (apply Rmult_lt_compat_r; lra)|assert (x * (PI / 180) <= 180 * (PI / 180)) by (apply Rmult_le_compat_r; lra)]; lra. Qed.

Lemma sqrt_xy r o : 0 <= r -> sqrt ((r * cos o) ^ 2 + (r * sin o) ^ 2) = r.
Proof.
  intros H. replace ((r * cos o) ^ 2 + (r * sin o) ^ 2) with (r * r); [by apply sqrt_square|]. pose proof (sc2 o). simpl. nsatz.
Qed.
Lemma bowring lat lon : latlon (lat, lon) ->
  lla_from_ecef (vx (ecef_from_lla lat lon 0)) (vy (ecef_from_lla lat lon 0)) (vz (ecef_from_lla lat lon 0)) = Vec lat lon 0.
Proof.
  intros [Hlat Hlon]. cbn in Hlat, Hlon. apply radians_lat in Hlat as Ht. apply radians_lon in Hlon as Ho. rewrite ecef_eq. cbn [vx vy vz]. set (t := radians lat) in *. set (o := radians lon) in *.
  assert (0 < cos t) as Hc by (apply cos_gt_0; lra). pose proof (L_pos t) as HL. pose proof (L_sq t) as HL2. pose proof (sc2 t) as Hsc. unfold D2 in HL2. pose proof a_pos as Ha. pose proof b_pos as Hb. pose proof b_lt_a as Hba.
  unfold lla_from_ecef. rewrite !Rplus_0_r. set (a := WGS84_a) in *. set (b := WGS84_b) in *. set (l := L t) in *. set (c := cos t) in *. set (s := sin t) in *.
  set (r := a ^ 2 * l * c). assert (0 < r) as Hr by (unfold r; apply Rmult_lt_0_compat; [apply Rmult_lt_0_compat; [nra|done]|done]).
  rewrite (sqrt_xy r o) by lra.
  pose proof (sqrt_e2 a) as E1. pose proof (sqrt_e2 b) as E2. fold a b in E1, E2. rewrite E1 by (first [left; done|done]). rewrite E2 by (first [right; done|done]). clear E1 E2.
  rewrite (atan2_polar r o Hr Ho).
  assert (0 < a * c * l) as Hcth by (apply Rmult_lt_0_compat; [apply Rmult_lt_0_compat|]; done).
  destruct (atan2_sincos (b ^ 2 * l * s * a) (r * b) (a * b) (b * s * l) (a * c * l)) as [Es Ec].
  { done. } { apply Rmult_lt_0_compat; done. } { rewrite <- HL2. ring. } { unfold r. ring. } { unfold r. ring. }
  rewrite Es, Ec. fold a b.
  assert (0 < a ^ 2 * b ^ 2 * l ^ 3) as Hk. { apply Rmult_lt_0_compat; [apply Rmult_lt_0_compat|]; apply pow_lt; done. }
  assert (b ^ 2 * l * s + (a ^ 2 - b ^ 2) / b ^ 2 * b * (b * s * l) ^ 3 = a ^ 2 * b ^ 2 * l ^ 3 * s) as ->.
  { replace ((a ^ 2 - b ^ 2) / b ^ 2 * b * (b * s * l) ^ 3) with ((a ^ 2 - b ^ 2) * b ^ 2 * s ^ 3 * l ^ 3) by (field; lra).
    transitivity (b ^ 2 * l * s * (l * l * (a ^ 2 * c ^ 2 + b ^ 2 * s ^ 2)) + (a ^ 2 - b ^ 2) * b ^ 2 * s ^ 3 * l ^ 3); [rewrite HL2; ring|].
    transitivity (a ^ 2 * b ^ 2 * l ^ 3 * s * (s * s + c * c)); [ring|rewrite Hsc; ring]. }
  assert (r - (a ^ 2 - b ^ 2) / a ^ 2 * a * (a * c * l) ^ 3 = a ^ 2 * b ^ 2 * l ^ 3 * c) as ->.
  { replace ((a ^ 2 - b ^ 2) / a ^ 2 * a * (a * c * l) ^ 3) with ((a ^ 2 - b ^ 2) * a ^ 2 * c ^ 3 * l ^ 3) by (field; lra). unfold r.
    transitivity (a ^ 2 * l * c * (l * l * (a ^ 2 * c ^ 2 + b ^ 2 * s ^ 2)) - (a ^ 2 - b ^ 2) * a ^ 2 * c ^ 3 * l ^ 3); [rewrite HL2; ring|].
    transitivity (a ^ 2 * b ^ 2 * l ^ 3 * c * (s * s + c * c)); [ring|rewrite Hsc; ring]. }
  assert (atan2 (a ^ 2 * b ^ 2 * l ^ 3 * s) (a ^ 2 * b ^ 2 * l ^ 3 * c) = t) as ->. { apply atan2_polar; [done|]. pose proof PI_RGT_0. lra. }
  fold c s. assert (1 - (a ^ 2 - b ^ 2) / a ^ 2 * s ^ 2 = / (a * l) * / (a * l)) as ->.
  { assert (a * l <> 0) by nra. apply (Rmult_eq_reg_l (a * l * (a * l))); [|nra]. replace (a * l * (a * l) * (/ (a * l) * / (a * l))) with 1 by (field; split; lra).
    replace (a * l * (a * l) * (1 - (a ^ 2 - b ^ 2) / a ^ 2 * s ^ 2)) with (l * l * (a ^ 2 - (a ^ 2 - b ^ 2) * s ^ 2)) by (field; lra).
    rewrite <- HL2. replace (c ^ 2) with (1 - s ^ 2) by (rewrite <- Hsc; ring). ring. }
  assert (0 < a * l) by nra. rewrite sqrt_square by (left; by apply Rinv_0_lt_compat). unfold t, o. rewrite !degrees_radians. fold t o. f_equal. unfold r. fold c. field. split; lra.
Qed.

(** ** The ellipsoid *)
Lemma L_ge t : / WGS84_a <= L t.
Proof.
  unfold L. pose proof (D2_pos t) as H. pose proof a_pos. pose proof b_pos. pose proof b_lt_a. pose proof (sc2 t). unfold Rdiv. rewrite Rmult_1_l. apply Rinv_le_contravar; [apply sqrt_lt_R0, H|].
  rewrite <- (sqrt_pow2 WGS84_a) by lra. apply sqrt_le_1; [lra|apply pow2_ge_0|]. unfold D2.
  assert (WGS84_b ^ 2 * sin t ^ 2 <= WGS84_a ^ 2 * sin t ^ 2). { apply Rmult_le_compat_r; [apply pow2_ge_0|]. nra. }
  replace (WGS84_a ^ 2) with (WGS84_a ^ 2 * (sin t * sin t + cos t * cos t)) at 2 by (rewrite H3; ring). lra.
Qed.
Lemma on_ellipsoid_0 lat lon : on_ellipsoid (ecef_from_lla lat lon 0).
Proof.
  rewrite ecef_eq. unfold on_ellipsoid. change equatorial_radius with WGS84_a. change polar_radius with WGS84_b. cbn [vx vy vz]. rewrite !Rplus_0_r. set (t := radians lat). set (o := radians lon). pose proof (L_sq t) as HL. unfold D2 in HL. pose proof (sc2 o). pose proof a_pos. pose proof b_pos.
  transitivity (L t * L t * (WGS84_a ^ 2 * cos t ^ 2 * (sin o * sin o + cos o * cos o) + WGS84_b ^ 2 * sin t ^ 2)); [field; lra|]. rewrite H, Rmult_1_r. done.
Qed.
Lemma outwards_0 lat lon alt : outwards (ecef_from_lla lat lon 0) = vscale (L (radians lat)) (col3 (af_mat (ecef_from_topocentric_transform lat lon alt))).
Proof.
  rewrite ecef_eq. unfold outwards, col3, vscale. change equatorial_radius with WGS84_a. change polar_radius with WGS84_b. cbn -[ecef_from_lla pow Rmult L]. pose proof a_pos. pose proof b_pos. rewrite !Rplus_0_r. f_equal; field; lra.
Qed.
Lemma ecef_alt lat lon alt : ecef_from_lla lat lon alt = vadd (ecef_from_lla lat lon 0) (vscale alt (col3 (af_mat (ecef_from_topocentric_transform lat lon alt)))).
Proof. rewrite (ecef_eq lat lon 0), (ecef_eq lat lon alt). unfold vadd, vscale, col3. cbn -[ecef_from_lla pow Rmult L]. f_equal; ring. Qed.
Lemma up_unit lat lon alt : dot (col3 (af_mat (ecef_from_topocentric_transform lat lon alt))) (col3 (af_mat (ecef_from_topocentric_transform lat lon alt))) = 1.
Proof.
  unfold dot, col3. cbn -[ecef_from_lla]. pose proof (sc2 (radians lat)). pose proof (sc2 (radians lon)) as H2.
  transitivity (cos (radians lat) * cos (radians lat) * (sin (radians lon) * sin (radians lon) + cos (radians lon) * cos (radians lon)) + sin (radians lat) * sin (radians lat)); [ring|]. rewrite H2. lra.
Qed.
Lemma altitude_foot lat lon alt : distance (ecef_from_lla lat lon alt) (ecef_from_lla lat lon 0) = Rabs alt.
Proof.
  rewrite ecef_alt. pose proof (up_unit lat lon alt) as Hu. set (n := col3 _) in *. set (p := ecef_from_lla lat lon 0). unfold distance, norm. rewrite <- sqrt_Rsqr_abs. f_equal. unfold Rsqr.
  transitivity (alt * alt * dot n n); [|rewrite Hu; ring]. unfold dot, vsub, vadd, vscale. cbn [vx vy vz]. ring.
Qed.
Lemma altitude_nearest lat lon alt q : - 6335000 <= alt -> on_ellipsoid q -> Rabs alt <= distance (ecef_from_lla lat lon alt) q.
Proof.
  intros Halt Hq. rewrite ecef_alt. pose proof (up_unit lat lon alt) as Hu. pose proof (outwards_0 lat lon alt) as Ho. pose proof (on_ellipsoid_0 lat lon) as Hp. pose proof (L_ge (radians lat)) as HL.
  pose proof a_pos as Ha. pose proof b_pos as Hb. pose proof b_lt_a as Hba.
  set (n := col3 _) in *. set (p := ecef_from_lla lat lon 0) in *. set (l := L (radians lat)) in *. assert (0 < l) as Hl by apply L_pos. clearbody n p l.
  unfold distance, norm. rewrite <- sqrt_Rsqr_abs. apply sqrt_le_1; [apply Rle_0_sqr|apply dot_nonneg|]. unfold Rsqr.
  set (v := vsub q p). set (Q := vx v ^ 2 / WGS84_a ^ 2 + vy v ^ 2 / WGS84_a ^ 2 + vz v ^ 2 / WGS84_b ^ 2).
  assert (2 * dot (outwards p) v = - Q) as E1.
  { assert (2 * dot (outwards p) v + Q = 0); [|lra]. unfold on_ellipsoid in Hp, Hq. change equatorial_radius with WGS84_a in *. change polar_radius with WGS84_b in *.
    transitivity ((vx q ^ 2 / WGS84_a ^ 2 + vy q ^ 2 / WGS84_a ^ 2 + vz q ^ 2 / WGS84_b ^ 2) - (vx p ^ 2 / WGS84_a ^ 2 + vy p ^ 2 / WGS84_a ^ 2 + vz p ^ 2 / WGS84_b ^ 2)); [|rewrite Hp, Hq; ring].
    unfold Q, v, dot, outwards, vsub. change equatorial_radius with WGS84_a. change polar_radius with WGS84_b. cbn [vx vy vz]. field. lra. }
  rewrite Ho in E1.
  assert (2 * l * dot n v = - Q) as E2. { rewrite <- E1. unfold dot, vscale. cbn [vx vy vz]. ring. }
  assert (dot (vsub (vadd p (vscale alt n)) q) (vsub (vadd p (vscale alt n)) q) = dot v v - 2 * alt * dot n v + alt * alt * dot n n) as ->.
  { unfold v, dot, vsub, vadd, vscale. cbn [vx vy vz]. ring. }
  rewrite Hu. assert (0 <= l * (dot v v) + alt * Q) as HQ; [|assert (0 <= l * (dot v v - 2 * alt * dot n v)) as H by (rewrite Rmult_minus_distr_l; replace (l * (2 * alt * dot n v)) with (alt * (2 * l * dot n v)) by ring; rewrite E2; lra); assert (0 <= dot v v - 2 * alt * dot n v) by (apply Rmult_le_reg_l with l; lra); lra].
  assert (0 <= Q) as HQ0. { unfold Q. assert (forall x k, 0 < k -> 0 <= x ^ 2 / k ^ 2) as Hd. { intros x k Hk. apply Rle_mult_inv_pos; [apply pow2_ge_0|by apply pow_lt]. } pose proof (Hd (vx v) _ Ha). pose proof (Hd (vy v) _ Ha). pose proof (Hd (vz v) _ Hb). lra. }
  assert (WGS84_b ^ 2 * Q <= dot v v) as HQ1.
  { unfold Q, dot. assert (forall x, WGS84_b ^ 2 * (x ^ 2 / WGS84_a ^ 2) <= x * x) as Hd.
    { intros x. replace (WGS84_b ^ 2 * (x ^ 2 / WGS84_a ^ 2)) with (x * x * (WGS84_b ^ 2 / WGS84_a ^ 2)) by (field; lra). rewrite <- (Rmult_1_r (x * x)) at 2. apply Rmult_le_compat_l; [apply Rle_0_sqr|]. apply (Rmult_le_reg_r (WGS84_a ^ 2)); [by apply pow_lt|]. replace (WGS84_b ^ 2 / WGS84_a ^ 2 * WGS84_a ^ 2) with (WGS84_b ^ 2) by (field; lra). nra. }
    pose proof (Hd (vx v)). pose proof (Hd (vy v)). assert (WGS84_b ^ 2 * (vz v ^ 2 / WGS84_b ^ 2) = vz v * vz v) by (field; lra). lra. }
  assert (/ WGS84_a * (WGS84_b ^ 2 * Q) <= l * dot v v). { apply Rmult_le_compat; [left; by apply Rinv_0_lt_compat|apply Rmult_le_pos; [apply pow2_ge_0|done]|done|done]. }
  assert (6335000 <= / WGS84_a * WGS84_b ^ 2) as Hn by (unfold WGS84_a, WGS84_b; simpl; lra).
  assert (0 <= (/ WGS84_a * WGS84_b ^ 2 + alt) * Q) by (apply Rmult_le_pos; lra). lra.
Qed.

(** Polar coordinates *)
Lemma polar_exists x y : x <> 0 \/ y <> 0 -> exists r t, 0 < r /\ - PI < t <= PI /\ x = r * cos t /\ y = r * sin t.
Proof.
  intros H. set (r := sqrt (x * x + y * y)). assert (0 < x * x + y * y) as Hp by (destruct H; nra). assert (0 < r) as Hr by (by apply sqrt_lt_R0). assert (r * r = x * x + y * y) as E by (apply sqrt_sqrt; lra).
  assert (-1 <= x / r <= 1) as Hx. { split; [apply (Rmult_le_reg_r r); [done|]|apply (Rmult_le_reg_r r); [done|]]; replace (x / r * r) with x by (field; lra); nra. }
  pose proof (acos_bound (x / r)) as Hb. pose proof (cos_acos _ Hx) as Ec. pose proof (sin_acos _ Hx) as Es. pose proof PI_RGT_0.
  assert (1 - (x / r)² = (y / r)²) as E2. { unfold Rsqr. apply (Rmult_eq_reg_r (r * r)); [|nra]. replace ((1 - x / r * (x / r)) * (r * r)) with (r * r - x * x) by (field; lra). replace (y / r * (y / r) * (r * r)) with (y * y) by (field; lra). lra. }
  rewrite E2, sqrt_Rsqr_abs in Es. destruct (Rle_dec 0 y) as [Hy|Hy].
  - exists r, (acos (x / r)). rewrite Ec, Es, Rabs_right by (apply Rle_ge, Rle_mult_inv_pos; lra). split_and!; try lra; field; lra.
  - assert (y / r < 0) as Hn. { apply (Rmult_lt_reg_r r); [done|]. replace (y / r * r) with y by (field; lra). lra. }
    exists r, (- acos (x / r)). rewrite cos_neg, sin_neg, Ec, Es, Rabs_left by lra. split_and!; try lra; try (field; lra).
    destruct (Rle_lt_or_eq_dec _ _ (proj2 Hb)) as [|Eq]; [lra|]. exfalso. rewrite Eq in Es. rewrite sin_PI, Rabs_left in Es by done. lra.
Qed.
Lemma radians_degrees x : radians (degrees x) = x.
Proof. unfold degrees, radians. pose proof PI_RGT_0. field. lra. Qed.
Lemma ellipsoid_surj p : on_ellipsoid p -> (vx p <> 0 \/ vy p <> 0) -> exists lat lon, latlon (lat, lon) /\ ecef_from_lla lat lon 0 = p.
Proof.
  intros Hp Hxy. destruct (polar_exists _ _ Hxy) as (r & o & Hr & Ho & Ex & Ey). pose proof a_pos as Ha. pose proof b_pos as Hb. pose proof PI_RGT_0 as HP.
  assert (0 < r / WGS84_a ^ 2) as Hr2 by (apply Rdiv_lt_0_compat; [done|by apply pow_lt]).
  destruct (polar_exists (r / WGS84_a ^ 2) (vz p / WGS84_b ^ 2)) as (m & t & Hm & Ht & Em & Ez); [left; lra|].
  assert (0 < cos t) as Hc by nra.
  assert (- (PI / 2) < t < PI / 2) as Ht'.
  { split; [destruct (Rlt_dec (- (PI / 2)) t) as [|n]; [done|]; exfalso; assert (cos (- t) <= 0) as H by (apply cos_le_0; lra); rewrite cos_neg in H; lra|destruct (Rlt_dec t (PI / 2)) as [|n]; [done|]; exfalso; assert (cos t <= 0) by (apply cos_le_0; lra); lra]. }
  exists (degrees t), (degrees o). split.
  { unfold latlon. cbn [fst snd]. assert (forall x y, x < y * (PI / 180) -> degrees x < y) as Hd. { intros x y H. unfold degrees. replace y with (y * (PI / 180) * (180 / PI)) by (field; lra). apply Rmult_lt_compat_r; [apply Rdiv_lt_0_compat; lra|done]. }
    assert (forall x y, x <= y * (PI / 180) -> degrees x <= y) as Hd'. { intros x y H. unfold degrees. replace y with (y * (PI / 180) * (180 / PI)) by (field; lra). apply Rmult_le_compat_r; [left; apply Rdiv_lt_0_compat; lra|done]. }
    assert (forall x y, y * (PI / 180) < x -> y < degrees x) as Hd2. { intros x y H. unfold degrees. replace y with (y * (PI / 180) * (180 / PI)) by (field; lra). apply Rmult_lt_compat_r; [apply Rdiv_lt_0_compat; lra|done]. }
    split; split; [apply Hd2|apply Hd|apply Hd2|apply Hd']; lra. }
  rewrite ecef_eq. cbn zeta. rewrite !radians_degrees, !Rplus_0_r.
  assert (r = WGS84_a ^ 2 * m * cos t) as E1. { rewrite Rmult_assoc, <- Em. field. lra. }
  assert (vz p = WGS84_b ^ 2 * m * sin t) as E2. { rewrite Rmult_assoc, <- Ez. field. lra. }
  assert (m = L t) as Eml.
  { unfold on_ellipsoid in Hp. change equatorial_radius with WGS84_a in Hp. change polar_radius with WGS84_b in Hp. rewrite Ex, Ey, E2, E1 in Hp. pose proof (L_sq t) as HL. pose proof (L_pos t) as HLp. pose proof (D2_pos t) as HD. pose proof (sc2 o) as Hso.
    assert (m * m * D2 t = 1) as E3. { rewrite <- Hp. unfold D2. transitivity (m * m * (WGS84_a ^ 2 * cos t ^ 2 * (sin o * sin o + cos o * cos o) + WGS84_b ^ 2 * sin t ^ 2)); [rewrite Hso; ring|field; lra]. }
    assert ((m - L t) * (m + L t) = 0) as E4. { apply (Rmult_eq_reg_r (D2 t)); [|lra]. lra. } apply Rmult_integral in E4 as [?|?]; lra. }
  rewrite <- Eml, <- E1, <- E2. destruct p as [px py pz]. cbn [vx vy vz] in *. by rewrite Ex, Ey.
Qed.
Lemma longitude_exact lat lon alt : -90 < lat < 90 -> -180 < lon <= 180 -> - 6378137 < alt ->
  let e := ecef_from_lla lat lon alt in vy (lla_from_ecef (vx e) (vy e) (vz e)) = lon.
Proof.
  intros Hlat Hlon Halt. apply radians_lat in Hlat as Ht. apply radians_lon in Hlon as Ho. cbn zeta. rewrite ecef_eq. cbn zeta. unfold lla_from_ecef. cbn [vx vy vz].
  assert (0 < cos (radians lat)) as Hc by (apply cos_gt_0; lra). pose proof (L_ge (radians lat)) as HL.
  assert (WGS84_a <= WGS84_a ^ 2 * L (radians lat)). { replace WGS84_a with (WGS84_a ^ 2 * / WGS84_a) at 1 by (unfold WGS84_a; lra). apply Rmult_le_compat_l; [apply pow2_ge_0|done]. }
  rewrite atan2_polar; [apply degrees_radians| |done]. apply Rmult_lt_0_compat; [|done]. unfold WGS84_a at 2 in H. unfold WGS84_a in *. lra.
Qed.
Lemma equator_exact lon alt : -180 < lon <= 180 -> - 6335000 < alt ->
  let e := ecef_from_lla 0 lon alt in lla_from_ecef (vx e) (vy e) (vz e) = Vec 0 lon alt.
Proof.
  intros Hlon Halt. apply radians_lon in Hlon as Ho. cbn zeta. rewrite ecef_eq. cbn zeta. cbn [vx vy vz]. replace (radians 0) with 0 by (unfold radians; ring). rewrite cos_0, sin_0. pose proof a_pos as Ha. pose proof b_pos as Hb. pose proof b_lt_a as Hba.
  assert (L 0 = / WGS84_a) as ->. { unfold L, D2. rewrite cos_0, sin_0. replace (WGS84_a ^ 2 * 1 ^ 2 + WGS84_b ^ 2 * 0 ^ 2) with (WGS84_a ^ 2) by ring. rewrite sqrt_pow2 by lra. field. lra. }
  replace (WGS84_a ^ 2 * / WGS84_a) with WGS84_a by (field; lra). rewrite Rmult_1_r, Rmult_0_r. set (r := WGS84_a + alt).
  assert ((WGS84_a ^ 2 - WGS84_b ^ 2) / WGS84_a < r) as Hr. { unfold r. replace ((WGS84_a ^ 2 - WGS84_b ^ 2) / WGS84_a) with (WGS84_a - WGS84_b ^ 2 / WGS84_a) by (field; lra). assert (6335000 < WGS84_b ^ 2 / WGS84_a) by (unfold WGS84_a, WGS84_b; simpl; lra). lra. }
  assert (0 < (WGS84_a ^ 2 - WGS84_b ^ 2) / WGS84_a) as He by (apply Rdiv_lt_0_compat; nra). assert (0 < r) as Hr0 by lra.
  unfold lla_from_ecef. rewrite sqrt_xy by lra. rewrite atan2_polar by done.
  assert (forall x, 0 < x -> atan2 0 x = 0) as Hat. { intros x Hx. pose proof (atan2_polar x 0 Hx) as H. rewrite sin_0, cos_0, Rmult_0_r, Rmult_1_r in H. apply H. pose proof PI_RGT_0. lra. }
  rewrite Rmult_0_l, (Hat (r * WGS84_b)) by nra. rewrite sin_0, cos_0, (sqrt_e2 WGS84_a) by (first [left; done|done]).
  replace (0 + _) with 0 by ring. rewrite Hat.
  2:{ replace (r - (WGS84_a ^ 2 - WGS84_b ^ 2) / WGS84_a ^ 2 * WGS84_a * 1 ^ 3) with (r - (WGS84_a ^ 2 - WGS84_b ^ 2) / WGS84_a) by (field; lra). lra. }
  rewrite sin_0, cos_0. replace (1 - (WGS84_a ^ 2 - WGS84_b ^ 2) / WGS84_a ^ 2 * 0 ^ 2) with 1 by (field; lra). rewrite sqrt_1, degrees_radians. f_equal; [unfold degrees; ring|unfold r; field].
Qed.
