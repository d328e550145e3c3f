(** Proofs about the camera angles read from XMP. *)
From stdpp Require Import prelude gmap strings.
From Coq Require Import Reals Lra Psatz.
From Verif Require Import Base Lin RotModel RotProofs GeoModel GeoSpec GeoProofs AnglesModel AnglesSpec AnglesProofs AnglesProps ExifModel OpkModel OpkSpec.
Local Open Scope R_scope.

Definition drone (y p r : R) : mat :=
  let s := starboard y p r in let n := nose y p in let b := below y p r in
  Mat (vx s) (vy s) (vz s) (- vx n) (- vy n) (- vz n) (vx b) (vy b) (vz b).
Lemma drone_is y p r : is_drone_camera (drone y p r) y p r.
Proof. unfold is_drone_camera, right_axis, down_axis, forward_axis, drone. cbn [m11 m12 m13 m21 m22 m23 m31 m32 m33]. repeat split; apply vec_eq; done. Qed.
Lemma drone_unique m y p r : is_drone_camera m y p r -> m = drone y p r.
Proof. intros (H1 & H2 & H3). unfold drone. rewrite <- H3, <- H1. replace (nose y p) with (vopp (down_axis m)) by (rewrite H2; destruct (nose y p); unfold vopp; cbn; f_equal; ring). destruct m. cbn. f_equal; ring. Qed.
Lemma ceb_north y p r :
  mmul (mmul (columns (Vec 0 1 0) (cross (Vec 0 0 (-1)) (Vec 0 1 0)) (Vec 0 0 (-1))) (ypr_matrix y p r)) image_to_body = mmul (mT (drone y p r)) opk_Rc.
Proof.
  pose proof (sc2 y). pose proof (sc2 p). pose proof (sc2 r).
  unfold drone, below, starboard, nose, opk_Rc, image_to_body, ypr_matrix, columns, mmul, mT, cross, vadd, vscale.
  cbn [m11 m12 m13 m21 m22 m23 m31 m32 m33 vx vy vz]. f_equal; try ring.
  - transitivity (- (sin y * sin p * cos r - cos y * sin r * (sin p * sin p + cos p * cos p))); [rewrite H0; ring|ring].
  - transitivity (- (cos y * sin p * cos r + sin y * sin r * (sin p * sin p + cos p * cos p))); [rewrite H0; ring|ring].
  - transitivity (cos p * cos r * (sin y * sin y + cos y * cos y)); [rewrite H; ring|ring].
Qed.
Lemma ypr_rotation y p r : rotation (ypr_matrix y p r).
Proof.
  assert (ypr_matrix y p r = mmul (turn_z y) (mmul (turn_y p) (turn_x r))) as ->.
  { unfold ypr_matrix, turn_x, turn_y, turn_z, mmul. cbn [m11 m12 m13 m21 m22 m23 m31 m32 m33]. f_equal; ring. }
  apply rotation_mmul; [apply turn_z_rotation|]. apply rotation_mmul; [apply turn_y_rotation|apply turn_x_rotation].
Qed.
Lemma drone_rotation y p r : rotation (drone y p r).
Proof.
  assert (drone y p r = mmul opk_Rc (mT (mmul (mmul (columns (Vec 0 1 0) (cross (Vec 0 0 (-1)) (Vec 0 1 0)) (Vec 0 0 (-1))) (ypr_matrix y p r)) image_to_body))) as ->.
  { rewrite ceb_north, mT_mmul, mT_T, Rc_T, mmul_assoc, Rc_Rc. by rewrite mmul_I_l. }
  apply rotation_mmul; [apply Rc_rotation|]. apply rotation_T.
  replace (mmul (mmul (columns (Vec 0 1 0) (cross (Vec 0 0 (-1)) (Vec 0 1 0)) (Vec 0 0 (-1))) (ypr_matrix y p r)) image_to_body)
    with (mmul (mmul (Mat 0 1 0 1 0 0 0 0 (-1)) (ypr_matrix y p r)) (Mat 0 1 0 1 0 0 0 0 (-1))).
  2:{ unfold image_to_body, columns, cross, mmul. cbn [m11 m12 m13 m21 m22 m23 m31 m32 m33 vx vy vz]. f_equal; ring. }
  assert (rotation (Mat 0 1 0 1 0 0 0 0 (-1))) as Hr.
  { split; [unfold mmul, mT, mI; cbn; f_equal; ring|unfold det; cbn; ring]. }
  apply rotation_mmul; [apply rotation_mmul; [done|apply ypr_rotation]|done].
Qed.
Lemma opk_drone y p r : Rabs (vx (below y p r)) < 1 ->
  let '(w, f, k) := opk_from_ypr (Vec 0 1 0) y p r in has_opk (drone y p r) (radians w) (radians f) (radians k).
Proof.
  intros H. unfold opk_from_ypr. cbn zeta. rewrite ceb_north. rewrite !radians_degrees.
  apply (C63_opk_onto (drone y p r) _ _ _ (drone_rotation y p r) H eq_refl).
Qed.

(** The distance to the axis of the earth decreases to the north, north of the equator. *)
Lemma axis_distance c1 c2 alt : 0 <= c1 < c2 -> c2 <= 1 -> 0 <= alt ->
  (WGS84_a ^ 2 * (1 / sqrt (WGS84_a ^ 2 * c1 ^ 2 + WGS84_b ^ 2 * (1 - c1 ^ 2))) + alt) * c1 <
  (WGS84_a ^ 2 * (1 / sqrt (WGS84_a ^ 2 * c2 ^ 2 + WGS84_b ^ 2 * (1 - c2 ^ 2))) + alt) * c2.
Proof.
  intros [H0 H1] H2 Ha. pose proof a_pos as Hap. pose proof b_pos as Hbp. pose proof b_lt_a as Hba.
  assert (0 < WGS84_a ^ 2) by (by apply pow_lt). assert (0 < WGS84_b ^ 2) by (by apply pow_lt). assert (WGS84_b ^ 2 < WGS84_a ^ 2) by nra.
  set (A := WGS84_a ^ 2) in *. set (B := WGS84_b ^ 2) in *. clearbody A B.
  assert (forall c, 0 <= c <= 1 -> 0 < A * c ^ 2 + B * (1 - c ^ 2)) as Hpos.
  { intros c Hc. replace (A * c ^ 2 + B * (1 - c ^ 2)) with (B + (A - B) * c ^ 2) by ring. assert (0 <= c ^ 2) by nra. nra. }
  set (s1 := sqrt (A * c1 ^ 2 + B * (1 - c1 ^ 2))). set (s2 := sqrt (A * c2 ^ 2 + B * (1 - c2 ^ 2))).
  assert (0 < s1) as Hs1 by (apply sqrt_lt_R0, Hpos; lra). assert (0 < s2) as Hs2 by (apply sqrt_lt_R0, Hpos; lra).
  assert (s1 * s1 = A * c1 ^ 2 + B * (1 - c1 ^ 2)) as E1 by (apply sqrt_sqrt; apply Rlt_le, Hpos; lra).
  assert (s2 * s2 = A * c2 ^ 2 + B * (1 - c2 ^ 2)) as E2 by (apply sqrt_sqrt; apply Rlt_le, Hpos; lra).
  assert (c1 * s2 < c2 * s1) as Hlt.
  { apply Rsqr_incrst_0; [|apply Rmult_le_pos; lra|apply Rmult_le_pos; lra]. unfold Rsqr.
    replace (c1 * s2 * (c1 * s2)) with (c1 * c1 * (s2 * s2)) by ring. replace (c2 * s1 * (c2 * s1)) with (c2 * c2 * (s1 * s1)) by ring. rewrite E1, E2.
    assert (B * (c1 * c1) < B * (c2 * c2)) by (apply Rmult_lt_compat_l; nra). nra. }
  assert (1 / s1 * c1 < 1 / s2 * c2) as Hd.
  { apply (Rmult_lt_reg_r (s1 * s2)); [by apply Rmult_lt_0_compat|]. replace (1 / s1 * c1 * (s1 * s2)) with (c1 * s2) by (field; lra). replace (1 / s2 * c2 * (s1 * s2)) with (c2 * s1) by (field; lra). done. }
  rewrite !Rmult_plus_distr_r, !Rmult_assoc. assert (A * (1 / s1 * c1) < A * (1 / s2 * c2)) by (by apply Rmult_lt_compat_l). nra.
Qed.
Lemma north_ecef lat lon alt : 1 / 10 ^ 7 < lat < 90 - 1 / 10 ^ 7 -> 0 <= alt ->
  exists h z, 0 < h /\ north_vector lat lon alt = Some (Vec (- h * cos (radians lon)) (- h * sin (radians lon)) z).
Proof.
  intros Hl Ha. unfold north_vector. set (d := 1 / 10 ^ 7) in *. assert (0 < d) as Hd by (apply Rdiv_lt_0_compat; [lra|apply pow_lt; lra]).
  set (c1 := cos (radians (lat + d))). set (c2 := cos (radians (lat - d))).
  assert (0 < radians (lat - d) /\ radians (lat - d) < radians (lat + d) /\ radians (lat + d) < PI / 2) as (R1 & R2 & R3).
  { pose proof PI_RGT_0. unfold radians. split; [apply Rmult_lt_0_compat; lra|]. split; [apply Rmult_lt_compat_r; lra|]. replace (PI / 2) with (90 * (PI / 180)) by field. apply Rmult_lt_compat_r; lra. }
  assert (0 <= c1 < c2) as Hc. { split; [apply cos_ge_0; lra|]. apply cos_decreasing_1; lra. }
  assert (c2 <= 1) as Hc2 by apply COS_bound.
  pose proof (axis_distance c1 c2 alt Hc Hc2 Ha) as Hlt.
  set (f := fun c => (WGS84_a ^ 2 * (1 / sqrt (WGS84_a ^ 2 * c ^ 2 + WGS84_b ^ 2 * (1 - c ^ 2))) + alt) * c) in *. change (f c1 < f c2) in Hlt.
  assert (forall l, vx (ecef_from_lla l lon alt) = f (cos (radians l)) * cos (radians lon) /\ vy (ecef_from_lla l lon alt) = f (cos (radians l)) * sin (radians lon)) as He.
  { intros l. unfold ecef_from_lla, f. cbn [vx vy]. replace (1 - cos (radians l) ^ 2) with (sin (radians l) ^ 2) by (pose proof (sc2 (radians l)); nra). split; ring. }
  set (v := vsub _ _). assert (vx v = (f c1 - f c2) * cos (radians lon) /\ vy v = (f c1 - f c2) * sin (radians lon)) as [Ex Ey].
  { unfold v, vsub. cbn [vx vy]. destruct (He (lat + d)) as [-> ->], (He (lat - d)) as [-> ->]. fold c1 c2. split; ring. }
  assert (norm v <> 0) as Hn.
  { intros E. apply norm_0 in E. rewrite E in Ex, Ey. cbn in Ex, Ey. pose proof (sc2 (radians lon)). assert (f c1 - f c2 <> 0) by lra. apply eq_sym, Rmult_integral in Ex, Ey. destruct Ex as [?|Ex]; [done|]. destruct Ey as [?|Ey]; [done|]. rewrite Ex, Ey in H. lra. }
  destruct (Req_EM_T (norm v) 0) as [?|_]; [done|]. pose proof (norm_nonneg v). exists (/ norm v * (f c2 - f c1)), (/ norm v * vz v). split.
  - apply Rmult_lt_0_compat; [apply Rinv_0_lt_compat; lra|lra].
  - f_equal. unfold vscale. rewrite Ex, Ey. f_equal; ring.
Qed.
Lemma nadir_kappa h lon z : 0 < h -> -180 < lon <= 90 ->
  opk_from_ypr (Vec (- h * cos (radians lon)) (- h * sin (radians lon)) z) 0 0 0 = (0, 0, lon + 90).
Proof.
  intros Hh Hl. unfold opk_from_ypr, ypr_matrix, image_to_body, columns, cross, mmul. cbn [m11 m12 m13 m21 m22 m23 m31 m32 m33 vx vy vz]. rewrite sin_0, cos_0.
  match goal with |- (degrees (atan2 ?a ?b), degrees (asin ?c), degrees (atan2 ?x ?y)) = _ =>
    replace a with 0 by ring; replace b with 1 by ring; replace c with 0 by ring; replace x with (h * cos (radians lon)) by ring; replace y with (- (h * sin (radians lon))) by ring end.
  assert (atan2 0 1 = 0) as ->. { unfold atan2. destruct (Rlt_dec 0 1); [|lra]. replace (0 / 1) with 0 by field. apply atan_0. }
  rewrite asin_0. replace (degrees 0) with 0 by (unfold degrees; ring).
  replace (h * cos (radians lon)) with (h * sin (radians (lon + 90))). 2:{ unfold radians. replace ((lon + 90) * (PI / 180)) with (PI / 2 + lon * (PI / 180)) by field. rewrite sin_plus, sin_PI2, cos_PI2. ring. }
  replace (- (h * sin (radians lon))) with (h * cos (radians (lon + 90))). 2:{ unfold radians. replace ((lon + 90) * (PI / 180)) with (PI / 2 + lon * (PI / 180)) by field. rewrite cos_plus, sin_PI2, cos_PI2. ring. }
  rewrite atan2_polar; [by rewrite degrees_radians|done|]. apply radians_lon. lra.
Qed.
