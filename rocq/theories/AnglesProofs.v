(** Proofs about camera angles *)
From stdpp Require Import prelude.
From Coq Require Import Reals Lra Psatz.
From Verif Require Import Base Lin RotModel RotProofs GeoModel GeoProofs AnglesModel AnglesSpec.
Local Open Scope R_scope.

Lemma mat_eq' a b : m11 a = m11 b -> m12 a = m12 b -> m13 a = m13 b -> m21 a = m21 b -> m22 a = m22 b -> m23 a = m23 b -> m31 a = m31 b -> m32 a = m32 b -> m33 a = m33 b -> a = b.
Proof. destruct a, b. cbn. by intros -> -> -> -> -> -> -> -> ->. Qed.
Lemma rodrigues_axis a u : dot u u = 1 -> not_tiny a -> rotation_from_angle_axis (vscale a u) = angle_axis_matrix a u.
Proof.
  intros Hu Ha. unfold rotation_from_angle_axis. assert (norm (vscale a u) = Rabs a) as ->.
  { unfold norm. replace (dot (vscale a u) (vscale a u)) with (a * a) by (transitivity (a * a * dot u u); [rewrite Hu; ring|unfold dot, vscale; cbn; ring]). apply sqrt_Rsqr_abs. }
  assert (0 < dbl_epsilon) as He by (unfold dbl_epsilon; apply Rinv_0_lt_compat, pow_lt; lra).
  destruct (Rlt_dec (Rabs a) dbl_epsilon) as [H|H].
  - destruct Ha as [->|Ha]; [|unfold dbl_epsilon in H; lra]. unfold angle_axis_matrix. rewrite sin_0, cos_0. apply mat_eq'; cbn; ring.
  - assert (a <> 0) as Hn by (intros ->; rewrite Rabs_R0 in H; lra).
    destruct (Rle_dec 0 a) as [Hp|Hp].
    + rewrite Rabs_pos_eq by done. f_equal. destruct u as [x y z]. unfold vscale. cbn. f_equal; field; done.
    + rewrite Rabs_left by lra. unfold angle_axis_matrix. rewrite sin_neg, cos_neg. unfold vscale. apply mat_eq'; cbn; field; done.
Qed.
Lemma rodrigues_x a : not_tiny a -> rotation_from_angle_axis (Vec a 0 0) = turn_x a.
Proof.
  intros Ha. replace (Vec a 0 0) with (vscale a (Vec 1 0 0)) by (unfold vscale; cbn; f_equal; ring). rewrite rodrigues_axis by (done || unfold dot; cbn; ring).
  unfold angle_axis_matrix, turn_x. apply mat_eq'; cbn; ring.
Qed.
Lemma rodrigues_y a : not_tiny a -> rotation_from_angle_axis (Vec 0 a 0) = turn_y a.
Proof.
  intros Ha. replace (Vec 0 a 0) with (vscale a (Vec 0 1 0)) by (unfold vscale; cbn; f_equal; ring). rewrite rodrigues_axis by (done || unfold dot; cbn; ring).
  unfold angle_axis_matrix, turn_y. apply mat_eq'; cbn; ring.
Qed.
Lemma rodrigues_z a : not_tiny a -> rotation_from_angle_axis (Vec 0 0 a) = turn_z a.
Proof.
  intros Ha. replace (Vec 0 0 a) with (vscale a (Vec 0 0 1)) by (unfold vscale; cbn; f_equal; ring). rewrite rodrigues_axis by (done || unfold dot; cbn; ring).
  unfold angle_axis_matrix, turn_z. apply mat_eq'; cbn; ring.
Qed.
Lemma not_tiny_opp a : not_tiny a -> not_tiny (- a).
Proof. intros [->|H]; [left; ring|right; by rewrite Rabs_Ropp]. Qed.
Ltac trig a := let H := fresh in pose proof (sc2 a) as H; assert (sin a * sin a = 1 - cos a * cos a) by lra; clear H.
Ltac rot := split; [apply mat_eq'; cbn|unfold det; cbn].
Lemma turn_x_rotation a : rotation (turn_x a).
Proof. pose proof (sc2 a) as H. assert (E : sin a * sin a = 1 - cos a * cos a) by lra. rot; ring [E]. Qed.
Lemma turn_y_rotation a : rotation (turn_y a).
Proof. pose proof (sc2 a) as H. assert (E : sin a * sin a = 1 - cos a * cos a) by lra. rot; ring [E]. Qed.
Lemma turn_z_rotation a : rotation (turn_z a).
Proof. pose proof (sc2 a) as H. assert (E : sin a * sin a = 1 - cos a * cos a) by lra. rot; ring [E]. Qed.
Lemma ptr_matrix pan tilt roll : not_tiny pan -> not_tiny (tilt + PI / 2) -> not_tiny roll ->
  rotation_from_ptr pan tilt roll = mmul (mmul (turn_z roll) (turn_x (tilt + PI / 2))) (turn_z pan).
Proof. intros H1 H2 H3. unfold rotation_from_ptr. by rewrite !rodrigues_z, rodrigues_x. Qed.
Lemma sin_shift t : sin (t + PI / 2) = cos t. Proof. by rewrite cos_sin, Rplus_comm. Qed.
Lemma cos_shift t : cos (t + PI / 2) = - sin t. Proof. rewrite Rplus_comm. rewrite (sin_cos t). ring. Qed.
Lemma ptr_has pan tilt roll : has_ptr (mmul (mmul (turn_z roll) (turn_x (tilt + PI / 2))) (turn_z pan)) pan tilt roll.
Proof.
  split; [apply rotation_mmul; [apply rotation_mmul; [apply turn_z_rotation|apply turn_x_rotation]|apply turn_z_rotation]|].
  unfold forward_axis, right_axis, toward, beside, above, vadd, vscale. cbn. rewrite sin_shift, cos_shift. split; f_equal; ring.
Qed.
(** A rotation is given by two of its axes. *)
Lemma rotation_third m m' : rotation m -> rotation m' -> forward_axis m = forward_axis m' -> right_axis m = right_axis m' -> m = m'.
Proof.
  intros H H' Ef Er. pose proof (rotation_adj m H) as A. pose proof (rotation_adj m' H') as A'.
  destruct m as [a b c d e f g h i], m' as [a' b' c' d' e' f' g' h' i']. unfold forward_axis, right_axis in *. cbn in Ef, Er. injection Ef as -> -> ->. injection Er as -> -> ->.
  unfold adj, mT in A, A'. cbn in A, A'. injection A as _ A1 _ _ A2 _ _ A3 _. injection A' as _ B1 _ _ B2 _ _ B3 _.
  f_equal; lra.
Qed.
Lemma has_ptr_unique m m' pan tilt roll : has_ptr m pan tilt roll -> has_ptr m' pan tilt roll -> m = m'.
Proof. intros (H1 & H2 & H3) (H1' & H2' & H3'). apply rotation_third; congruence. Qed.
Lemma cos_acute t : acute t -> 0 < cos t.
Proof. intros [H1 H2]. apply cos_gt_0; lra. Qed.
Lemma acute_angle t : acute t -> angle t.
Proof. unfold acute, angle. pose proof PI_RGT_0. lra. Qed.
Lemma sq_inj a b : 0 < a -> 0 < b -> a * a = b * b -> a = b.
Proof. intros Ha Hb H. apply Rsqr_inj; [lra|lra|done]. Qed.
Lemma lin3 x y e0 e1 e2 k0 k1 k2 : x - y = k0 * e0 + k1 * e1 + k2 * e2 -> e0 = 0 -> e1 = 0 -> e2 = 0 -> x = y.
Proof. intros H -> -> ->. lra. Qed.
Lemma forward_row m : mvec (mT m) (Vec 0 0 1) = forward_axis m.
Proof. unfold mvec, forward_axis. cbn. f_equal; ring. Qed.
Lemma right_row m : mvec (mT m) (Vec 1 0 0) = right_axis m.
Proof. unfold mvec, right_axis. cbn. f_equal; ring. Qed.
Lemma read_pan m pan tilt roll : has_ptr m pan tilt roll -> angle pan -> acute tilt -> pan_from_rotation m = pan.
Proof.
  intros (_ & Hf & _) Hp Ht. unfold pan_from_rotation. rewrite forward_row, Hf. cbn. pose proof (cos_acute _ Ht).
  replace (sin pan * cos tilt) with (cos tilt * sin pan) by ring. replace (cos pan * cos tilt) with (cos tilt * cos pan) by ring. by apply atan2_polar.
Qed.
Lemma read_tilt m pan tilt roll : has_ptr m pan tilt roll -> acute tilt -> tilt_from_rotation m = tilt.
Proof.
  intros (_ & Hf & _) Ht. unfold tilt_from_rotation. rewrite forward_row, Hf. cbn. pose proof (cos_acute _ Ht).
  replace (sin pan * cos tilt * (sin pan * cos tilt) + cos pan * cos tilt * (cos pan * cos tilt)) with (Rsqr (cos tilt)).
  2:{ unfold Rsqr. transitivity (cos tilt * cos tilt * (sin pan * sin pan + cos pan * cos pan)); [rewrite sc2; ring|ring]. }
  rewrite sqrt_Rsqr by lra. rewrite Ropp_involutive. rewrite <- (Rmult_1_l (sin tilt)), <- (Rmult_1_l (cos tilt)). apply atan2_polar; [lra|]. by apply acute_angle.
Qed.
Lemma read_roll m pan tilt roll : has_ptr m pan tilt roll -> acute tilt -> roll_from_rotation m = asin (sin roll).
Proof.
  intros (_ & Hf & Hr) Ht. unfold roll_from_rotation. rewrite forward_row, right_row, Hf, Hr. pose proof (cos_acute _ Ht) as Hc. cbn zeta.
  assert (cross (toward pan tilt) (Vec 0 0 1) = vscale (cos tilt) (beside pan)) as ->. { unfold cross, toward, vscale, beside. cbn. f_equal; ring. }
  assert (norm (vscale (cos tilt) (beside pan)) = cos tilt) as ->.
  { unfold norm. replace (dot _ _) with (Rsqr (cos tilt)); [apply sqrt_Rsqr; lra|]. unfold dot, vscale, beside, Rsqr. cbn.
    transitivity (cos tilt * cos tilt * (sin pan * sin pan + cos pan * cos pan)); [rewrite sc2; ring|ring]. }
  assert (vscale (/ cos tilt) (vscale (cos tilt) (beside pan)) = beside pan) as ->. { unfold vscale, beside. cbn. f_equal; field; lra. }
  f_equal. unfold dot, cross, toward, beside, above, vadd, vscale. cbn.
  pose proof (sc2 pan) as E1. pose proof (sc2 tilt) as E2. assert (F1 : sin pan * sin pan = 1 - cos pan * cos pan) by lra. assert (F2 : sin tilt * sin tilt = 1 - cos tilt * cos tilt) by lra.
  ring_simplify. ring [F1 F2].
Qed.
(** v2 *)
Lemma ptr_v2_matrix pan tilt roll : rotation_from_ptr_v2 pan tilt roll = mmul (mmul (turn_z roll) (turn_x (tilt + PI / 2))) (turn_z pan).
Proof. unfold rotation_from_ptr_v2, euler_matrix_szxz. apply mat_eq'; cbn; ring. Qed.
Lemma read_v2 pan tilt roll : angle pan -> acute tilt -> angle roll -> tf_eps < cos tilt -> ptr_from_rotation_v2 (rotation_from_ptr_v2 pan tilt roll) = (pan, tilt, roll).
Proof.
  intros Hp Ht Hr He. unfold ptr_from_rotation_v2, rotation_from_ptr_v2, euler_from_matrix_szxz, euler_matrix_szxz. cbn [m11 m12 m13 m21 m22 m23 m31 m32 m33].
  rewrite !sin_shift, !cos_shift. pose proof (cos_acute _ Ht) as Hc. 
  replace (cos tilt * sin pan * (cos tilt * sin pan) + cos tilt * cos pan * (cos tilt * cos pan)) with (Rsqr (cos tilt)).
  2:{ unfold Rsqr. transitivity (cos tilt * cos tilt * (sin pan * sin pan + cos pan * cos pan)); [rewrite sc2; ring|ring]. }
  rewrite sqrt_Rsqr by lra. destruct (Rlt_dec _ _); [|lra].
  rewrite atan2_polar by done. replace (- (- cos tilt * cos roll)) with (cos tilt * cos roll) by ring. rewrite atan2_polar by done.
  assert (atan2 (cos tilt) (- sin tilt) = tilt + PI / 2) as ->.
  { rewrite <- sin_shift, <- cos_shift. rewrite <- (Rmult_1_l (sin _)), <- (Rmult_1_l (cos _)). apply atan2_polar; [lra|]. unfold acute in Ht. pose proof PI_RGT_0. lra. }
  f_equal. f_equal. lra.
Qed.
(** Every rotation that does not look straight up or down has a pan, a tilt and a roll. *)
Lemma ptr_onto m : rotation m -> 0 < sqrt (m31 m * m31 m + m32 m * m32 m) -> exists pan tilt roll, angle pan /\ acute tilt /\ angle roll /\ m = rotation_from_ptr_v2 pan tilt roll /\ cos tilt = sqrt (m31 m * m31 m + m32 m * m32 m).
Proof.
  intros Hm Hs. assert (0 < m31 m * m31 m + m32 m * m32 m) as Hpos by (apply sqrt_lt_0_alt; by rewrite sqrt_0).
  assert (m32 m <> 0 \/ m31 m <> 0) as Hne. { destruct (Req_dec (m32 m) 0) as [E|E]; [right|by left]. intros E'. rewrite E, E' in Hpos. lra. }
  destruct (polar_exists _ _ Hne) as (r & pan & Hr & Hpan & E32 & E31).
  assert (m31 m * m31 m + m32 m * m32 m + m33 m * m33 m = 1) as Hrow.
  { destruct Hm as [Ho _]. apply (f_equal m33) in Ho. cbn in Ho. lra. }
  assert (sqrt (m31 m * m31 m + m32 m * m32 m) = r) as Er.
  { rewrite E31, E32. replace (r * sin pan * (r * sin pan) + r * cos pan * (r * cos pan)) with (Rsqr r); [apply sqrt_Rsqr; lra|].
    unfold Rsqr. transitivity (r * r * (sin pan * sin pan + cos pan * cos pan)); [rewrite sc2; ring|ring]. }
  assert (r * r + m33 m * m33 m = 1) as Hrm. { rewrite <- Hrow, <- Er, sqrt_sqrt by lra. ring. }
  assert (exists tilt, acute tilt /\ cos tilt = r /\ sin tilt = - m33 m) as (tilt & Ht & Ec & Es).
  { exists (asin (- m33 m)). assert (-1 < - m33 m < 1) as Hb by nra. pose proof (asin_bound_lt (- m33 m) Hb) as [B1 B2]. split; [split; lra|]. split; [|apply sin_asin; lra].
    rewrite cos_asin by lra. unfold Rsqr. replace (1 - - m33 m * - m33 m) with (Rsqr r) by (unfold Rsqr; lra). apply sqrt_Rsqr. lra. }
  (* the right axis is orthogonal to the forward axis *)
  set (x := dot (right_axis m) (beside pan)). set (y := dot (right_axis m) (above pan tilt)).
  pose proof (sc2 pan) as S1. pose proof (sc2 tilt) as S2.
  assert (m11 m * m31 m + m12 m * m32 m + m13 m * m33 m = 0) as Hort. { destruct Hm as [Ho _]. apply (f_equal m13) in Ho. cbn in Ho. lra. }
  assert (m11 m * m11 m + m12 m * m12 m + m13 m * m13 m = 1) as Hone. { destruct Hm as [Ho _]. apply (f_equal m11) in Ho. cbn in Ho. lra. }
  assert (m33 m = - sin tilt) as E33 by lra. rewrite <- Ec in E31, E32. rewrite E31, E32, E33 in Hort.
  assert (right_axis m = vadd (vscale x (beside pan)) (vscale y (above pan tilt))) as Hdec.
  { unfold x, y, right_axis, vadd, vscale, beside, above, dot. cbn. set (a := m11 m) in *. set (b := m12 m) in *. set (c := m13 m) in *. 
    assert (F1 : sin pan * sin pan = 1 - cos pan * cos pan) by lra. assert (F2 : sin tilt * sin tilt = 1 - cos tilt * cos tilt) by lra.
    clearbody a b c. set (sp := sin pan) in *. set (cp := cos pan) in *. set (st := sin tilt) in *. set (ct := cos tilt) in *. clearbody sp cp st ct.
    set (D := a * (ct * sp) + b * (ct * cp) + c * - st) in *. 
    assert (Ea : a = (a * cp + b * - sp + c * 0) * cp + (a * (sp * st) + b * (cp * st) + c * ct) * (sp * st) + D * (sp * ct)) by (unfold D; ring_simplify; ring [F1 F2]).
    assert (Eb : b = (a * cp + b * - sp + c * 0) * - sp + (a * (sp * st) + b * (cp * st) + c * ct) * (cp * st) + D * (cp * ct)) by (unfold D; ring_simplify; ring [F1 F2]).
    assert (Ecc : c = (a * cp + b * - sp + c * 0) * 0 + (a * (sp * st) + b * (cp * st) + c * ct) * ct + D * - st) by (unfold D; ring_simplify; ring [F1 F2]).
    rewrite Hort in Ea, Eb, Ecc. f_equal; lra. }
  assert (x * x + y * y = 1) as Hxy.
  { rewrite <- Hone. transitivity (dot (right_axis m) (right_axis m)); [|done]. rewrite Hdec. unfold dot, vadd, vscale, beside, above. cbn. clear - S1 S2.
    assert (F1 : sin pan * sin pan = 1 - cos pan * cos pan) by lra. assert (F2 : sin tilt * sin tilt = 1 - cos tilt * cos tilt) by lra. ring_simplify. ring [F1 F2]. }
  assert (x <> 0 \/ y <> 0) as Hne'. { destruct (Req_dec x 0) as [E|E]; [right|by left]. intros E'. rewrite E, E' in Hxy. lra. }
  destruct (polar_exists _ _ Hne') as (r' & roll & Hr' & Hroll & Ex & Ey).
  assert (r' = 1) as ->. { apply sq_inj; [done|lra|]. rewrite Rmult_1_r, <- Hxy, Ex, Ey. transitivity (r' * r' * (sin roll * sin roll + cos roll * cos roll)); [rewrite sc2; ring|ring]. }
  rewrite Rmult_1_l in Ex, Ey. exists pan, tilt, roll. split; [done|]. split; [done|]. split; [done|]. split; [|by rewrite Ec].
  rewrite ptr_v2_matrix. apply (has_ptr_unique _ _ pan tilt roll); [|apply ptr_has]. split; [done|]. split; [|by rewrite Hdec, Ex, Ey].
  unfold forward_axis, toward. rewrite E31, E32, E33. f_equal; ring.
Qed.
(** * Omega, phi, kappa *)
Lemma opk_matrix omega phi kappa : not_tiny omega -> not_tiny phi -> not_tiny kappa ->
  rotation_from_opk omega phi kappa = mmul opk_Rc (mT (mmul (turn_x omega) (mmul (turn_y phi) (turn_z kappa)))).
Proof.
  intros H1 H2 H3. unfold rotation_from_opk. rewrite rodrigues_x, rodrigues_y, rodrigues_z by (by apply not_tiny_opp).
  unfold turn_x, turn_y, turn_z. rewrite !sin_neg, !cos_neg. apply mat_eq'; cbn; ring.
Qed.
Lemma Rc_Rc : mmul opk_Rc opk_Rc = mI. Proof. apply mat_eq'; cbn; ring. Qed.
Lemma Rc_T : mT opk_Rc = opk_Rc. Proof. done. Qed.
Lemma Rc_rotation : rotation opk_Rc. Proof. split; [apply mat_eq'; cbn; ring|unfold det; cbn; ring]. Qed.
Lemma opk_turn omega phi kappa : not_tiny omega -> not_tiny phi -> not_tiny kappa ->
  mmul (mT (rotation_from_opk omega phi kappa)) opk_Rc = mmul (turn_x omega) (mmul (turn_y phi) (turn_z kappa)).
Proof. intros. rewrite opk_matrix by done. rewrite mT_mmul, Rc_T, <- mmul_assoc, Rc_Rc, mmul_I_r. by destruct (mmul _ (mmul _ _)). Qed.
Lemma opk_read m omega phi kappa : mmul (mT m) opk_Rc = mmul (turn_x omega) (mmul (turn_y phi) (turn_z kappa)) -> angle omega -> acute phi -> angle kappa ->
  opk_from_rotation m = (omega, phi, kappa).
Proof.
  intros E A1 A2 A3. unfold opk_from_rotation. rewrite E. clear E m. cbn zeta. pose proof (cos_acute _ A2) as Hc.
  set (m := mmul _ _). assert (m23 m = cos phi * - sin omega /\ m33 m = cos phi * cos omega /\ m13 m = sin phi /\ m12 m = cos phi * - sin kappa /\ m11 m = cos phi * cos kappa) as (-> & -> & -> & -> & ->).
  { unfold m. cbn. repeat split; ring. }
  replace (- (cos phi * - sin omega)) with (cos phi * sin omega) by ring. replace (- (cos phi * - sin kappa)) with (cos phi * sin kappa) by ring.
  rewrite !atan2_polar by done. rewrite asin_sin by (unfold acute in A2; lra). done.
Qed.
(** A rotation is given by its last column and its first row. *)
Lemma opk_onto m : rotation m -> Rabs (m13 m) < 1 -> exists omega phi kappa, angle omega /\ acute phi /\ angle kappa /\ m = mmul (turn_x omega) (mmul (turn_y phi) (turn_z kappa)).
Proof.
  intros Hm Hlt. apply Rabs_def2 in Hlt.
  set (phi := asin (m13 m)). pose proof (asin_bound_lt (m13 m) ltac:(lra)) as [B1 B2]. fold phi in B1, B2. assert (sin phi = m13 m) as Es by (apply sin_asin; lra).
  assert (acute phi) as Hphi by (split; lra). clearbody phi. pose proof (cos_acute _ Hphi) as Hc. pose proof (sc2 phi) as S0.
  assert (m11 m * m11 m + m12 m * m12 m + m13 m * m13 m = 1) as H1. { destruct Hm as [Ho _]. apply (f_equal m11) in Ho. cbn in Ho. lra. }
  assert (m13 m * m13 m + m23 m * m23 m + m33 m * m33 m = 1) as H2. { pose proof (rotation_l _ Hm) as Ho. apply (f_equal m33) in Ho. cbn in Ho. lra. }
  assert (m11 m <> 0 \/ - m12 m <> 0) as N1. { destruct (Req_dec (m11 m) 0) as [E|E]; [right|by left]. intros E'. nra. }
  assert (m33 m <> 0 \/ - m23 m <> 0) as N2. { destruct (Req_dec (m33 m) 0) as [E|E]; [right|by left]. intros E'. nra. }
  destruct (polar_exists _ _ N1) as (r1 & kappa & Hr1 & Hk & E11 & E12). destruct (polar_exists _ _ N2) as (r2 & omega & Hr2 & Ho & E33 & E23).
  pose proof (sc2 kappa) as S1. pose proof (sc2 omega) as S2.
  assert (r1 = cos phi) as ->. { apply sq_inj; [done|done|]. transitivity (r1 * r1 * (sin kappa * sin kappa + cos kappa * cos kappa)); [rewrite S1; ring|]. transitivity (m11 m * m11 m + - m12 m * - m12 m); [rewrite E11, E12; ring|]. rewrite <- Es in H1. lra. }
  assert (r2 = cos phi) as ->. { apply sq_inj; [done|done|]. transitivity (r2 * r2 * (sin omega * sin omega + cos omega * cos omega)); [rewrite S2; ring|]. transitivity (m33 m * m33 m + - m23 m * - m23 m); [rewrite E33, E23; ring|]. rewrite <- Es in H2. lra. }
  exists omega, phi, kappa. split; [done|]. split; [done|]. split; [done|].
  pose proof (rotation_adj m Hm) as A. destruct m as [a b c d e f g h i]. unfold adj, mT in A. cbn in A, Es, E11, E12, E33, E23. injection A as A1 A2 A3 A4 A5 A6 A7 A8 A9.
  assert (b = - (cos phi * sin kappa)) as -> by lra. assert (f = - (cos phi * sin omega)) as -> by lra. rewrite <- Es in *. rewrite E11, E33 in *. unfold turn_x, turn_y, turn_z.
  set (cf := cos phi) in *. set (sf := sin phi) in *. set (ck := cos kappa) in *. set (sk := sin kappa) in *. set (co := cos omega) in *. set (so := sin omega) in *.
  clearbody cf sf ck sk co so. assert (F0 : cf * cf + sf * sf - 1 = 0) by lra. assert (cf * cf <> 0) as Hnz by (apply Rmult_integral_contrapositive_currified; lra).
  clear - A1 A2 A3 A4 A5 A6 A7 A8 A9 F0 Hnz.
  assert (cf * cf * d = cf * cf * (sf * ck * so + sk * co)) as Ed.
  { apply (lin3 _ _ (cf * cf + sf * sf - 1) (d - (sf * h - - (cf * sk) * (cf * co))) (h - (sf * d - cf * ck * - (cf * so))) d 1 sf); [ring|done|lra|lra]. }
  assert (cf * cf * h = cf * cf * (ck * so + sf * sk * co)) as Eh.
  { apply (lin3 _ _ (cf * cf + sf * sf - 1) (d - (sf * h - - (cf * sk) * (cf * co))) (h - (sf * d - cf * ck * - (cf * so))) h sf 1); [ring|done|lra|lra]. }
  assert (cf * cf * e = cf * cf * (ck * co - sf * sk * so)) as Ee.
  { apply (lin3 _ _ (cf * cf + sf * sf - 1) (e - (cf * ck * (cf * co) - sf * g)) (g - (- (cf * sk) * - (cf * so) - sf * e)) e 1 (- sf)); [ring|done|lra|lra]. }
  assert (cf * cf * g = cf * cf * (sk * so - sf * ck * co)) as Eg.
  { apply (lin3 _ _ (cf * cf + sf * sf - 1) (e - (cf * ck * (cf * co) - sf * g)) (g - (- (cf * sk) * - (cf * so) - sf * e)) g (- sf) 1); [ring|done|lra|lra]. }
  apply Rmult_eq_reg_l in Ed, Eh, Ee, Eg; try done. rewrite Ed, Eh, Ee, Eg. apply mat_eq'; cbn; ring.
Qed.
(** * Up vector and compass *)
Lemma columns_rotation b c : dot b b = 1 -> dot c c = 1 -> dot b c = 0 -> rotation (columns (cross b c) b c).
Proof.
  intros Hb Hc Hbc. rewrite <- (mT_T (columns _ _ _)). apply rotation_T. destruct b as [b1 b2 b3], c as [c1 c2 c3]. unfold dot in *. cbn in Hb, Hc, Hbc.
  assert (E1 : b1 * b1 = 1 - b2 * b2 - b3 * b3) by lra. assert (E2 : c1 * c1 = 1 - c2 * c2 - c3 * c3) by lra. assert (E3 : b1 * c1 = - b2 * c2 - b3 * c3) by lra.
  assert ((b2 * c3 - b3 * c2) * (b2 * c3 - b3 * c2) + (b3 * c1 - b1 * c3) * (b3 * c1 - b1 * c3) + (b1 * c2 - b2 * c1) * (b1 * c2 - b2 * c1) = 1) as Haa.
  { transitivity ((b1 * b1 + b2 * b2 + b3 * b3) * (c1 * c1 + c2 * c2 + c3 * c3) - (b1 * c1 + b2 * c2 + b3 * c3) * (b1 * c1 + b2 * c2 + b3 * c3)); [ring|]. rewrite Hb, Hc, Hbc. ring. }
  split; [apply mat_eq'; unfold columns; cbn; lra|]. unfold det, columns. cbn. rewrite <- Haa. ring.
Qed.
Lemma unit_dot v : v <> v0 -> dot (vscale (/ norm v) v) (vscale (/ norm v) v) = 1.
Proof. intros H. apply unit_axis. intros E. by apply H, norm_0. Qed.
Lemma not_tiny_rotation a : rotation (rotation_from_angle_axis a).
Proof.
  unfold rotation_from_angle_axis. destruct (Rlt_dec _ _) as [H|H]; [apply rotation_I|]. apply angle_axis_rotation, unit_axis.
  assert (0 < dbl_epsilon) by (unfold dbl_epsilon; apply Rinv_0_lt_compat, pow_lt; lra). lra.
Qed.
Lemma rodrigues_z_any a : exists b, rotation_from_angle_axis (Vec 0 0 a) = turn_z b.
Proof.
  destruct (Rlt_dec (Rabs a) (/ 2 ^ 52)) as [H|H]; [|exists a; apply rodrigues_z; right; lra].
  exists 0. unfold rotation_from_angle_axis. replace (norm (Vec 0 0 a)) with (Rabs a). 
  - unfold dbl_epsilon. destruct (Rlt_dec _ _); [|done]. unfold turn_z. rewrite sin_0, cos_0. apply mat_eq'; cbn; ring.
  - unfold norm, dot. cbn. replace (0 * 0 + 0 * 0 + a * a) with (a * a) by ring. symmetry. apply sqrt_Rsqr_abs.
Qed.
Section compass.
Variables (up : vec) (a : R).
Hypothesis Hup : up <> v0.
Let r3 := vscale (/ norm up) up.
Let r2 := vsub (Vec 0 0 1) (vscale (dot (Vec 0 0 1) r3) r3).
Lemma r2_r3 : dot r2 r3 = 0.
Proof. pose proof (unit_dot up Hup) as H. fold r3 in H. unfold r2. destruct r3 as [x y z]. unfold dot, vsub, vscale in *. cbn in *. assert (E : x * x = 1 - y * y - z * z) by lra. ring [E]. Qed.
Lemma r2_z : vz r2 = norm r2 * norm r2.
Proof.
  rewrite norm_sq. pose proof (unit_dot up Hup) as H. fold r3 in H. unfold r2. destruct r3 as [x y z]. unfold dot, vsub, vscale in *. cbn in *. assert (E : x * x = 1 - y * y - z * z) by lra. ring [E].
Qed.
Lemma r1_z : vz (cross r2 r3) = 0.
Proof. unfold r2. destruct r3 as [x y z]. unfold cross, vsub, vscale, dot. cbn. ring. Qed.
Lemma compass_general : 1 / 10 ^ 8 < norm r2 -> not_tiny (radians a) ->
  let m := rotation_matrix_from_up_vector_and_compass up a in
  rotation m /\ camera_up_vector m = r3 /\ forward_axis m = Vec (norm r2 * sin (radians a)) (norm r2 * cos (radians a)) (vz r3).
Proof.
  intros Hn Ha m. assert (0 < norm r2) as Hp by lra.
  set (b := vscale (/ norm r2) r2).
  assert (m = mmul (columns (cross b r3) b r3) (turn_z (radians a))) as ->.
  { unfold m, rotation_matrix_from_up_vector_and_compass. fold r3. fold r2. cbn zeta. destruct (Rlt_dec _ _); [|lra]. by rewrite rodrigues_z. }
  pose proof r2_r3 as E23. pose proof r2_z as E2z. pose proof r1_z as E1z. pose proof (unit_dot up Hup) as H3. fold r3 in H3. unfold b. clear b. clearbody r2 r3. set (b := vscale (/ norm r2) r2).
  split.
  - apply rotation_mmul; [|apply turn_z_rotation]. apply columns_rotation.
    + unfold b. apply unit_axis. lra.
    + done.
    + unfold b. transitivity (/ norm r2 * dot r2 r3); [unfold dot, vscale; cbn; ring|]. rewrite E23. ring.
  - split; [unfold camera_up_vector; transitivity (Vec (vx r3) (vy r3) (vz r3)); [cbn; f_equal; ring|by destruct r3]|].
    assert (vz b = norm r2) as Hbz by (unfold b, vscale; cbn; rewrite E2z; field; lra).
    assert (vx b * vy r3 - vy b * vx r3 = 0) as Hcz. { unfold b, vscale. cbn. unfold cross in E1z. cbn in E1z. transitivity (/ norm r2 * (vx r2 * vy r3 - vy r2 * vx r3)); [ring|]. rewrite E1z. ring. }
    unfold forward_axis. cbn [mmul columns turn_z m11 m12 m13 m21 m22 m23 m31 m32 m33 cross vz]. rewrite Hbz, Hcz. f_equal; ring.
Qed.
End compass.
Lemma compass_vertical s a : s <> 0 -> let m := rotation_matrix_from_up_vector_and_compass (Vec 0 0 s) a in rotation m /\ camera_up_vector m = Vec 0 0 (s / Rabs s).
Proof.
  intros Hs m. assert (norm (Vec 0 0 s) = Rabs s) as En.
  { unfold norm, dot. cbn. replace (0 * 0 + 0 * 0 + s * s) with (s * s) by ring. apply sqrt_Rsqr_abs. }
  assert (Rabs s <> 0) as Hn by (by apply Rabs_no_R0). set (u := s / Rabs s). assert (u * u = 1) as Hu. { unfold u. unfold Rabs. destruct (Rcase_abs s); field; lra. }
  assert (m = mmul (columns (Vec 1 0 0) (cross (Vec 0 0 u) (Vec 1 0 0)) (Vec 0 0 u)) (rotation_from_angle_axis (Vec 0 0 (radians a)))) as ->.
  { unfold m, rotation_matrix_from_up_vector_and_compass. rewrite En. replace (vscale (/ Rabs s) (Vec 0 0 s)) with (Vec 0 0 u) by (unfold vscale, u; cbn; f_equal; field; done). cbn zeta.
    destruct (Rlt_dec _ _) as [H|H]; [|done]. exfalso. replace (vsub _ _) with v0 in H; [rewrite norm_v0 in H; assert (0 < 1 / 10 ^ 8) by (apply Rdiv_lt_0_compat; [lra|apply pow_lt; lra]); lra|].
    unfold vsub, vscale, dot, v0. cbn. f_equal; ring [Hu]. }
  destruct (rodrigues_z_any (radians a)) as [b ->]. split; [apply rotation_mmul; [|apply turn_z_rotation]|].
  - rot; ring [Hu].
  - unfold camera_up_vector. cbn. f_equal; ring.
Qed.
