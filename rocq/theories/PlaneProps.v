(** Properties of planes: rotating a plane to the horizontal, and camera motions from the homography of a plane. *)
From stdpp Require Import prelude.
From Coq Require Import Reals Lra Psatz.
From Verif Require Import Base Lin RotModel RotProofs GeoModel GeoProofs AnglesModel PlaneSpec PlaneProofs.
Local Open Scope R_scope.

(** ** C64: the motions returned are exactly those that explain the homography *)
Theorem C64_motions u vh d1 d2 d3 : orthogonal u -> orthogonal vh -> 0 < d3 -> d3 <= d2 -> d2 <= d1 ->
  let h := mmul (mmul u (diagonal d1 d2 d3)) vh in
  match motion_from_plane_homography u (d1, d2, d3) vh with
  | None => d1 < 1.0001 * d2 \/ d2 < 1.0001 * d3
  | Some motions => 1.0001 * d2 <= d1 /\ 1.0001 * d3 <= d2 /\ length motions = 8%nat /\
      forall r t n d, In (r, t, n, d) motions <-> explains h r t n d
  end.
Proof.
  intros Hu Hv H3 H23 H12 h. unfold motion_from_plane_homography. set (s := det u * det vh).
  assert (forall a b, 0 < b -> a / b < 1.0001 <-> a < 1.0001 * b) as Hdiv.
  { intros a b Hb. split; intros H; [apply (Rmult_lt_compat_r b) in H; [|done]; unfold Rdiv in H; rewrite Rmult_assoc, Rinv_l in H; lra|].
    apply (Rmult_lt_reg_r b); [done|]. unfold Rdiv. rewrite Rmult_assoc, Rinv_l; lra. }
  destruct (Rlt_dec (d1 / d2) _) as [L1|L1]; [left; by apply Hdiv; [lra|]|]. destruct (Rlt_dec (d2 / d3) _) as [L2|L2]; [right; by apply Hdiv|].
  assert (1.0001 * d2 <= d1) as G1 by (apply Rnot_lt_le; intros G; apply L1, Hdiv; lra). assert (1.0001 * d3 <= d2) as G2 by (apply Rnot_lt_le; intros G; apply L2, Hdiv; lra).
  split; [done|]. split; [done|]. split; [done|].
  assert (d2 < d1) as P12 by lra. assert (d3 < d2) as P23 by lra.
  set (X1 := (d1 ^ 2 - d2 ^ 2) / (d1 ^ 2 - d3 ^ 2)). set (X3 := (d2 ^ 2 - d3 ^ 2) / (d1 ^ 2 - d3 ^ 2)).
  assert (0 < X1) as Q1 by (by apply x1s_pos). assert (0 < X3) as Q3 by (by apply x3s_pos).
  assert (forall x1 x3, x1 * x1 = X1 -> x3 * x3 = X3 -> forall m, In m (motion_solution u vh d1 d2 d3 s (x1, x3)) -> let '(r, t, n, d) := m in explains h r t n d) as Hsol.
  { intros x1 x3 E1 E3 m [<-|[<-|[]]].
    - apply lift_explains; try done; [by apply Rp_rotation|unfold dot; cbn; rewrite <- (sum13 d1 d2 d3 P12 P23 H3 x1 x3 E1 E3); ring|by apply Rp_dec].
    - replace (- (s * d2)) with (s * - d2) by ring.
      apply lift_explains; try done; [by apply Rn_rotation|unfold dot; cbn; rewrite <- (sum13 d1 d2 d3 P12 P23 H3 x1 x3 E1 E3); ring|by apply Rn_dec]. }
  assert (sqrt X1 * sqrt X1 = X1) as S1 by (apply sqrt_sqrt; lra). assert (sqrt X3 * sqrt X3 = X3) as S3 by (apply sqrt_sqrt; lra).
  intros r t n d. split.
  - intros Hin. change (mjoin _) with (motion_solution u vh d1 d2 d3 s (sqrt X1, sqrt X3) ++ motion_solution u vh d1 d2 d3 s (sqrt X1, - sqrt X3) ++ motion_solution u vh d1 d2 d3 s (- sqrt X1, sqrt X3) ++ motion_solution u vh d1 d2 d3 s (- sqrt X1, - sqrt X3) ++ []) in Hin.
    rewrite !in_app_iff in Hin. destruct Hin as [Hin|[Hin|[Hin|[Hin|[]]]]]; (eapply (Hsol _ _ _ _ (r, t, n, d)); [..|exact Hin]); lra.
    Unshelve. all: lra.
  - intros He. assert (d1 * d2 * d3 <> 0) as Hnz. { assert (0 < d1 * d2 * d3); [|lra]. apply Rmult_lt_0_compat; [apply Rmult_lt_0_compat|]; lra. }
    destruct (lower_explains u vh d1 d2 d3 Hu Hv r t n d Hnz He) as (Hr & Hn & Hd & Hm & Er & Et & En & Ed). fold s in Hr, Hd, Hm, Er, Ed.
    set (r' := mscale s (mmul (mmul (mT u) r) (mT vh))) in *. set (n' := vopp (mvec vh n)) in *. set (t' := mvec (mT u) t) in *. set (d' := s * d) in *.
    destruct (normals d1 d2 d3 P12 P23 H3 n' d' r' Hr Hn) as (N1 & N2 & N3 & N4).
    { intros y Hy. rewrite Hm, Hy. apply vec_eq; cbn; ring. }
    fold X1 in N3. fold X3 in N4. assert (n' = Vec (vx n') 0 (vz n')) as En' by (rewrite <- N2; by destruct n'). set (x1 := vx n') in *. set (x3 := vz n') in *.
    assert (In (r, t, n, d) (motion_solution u vh d1 d2 d3 s (x1, x3))) as Hin.
    { assert (d' = d2 \/ d' = - d2) as [Hd'|Hd'] by (assert ((d' - d2) * (d' + d2) = 0) as E by lra; apply Rmult_integral in E; lra).
      - left. destruct (decomposition_unique n' d' r' (Mat ((d3 * x1 ^ 2 + d1 * x3 ^ 2) / d2) 0 (- ((d1 - d3) * (x1 * x3 / d2))) 0 1 0 ((d1 - d3) * (x1 * x3 / d2)) 0 ((d3 * x1 ^ 2 + d1 * x3 ^ 2) / d2)) t' (vscale (d1 - d3) (Vec x1 0 (- x3)))) as [Er' Et']; [done|by apply Rp_rotation|done|done| |].
        + intros y. rewrite <- Hm, Hd', En'. by apply Rp_dec.
        + unfold motion_solution. rewrite Er, Et, En, Ed. rewrite Er', Et', Hd', En'. done.
      - right. left. destruct (decomposition_unique n' d' r' (Mat ((d3 * x1 ^ 2 - d1 * x3 ^ 2) / d2) 0 ((d1 + d3) * (x1 * x3 / d2)) 0 (-1) 0 ((d1 + d3) * (x1 * x3 / d2)) 0 (- ((d3 * x1 ^ 2 - d1 * x3 ^ 2) / d2))) t' (vscale (d1 + d3) (Vec x1 0 x3))) as [Er' Et']; [done|by apply Rn_rotation|done|done| |].
        + intros y. rewrite <- Hm, Hd', En'. by apply Rn_dec.
        + rewrite Er, Et, En, Ed. rewrite Er', Et', Hd', En'. f_equal. ring. }
    assert (forall x S, x * x = S -> 0 < S -> x = sqrt S \/ x = - sqrt S) as Hpm.
    { intros x S Ex HS. pose proof (sqrt_sqrt S ltac:(lra)) as E. assert ((x - sqrt S) * (x + sqrt S) = 0) as E' by lra. apply Rmult_integral in E'. lra. }
    change (mjoin _) with (motion_solution u vh d1 d2 d3 s (sqrt X1, sqrt X3) ++ motion_solution u vh d1 d2 d3 s (sqrt X1, - sqrt X3) ++ motion_solution u vh d1 d2 d3 s (- sqrt X1, sqrt X3) ++ motion_solution u vh d1 d2 d3 s (- sqrt X1, - sqrt X3) ++ []).
    rewrite !in_app_iff. destruct (Hpm x1 X1 N3 Q1) as [A|A]; destruct (Hpm x3 X3 N4 Q3) as [B|B]; rewrite A, B in Hin; tauto.
Qed.
(** A plane is rotated to the horizontal. *)
Theorem C64_horizontal p : p <> v0 -> exists r, plane_horizontalling_rotation p = Some r /\ rotation r /\ mvec r p = Vec 0 0 (norm p).
Proof.
  intros Hp. assert (0 < norm p) as Hn. { pose proof (norm_nonneg p). destruct (Req_dec (norm p) 0) as [E|E]; [by apply norm_0 in E|lra]. }
  unfold plane_horizontalling_rotation. set (ax := cross p (Vec 0 0 1)). assert (norm (Vec 0 0 1) = 1) as E1. { unfold norm, dot. cbn. replace (0 * 0 + 0 * 0 + 1 * 1) with 1 by ring. apply sqrt_1. }
  assert (dot p p = norm p * norm p) as Hpp by (by rewrite norm_sq).
  assert (norm ax * norm ax = norm p * norm p - vz p * vz p) as Hax. { rewrite norm_sq, <- Hpp. unfold ax, dot, cross. cbn. ring. }
  set (c := dot p (Vec 0 0 1) / (norm p * norm (Vec 0 0 1))). assert (c = vz p / norm p) as Ec. { unfold c. rewrite E1. unfold dot. cbn. field. lra. }
  assert (c * norm p = vz p) as Ecz by (rewrite Ec; field; lra). pose proof (norm_nonneg ax) as Hax0.
  assert (-1 <= c <= 1) as Hc. { assert (vz p * vz p <= norm p * norm p) by nra. split; [apply (Rmult_le_reg_r (norm p)); [done|]|apply (Rmult_le_reg_r (norm p)); [done|]]; nra. }
  unfold tf_angle_between_vectors. fold c. destruct (Rlt_dec 0 (norm ax)) as [L|L].
  - eexists. split; [done|]. set (dd := tf_unit ax). assert (dot dd dd = 1) as Hdd by (apply unit_axis; lra).
    assert (cos (acos c) = c) as Cc by (apply cos_acos; lra). assert (sin (acos c) = norm ax / norm p) as Sc.
    { rewrite sin_acos by lra. replace (1 - Rsqr c) with (Rsqr (norm ax / norm p)); [apply sqrt_Rsqr; apply Rlt_le, Rdiv_lt_0_compat; lra|]. unfold Rsqr. rewrite Ec.
      apply (Rmult_eq_reg_r (norm p * norm p)); [|nra]. transitivity (norm ax * norm ax); [field; lra|]. rewrite Hax. field. lra. }
    assert (tf_rotation (acos c) ax = angle_axis_matrix (acos c) dd) as ->.
    { unfold tf_rotation. fold dd. unfold angle_axis_matrix. apply mat_eq; cbn; ring. }
    split; [by apply angle_axis_rotation|]. unfold angle_axis_matrix. rewrite Cc, Sc.
    assert (dd = Vec (vy p / norm ax) (- vx p / norm ax) 0) as ->. { unfold dd, tf_unit. set (k := norm ax) in *. clearbody k. unfold ax, vscale, cross. cbn. f_equal; field; lra. }
    assert (vx p * vx p + vy p * vy p = norm ax * norm ax) as Hxy. { rewrite Hax, <- Hpp. unfold dot. ring. }
    clearbody ax. rewrite Ec. set (k := norm ax) in *. set (l := norm p) in *. destruct p as [x y z]. cbn in *. clearbody k l. unfold mvec. cbn. f_equal.
    + field. lra.
    + field. lra.
    + apply (Rmult_eq_reg_r (k * l)); [|nra]. transitivity (k * (z * z) + k * (x * x + y * y)); [field; lra|]. rewrite Hxy, Hax. ring.
  - assert (norm ax = 0) as Hz by lra. rewrite Hz in Hax. assert (vx p * vx p + vy p * vy p = 0) as Hxy by (unfold dot in Hpp; lra).
    assert (vx p = 0) as Ex by nra. assert (vy p = 0) as Ey by nra. assert (vz p = norm p \/ vz p = - norm p) as [Ez|Ez].
    { assert ((vz p - norm p) * (vz p + norm p) = 0) as E by lra. apply Rmult_integral in E. lra. }
    + assert (c = 1) as -> by (rewrite Ec, Ez; field; lra). rewrite acos_1. destruct (Rlt_dec 0 1); [|lra]. eexists. split; [done|]. split; [apply rotation_I|]. rewrite mvec_I, <- Ez. destruct p. cbn in *. by subst.
    + assert (c = -1) as -> by (rewrite Ec, Ez; field; lra). replace (acos (-1)) with PI by (replace (-1) with (Ropp 1) by ring; rewrite acos_opp, acos_1; ring). pose proof PI2_3_2. destruct (Rlt_dec PI 1); [lra|]. destruct (Rlt_dec 3 PI); [|lra].
      eexists. split; [done|]. split; [split; [apply mat_eq; cbn; ring|unfold det; cbn; ring]|]. destruct p as [x y z]. cbn in *. subst. unfold mvec. cbn. f_equal; lra.
Qed.

(** Concrete cases: the homography diag(2, 1, 1/2) has eight motions, one of them with the normal (-2/sqrt 5, 0, -1/sqrt 5);
    the plane of normal (1, 2, 3) *)
Example C64_motions_case : exists ms, motion_from_plane_homography mI (2, 1, 1/2) mI = Some ms /\ length ms = 8%nat /\
  In (Mat (4/5) 0 (- (3/5)) 0 1 0 (3/5) 0 (4/5), Vec (3/2 * sqrt (4/5)) 0 (- (3/2 * sqrt (1/5))), Vec (- sqrt (4/5)) 0 (- sqrt (1/5)), 1) ms.
Proof.
  pose proof (C64_motions mI mI 2 1 (1/2)) as H. cbn zeta in H. assert (orthogonal mI) as Ho by (unfold orthogonal; apply mat_eq; cbn; ring).
  specialize (H Ho Ho ltac:(lra) ltac:(lra) ltac:(lra)). destruct (motion_from_plane_homography mI (2, 1, 1 / 2) mI) as [ms|] eqn:E; [|lra].
  exists ms. split; [done|]. destruct H as (_ & _ & Hl & H). split; [done|]. apply H. pose proof (sqrt_sqrt (4/5) ltac:(lra)) as S1. pose proof (sqrt_sqrt (1/5) ltac:(lra)) as S2.
  assert (sqrt (4/5) = 2 * sqrt (1/5)) as E2. { replace (4/5) with (2 * 2 * (1/5)) by lra. rewrite sqrt_mult, sqrt_square by lra. done. }
  apply explains_matrix.
  - split; [apply mat_eq; cbn; lra|unfold det; cbn; lra].
  - unfold dot. cbn. lra.
  - rewrite mmul_I_l, mmul_I_r. intros [a b c]. unfold vsub, vscale, mvec, diagonal, dot. cbn. rewrite E2. set (q := sqrt (1/5)) in *.
    f_equal; [transitivity (2 * a + 6 * a * (q * q - 1/5) + 3 * c * (q * q - 1/5)); [rewrite S2; lra|lra]|lra|transitivity (1/2 * c - 3 * a * (q * q - 1/5) - 3/2 * c * (q * q - 1/5)); [rewrite S2; lra|lra]].
Qed.
Example C64_horizontal_case : exists r, plane_horizontalling_rotation (Vec 1 2 3) = Some r /\ mvec r (Vec 1 2 3) = Vec 0 0 (sqrt 14).
Proof.
  destruct (C64_horizontal (Vec 1 2 3)) as (r & H1 & _ & H2). { intros E. apply (f_equal vx) in E. cbn in E. lra. }
  exists r. split; [done|]. rewrite H2. f_equal. unfold norm, dot. cbn. f_equal. ring.
Qed.
Print Assumptions C64_motions.
Print Assumptions C64_horizontal.
