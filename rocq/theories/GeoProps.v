(** C32 and C33: geodetic conversions. *)
From stdpp Require Import prelude.
From Coq Require Import Reals Lra.
From Verif Require Import Base Lin PoseModel GeoModel GeoSpec GeoProofs GeoDeriv.
Local Open Scope R_scope.

(** ** Norms *)
Lemma cauchy u v : dot u v * dot u v <= dot u u * dot v v.
Proof.
  destruct u as [a b c], v as [x y z]. unfold dot. cbn [vx vy vz]. assert (0 <= (a * y - b * x) * (a * y - b * x)) by apply Rle_0_sqr. assert (0 <= (a * z - c * x) * (a * z - c * x)) by apply Rle_0_sqr. assert (0 <= (b * z - c * y) * (b * z - c * y)) by apply Rle_0_sqr. lra.
Qed.
Lemma dot_le_norm u v : dot u v <= norm u * norm v.
Proof.
  destruct (Rle_dec (dot u v) 0) as [H|H]; [pose proof (norm_nonneg u); pose proof (norm_nonneg v); nra|].
  apply Rsqr_incr_0_var; [|pose proof (norm_nonneg u); pose proof (norm_nonneg v); nra]. unfold Rsqr. pose proof (cauchy u v) as E. rewrite <- (norm_sq u), <- (norm_sq v) in E. lra.
Qed.
Lemma norm_triangle u v : norm (vadd u v) <= norm u + norm v.
Proof.
  pose proof (norm_nonneg u). pose proof (norm_nonneg v). apply Rsqr_incr_0_var; [|lra]. unfold Rsqr. rewrite norm_sq. pose proof (dot_le_norm u v).
  replace (dot (vadd u v) (vadd u v)) with (dot u u + 2 * dot u v + dot v v) by (unfold dot, vadd; cbn [vx vy vz]; ring). rewrite <- (norm_sq u), <- (norm_sq v). lra.
Qed.
Lemma distance_triangle p q r : distance p r <= distance p q + distance q r.
Proof.
  unfold distance. replace (vsub p r) with (vadd (vsub p q) (vsub q r)); [apply norm_triangle|]. destruct p, q, r. unfold vadd, vsub. cbn. f_equal; ring.
Qed.
Lemma distance_sym p q : distance p q = distance q p.
Proof. unfold distance, norm, dot, vsub. cbn [vx vy vz]. f_equal. ring. Qed.
Lemma distance_0 p q : distance p q = 0 <-> p = q.
Proof.
  split; [|intros ->; unfold distance; replace (vsub q q) with v0; [apply norm_v0|destruct q; unfold vsub, v0; cbn; f_equal; ring]].
  intros H. apply norm_0 in H. destruct p, q. unfold vsub, v0 in H. cbn in H. injection H as H1 H2 H3. f_equal; lra.
Qed.
Lemma gps_distance_eq p q : gps_distance p q = distance (ecef_from_lla p.1 p.2 0) (ecef_from_lla q.1 q.2 0).
Proof. unfold gps_distance, distance, norm, dot, vsub. cbn [vx vy vz]. f_equal. ring. Qed.

(** ** C32: the topocentric frame *)

(** The frame is a rotation (orthonormal, right-handed) and a translation; its origin is the reference position. *)
Theorem C32_frame_rigid lat lon alt :
  rotation (af_mat (ecef_from_topocentric_transform lat lon alt)) /\
  affine_apply (ecef_from_topocentric_transform lat lon alt) v0 = ecef_from_lla lat lon alt /\
  topocentric_from_lla lat lon alt lat lon alt = v0.
Proof.
  pose proof (frame_rotation lat lon alt) as H. assert (affine_apply (ecef_from_topocentric_transform lat lon alt) v0 = ecef_from_lla lat lon alt) as E.
  { unfold affine_apply. rewrite mvec_0, vadd_0_l. reflexivity. }
  split; [done|]. split; [done|]. unfold topocentric_from_lla. rewrite <- E. by apply affine_inverse_r.
Qed.
(** Axes: the first is the direction in which the position moves as the longitude grows (east), the second as the latitude grows (north),
    the third as the altitude grows (up), one metre per unit of altitude. *)
Theorem C32_axes_east_north_up lat lon alt : -90 < lat < 90 -> -6335000 < alt ->
  let F := af_mat (ecef_from_topocentric_transform lat lon alt) in
  (exists k, 0 < k /\ curve_derivative (fun x => ecef_from_lla lat x alt) lon (vscale k (col1 F))) /\
  (exists k, 0 < k /\ curve_derivative (fun x => ecef_from_lla x lon alt) lat (vscale k (col2 F))) /\
  curve_derivative (fun x => ecef_from_lla lat lon x) alt (col3 F).
Proof.
  intros Hlat Halt F. apply radians_lat in Hlat as Ht. assert (0 < cos (radians lat)) as Hc by (apply cos_gt_0; lra). pose proof PI_RGT_0 as HP.
  pose proof (L_ge (radians lat)) as HL. set (l := L (radians lat)) in *.
  split; [|split].
  - eexists. split; [|apply derive_lon]. fold l. apply Rmult_lt_0_compat; [apply Rmult_lt_0_compat; [|lra]|lra].
    assert (WGS84_a <= WGS84_a ^ 2 * l). { replace WGS84_a with (WGS84_a ^ 2 * / WGS84_a) at 1 by (unfold WGS84_a; lra). apply Rmult_le_compat_l; [apply pow2_ge_0|done]. }
    unfold WGS84_a in *. lra.
  - eexists. split; [|apply derive_lat]. fold l. apply Rmult_lt_0_compat; [|lra].
    assert (WGS84_a ^ 2 * WGS84_b ^ 2 * (/ WGS84_a) ^ 3 <= WGS84_a ^ 2 * WGS84_b ^ 2 * l ^ 3) as H.
    { apply Rmult_le_compat_l; [apply Rmult_le_pos; apply pow2_ge_0|]. apply pow_incr. split; [left; apply Rinv_0_lt_compat, a_pos|done]. }
    assert (6335000 < WGS84_a ^ 2 * WGS84_b ^ 2 * (/ WGS84_a) ^ 3) by (unfold WGS84_a, WGS84_b; simpl; lra). lra.
  - apply derive_alt.
Qed.
(** The vertical is perpendicular to the ellipsoid, outwards; positions of altitude 0 are on the ellipsoid. *)
Theorem C32_vertical lat lon alt :
  on_ellipsoid (ecef_from_lla lat lon 0) /\
  (exists k, 0 < k /\ outwards (ecef_from_lla lat lon 0) = vscale k (col3 (af_mat (ecef_from_topocentric_transform lat lon alt)))) /\
  ecef_from_lla lat lon alt = vadd (ecef_from_lla lat lon 0) (vscale alt (col3 (af_mat (ecef_from_topocentric_transform lat lon alt)))).
Proof. split; [apply on_ellipsoid_0|]. split; [exists (L (radians lat)); split; [apply L_pos|apply outwards_0]|apply ecef_alt]. Qed.
(** The altitude is the signed distance to the ellipsoid: no point of the ellipsoid is nearer than its absolute value,
    and the point of altitude zero below is exactly that far. *)
Theorem C32_altitude_is_distance lat lon alt : - 6335000 <= alt ->
  distance (ecef_from_lla lat lon alt) (ecef_from_lla lat lon 0) = Rabs alt /\
  (forall q, on_ellipsoid q -> Rabs alt <= distance (ecef_from_lla lat lon alt) q).
Proof. intros H. split; [apply altitude_foot|intros q Hq; by apply altitude_nearest]. Qed.
(** Converting between ECEF and topocentric coordinates loses nothing and preserves distances. *)
Theorem C32_topocentric_lossless reflat reflon refalt :
  let T := ecef_from_topocentric_transform reflat reflon refalt in
  (forall lat lon alt, affine_apply T (topocentric_from_lla lat lon alt reflat reflon refalt) = ecef_from_lla lat lon alt) /\
  (forall x, affine_apply (affine_inverse T) (affine_apply T x) = x) /\
  (forall x, affine_apply T (affine_apply (affine_inverse T) x) = x) /\
  (forall x y, distance (affine_apply T x) (affine_apply T y) = distance x y) /\
  (forall lat lon alt lat' lon' alt', distance (topocentric_from_lla lat lon alt reflat reflon refalt) (topocentric_from_lla lat' lon' alt' reflat reflon refalt) =
    distance (ecef_from_lla lat lon alt) (ecef_from_lla lat' lon' alt')).
Proof.
  intros T. pose proof (frame_rotation reflat reflon refalt) as H. fold T in H. unfold topocentric_from_lla. fold T. split; [intros; by apply affine_inverse_l|].
  split; [intros; by apply affine_inverse_r|]. split; [intros; by apply affine_inverse_l|]. split; [intros; by apply affine_distance|].
  intros. apply affine_distance. by apply affine_inverse_rotation.
Qed.
(** gps_distance is a metric. *)
Theorem C32_gps_distance_metric p q r :
  0 <= gps_distance p q /\ gps_distance p q = gps_distance q p /\ gps_distance p p = 0 /\ gps_distance p r <= gps_distance p q + gps_distance q r /\
  (latlon p -> latlon q -> gps_distance p q = 0 -> p = q).
Proof.
  rewrite !gps_distance_eq. split; [apply norm_nonneg|]. split; [apply distance_sym|]. split; [by apply distance_0|]. split; [apply distance_triangle|].
  intros Hp Hq E. apply distance_0 in E. destruct p as [lat lon], q as [lat' lon']. cbn [fst snd] in E. apply bowring in Hp, Hq. rewrite E, Hq in Hp. injection Hp as -> ->. done.
Qed.

(** ** C33: lla_from_ecef *)

(** On the ellipsoid, lla_from_ecef undoes ecef_from_lla. *)
Theorem C33_lla_of_ecef lat lon : -90 < lat < 90 -> -180 < lon <= 180 ->
  let e := ecef_from_lla lat lon 0 in lla_from_ecef (vx e) (vy e) (vz e) = Vec lat lon 0.
Proof. intros Hlat Hlon. by apply bowring. Qed.
(** ... and conversely every point of the ellipsoid off the axis comes back. *)
Theorem C33_ecef_of_lla p : on_ellipsoid p -> (vx p <> 0 \/ vy p <> 0) ->
  let g := lla_from_ecef (vx p) (vy p) (vz p) in latlon (vx g, vy g) /\ vz g = 0 /\ ecef_from_lla (vx g) (vy g) (vz g) = p.
Proof.
  intros Hp Hxy. destruct (ellipsoid_surj p Hp Hxy) as (lat & lon & Hl & <-). rewrite (bowring lat lon Hl). cbn [vx vy vz]. done.
Qed.
(** The same through a topocentric frame. *)
Theorem C33_lla_topocentric lat lon reflat reflon refalt : -90 < lat < 90 -> -180 < lon <= 180 ->
  let x := topocentric_from_lla lat lon 0 reflat reflon refalt in lla_from_topocentric (vx x) (vy x) (vz x) reflat reflon refalt = Vec lat lon 0.
Proof.
  intros Hlat Hlon x. unfold lla_from_topocentric. replace (Vec (vx x) (vy x) (vz x)) with x by (by destruct x). unfold x.
  rewrite (proj1 (C32_topocentric_lossless reflat reflon refalt)). by apply bowring.
Qed.
(** At any altitude the longitude is exact; on the equator so are latitude and altitude. *)
Theorem C33_longitude_exact lat lon alt : -90 < lat < 90 -> -180 < lon <= 180 -> - 6378137 < alt ->
  let e := ecef_from_lla lat lon alt in vy (lla_from_ecef (vx e) (vy e) (vz e)) = lon.
Proof. apply longitude_exact. Qed.
Theorem C33_equator_exact lon alt : -180 < lon <= 180 -> - 6335000 < alt ->
  let e := ecef_from_lla 0 lon alt in lla_from_ecef (vx e) (vy e) (vz e) = Vec 0 lon alt.
Proof. apply equator_exact. Qed.

Print Assumptions C32_frame_rigid.
Print Assumptions C32_axes_east_north_up.
Print Assumptions C32_vertical.
Print Assumptions C32_altitude_is_distance.
Print Assumptions C32_topocentric_lossless.
Print Assumptions C32_gps_distance_metric.
Print Assumptions C33_lla_of_ecef.
Print Assumptions C33_ecef_of_lla.
Print Assumptions C33_lla_topocentric.
Print Assumptions C33_longitude_exact.
Print Assumptions C33_equator_exact.

(** *** Non-vacuity *)
Example geo_example : -90 < 10 < 90 /\ -180 < 20 <= 180 /\ -6335000 < 30 /\ latlon (10, 20) /\ latlon (10, -20).
Proof. unfold latlon. cbn. repeat split; lra. Qed.
(** A point of the ellipsoid that is not on the axis nor on the equator *)
Example geo_ellipsoid_example : on_ellipsoid (Vec (WGS84_a * (3 / 5)) 0 (WGS84_b * (4 / 5))) /\ WGS84_a * (3 / 5) <> 0.
Proof. unfold on_ellipsoid, equatorial_radius, polar_radius. cbn [vx vy vz]. unfold WGS84_a, WGS84_b. split; [field|lra]. Qed.
