(** C62: what the six views of a panorama show *)
From stdpp Require Import prelude gmap strings pretty.
From Coq Require Import Reals Lra.
From Verif Require Import Base CamModel CamSpec CamProofs CameraSpec ProjModel FunctorModel CameraProofs CameraProps Lin RotModel TracksModel TracksSpec MapModel MapSpec PoseModel PoseSpec PoseProofs RecModel PixelModel PixelSpec PixelProps UndistRecModel UndistRecSpec UndistRecProofs UndistRecProps.
Local Open Scope R_scope.

(** Pixel [p] of a camera [c] and pixel [p'] of [c'], whose rotations from the world are [r] and [r'], look in the same direction [d] of the world *)
Definition looks (c : camera) (r : mat) (p : R * R) (d : vec) : Prop := exists b, Bearing c p = Some b /\ mvec (mT r) b = d.
Definition same_direction (c : camera) (r : mat) (p : R * R) (c' : camera) (r' : mat) (p' : R * R) : Prop := exists d, looks c r p d /\ looks c' r' p' d.
(** In the square image of a view, borders included; on its border *)
Definition inside (p : R * R) : Prop := - (1 / 2) <= p.1 <= 1 / 2 /\ - (1 / 2) <= p.2 <= 1 / 2.
Definition border (p : R * R) : Prop := inside p /\ (p.1 = - (1 / 2) \/ p.1 = 1 / 2 \/ p.2 = - (1 / 2) \/ p.2 = 1 / 2).
Definition at_point (o : observation R) : R * R := (o_x o, o_y o).
(** The same observation at another place *)
Definition moved (o : observation R) (p : R * R) : observation R := Obs p.1 p.2 (o_scale o) (o_r o) (o_g o) (o_b o) (o_feature o) (o_segm o) (o_inst o) (o_depth o).

(** * Projection by a view *)
Lemma quarter_project w c' b : quarter w c' -> Project c' b = Some (vx b / vz b / 2, vy b / vz b / 2).
Proof.
  intros (_ & _ & Hm & Ht & Hu & Hf). rewrite Project_undistorted; [|done|done|by rewrite Ht|rewrite Ht; cbn; intros [[]|?]; done].
  rewrite Ht. unfold CameraProofs.image. rewrite Ht, Hf. unfold pinhole. cbn [fst snd]. f_equal. f_equal; lra.
Qed.
Lemma quarter_bearing w c' u v : quarter w c' -> Bearing c' (u, v) = Some (unit_vector (Vec (2 * u) (2 * v) 1)).
Proof.
  intros (Hw & Hh & Hm & Ht & Hu & Hf).
  assert (focal_nonzero c') as Hnz.
  { split; [rewrite Hf; lra|]. left. clear - Hm Ht. shaped. subst t. cbn in H0. by conc vs 3%nat H0. }
  destruct (C45_bearing_project c' (Vec (2 * u) (2 * v) 1) Hm Hu (fun _ => Hnz)) as (u' & v' & HP & HB); [rewrite Ht; cbn; lra|].
  rewrite (quarter_project w) in HP by (repeat split; done). cbn in HP. injection HP as <- <-. rewrite <- HB. f_equal. f_equal; lra.
Qed.
Lemma sphere_bearing c u v : made c -> cam_type c = SPHERICAL -> Bearing c (u, v) = Some (direction (- v * 2 * PI) (u * 2 * PI)).
Proof.
  intros Hm Ht. assert (undistorted c) as Hu.
  { clear - Hm Ht. shaped. subst t. cbn in H0. conc vs 1%nat H0. intros p Hp. repeat (destruct Hp as [<-|Hp]; [done|]). destruct Hp. }
  rewrite Bearing_undistorted by done. unfold plane. rewrite Ht. reflexivity.
Qed.
Lemma unit_scale v : v <> v0 -> exists k, 0 < k /\ unit_vector v = vscale k v.
Proof.
  intros H. exists (/ norm v). split; [|done]. apply Rinv_0_lt_compat. unfold norm. apply sqrt_lt_R0. destruct v as [x y z]. unfold dot. cbn.
  destruct (Req_dec x 0) as [->|?]; [|nra]. destruct (Req_dec y 0) as [->|?]; [|nra]. destruct (Req_dec z 0) as [->|?]; [|nra]. by destruct H.
Qed.
(** * Main lemmas *)
Definition ray (o : observation R) : vec := direction (- o_y o * 2 * PI) (o_x o * 2 * PI).
Lemma pano_obs_spec c w c' r r' o o' : made c -> cam_type c = SPHERICAL -> quarter w c' -> let q := mvec (mmul r' (mT r)) (ray o) in
  pano_observation c c' r r' o = Some o' <-> (0 < vz q /\ - vz q <= vx q <= vz q /\ - vz q <= vy q <= vz q /\ o' = moved o (vx q / vz q / 2, vy q / vz q / 2)).
Proof.
  intros Hm Ht Hq q. unfold pano_observation. rewrite sphere_bearing by done. fold (ray o). fold q. 
  assert (forall x, 0 < vz q -> x / vz q / 2 * (2 * vz q) = x) as Hx by (intros; field; lra).
  destruct (Rle_dec (vz q) 0) as [Hz|Hz]; [split; [done|intros (? & _); lra]|]. rewrite (quarter_project w) by done. cbn [fst snd].
  pose proof (Hx (vx q) ltac:(lra)) as H1. pose proof (Hx (vy q) ltac:(lra)) as H2.
  destruct (Rlt_dec _ _) as [A|A]; [split; [done|intros (? & ? & ? & _); nra]|].
  destruct (Rlt_dec _ _) as [B|B]; [split; [done|intros (? & ? & ? & _); nra]|].
  destruct (Rlt_dec _ _) as [C|C]; [split; [done|intros (? & ? & ? & _); nra]|].
  destruct (Rlt_dec _ _) as [D|D]; [split; [done|intros (? & ? & ? & _); nra]|].
  split; [intros [= <-]|intros (_ & _ & _ & ->); done]. split; [lra|]. split; [nra|]. split; [nra|]. done.
Qed.
Lemma view_rotation side r : rotation r -> mmul (mmul (rows side) r) (mT r) = rows side.
Proof. intros Hr. by rewrite <- mmul_assoc, rotation_r, mmul_I_r. Qed.
Lemma ray_unit o : vx (ray o) * vx (ray o) + vy (ray o) * vy (ray o) + vz (ray o) * vz (ray o) = 1.
Proof.
  unfold ray. set (a := - o_y o * 2 * PI). set (b := o_x o * 2 * PI). pose proof (sin2_cos2 a) as Ha. pose proof (sin2_cos2 b) as Hb. unfold Rsqr in *. cbn.
  replace (cos a * sin b * (cos a * sin b) + - sin a * - sin a + cos a * cos b * (cos a * cos b)) with (cos a * cos a * (sin b * sin b + cos b * cos b) + sin a * sin a) by ring. rewrite Hb. lra.
Qed.
Lemma half_bound x z : 0 < z -> - z <= x <= z -> - (1 / 2) <= x / z / 2 <= 1 / 2.
Proof.
  intros Hz H. assert (x / z / 2 * (2 * z) = x) as E by (field; lra). set (u := x / z / 2) in *. clearbody u. split; apply Rmult_le_reg_r with (2 * z); lra.
Qed.
Ltac sides_cases H := repeat (apply elem_of_cons in H as [->|H]); [..|by apply elem_of_nil in H].

(** * Tracks *)
Section Pano.
Variables (c c' : camera) (w : Z) (r : mat).
Hypotheses (Hm : made c) (Ht : cam_type c = SPHERICAL) (Hq : quarter w c') (Hr : rotation r).

(** Every direction is seen: an observation of the panorama is found in at least one of the six views. *)
Theorem C62_covered o : exists side o', side ∈ sides /\ pano_observation c c' r (mmul (rows side.2) r) o = Some o'.
Proof.
  assert (exists side, side ∈ sides /\ let q := mvec (rows side.2) (ray o) in 0 < vz q /\ - vz q <= vx q <= vz q /\ - vz q <= vy q <= vz q) as (side & Hs & H1 & H2 & H3).
  { pose proof (ray_unit o) as Hu. destruct (ray o) as [x y z]. cbn in Hu.
    destruct (Rle_dec (Rabs x) (Rabs z)) as [Hxz|Hxz].
    - destruct (Rle_dec (Rabs y) (Rabs z)) as [Hyz|Hyz].
      + destruct (Rle_dec 0 z).
        * exists ("front", (Vec 1 0 0, Vec 0 1 0, Vec 0 0 1)). split; [set_solver|]. cbn. unfold Rabs in *; destruct (Rcase_abs x), (Rcase_abs y), (Rcase_abs z); nra.
        * exists ("back", (Vec (-1) 0 0, Vec 0 1 0, Vec 0 0 (-1))). split; [set_solver|]. cbn. unfold Rabs in *; destruct (Rcase_abs x), (Rcase_abs y), (Rcase_abs z); nra.
      + destruct (Rle_dec 0 y).
        * exists ("bottom", (Vec 1 0 0, Vec 0 0 (-1), Vec 0 1 0)). split; [set_solver|]. cbn. unfold Rabs in *; destruct (Rcase_abs x), (Rcase_abs y), (Rcase_abs z); nra.
        * exists ("top", (Vec 1 0 0, Vec 0 0 1, Vec 0 (-1) 0)). split; [set_solver|]. cbn. unfold Rabs in *; destruct (Rcase_abs x), (Rcase_abs y), (Rcase_abs z); nra.
    - destruct (Rle_dec (Rabs y) (Rabs x)) as [Hyx|Hyx].
      + destruct (Rle_dec 0 x).
        * exists ("left", (Vec 0 0 (-1), Vec 0 1 0, Vec 1 0 0)). split; [set_solver|]. cbn. unfold Rabs in *; destruct (Rcase_abs x), (Rcase_abs y), (Rcase_abs z); nra.
        * exists ("right", (Vec 0 0 1, Vec 0 1 0, Vec (-1) 0 0)). split; [set_solver|]. cbn. unfold Rabs in *; destruct (Rcase_abs x), (Rcase_abs y), (Rcase_abs z); nra.
      + destruct (Rle_dec 0 y).
        * exists ("bottom", (Vec 1 0 0, Vec 0 0 (-1), Vec 0 1 0)). split; [set_solver|]. cbn. unfold Rabs in *; destruct (Rcase_abs x), (Rcase_abs y), (Rcase_abs z); nra.
        * exists ("top", (Vec 1 0 0, Vec 0 0 1, Vec 0 (-1) 0)). split; [set_solver|]. cbn. unfold Rabs in *; destruct (Rcase_abs x), (Rcase_abs y), (Rcase_abs z); nra. }
  exists side, (moved o (let q := mvec (rows side.2) (ray o) in (vx q / vz q / 2, vy q / vz q / 2))). split; [done|].
  apply (pano_obs_spec c w c'); [done..|]. rewrite view_rotation by done. cbn zeta in *. tauto.
Qed.

(** What is found in a view is what the view sees: the place of the view that looks in the direction of the observation, if it
    is in the image. All else is kept: scale, color, feature, segmentation, depth prior. *)
Theorem C62_same_direction r' o o' : rotation r' ->
  pano_observation c c' r r' o = Some o' <-> exists p, inside p /\ o' = moved o p /\ same_direction c r (at_point o) c' r' p.
Proof.
  intros Hr'. rewrite (pano_obs_spec c w c' r r' o o' Hm Ht Hq). cbn zeta. set (q := mvec (mmul r' (mT r)) (ray o)).
  assert (dot q q = 1) as Hqq. { unfold q. rewrite dot_mvec by (apply rotation_mmul; [done|by apply rotation_T]). exact (ray_unit o). }
  assert (mvec (mT r') q = mvec (mT r) (ray o)) as Hback. { unfold q. by rewrite <- mvec_mmul, mmul_assoc, rotation_l, mmul_I_l. }
  assert (Bearing c (at_point o) = Some (ray o)) as Hb by (by apply sphere_bearing).
  split.
  - intros (Hz & Hx & Hy & ->). exists (vx q / vz q / 2, vy q / vz q / 2).
    split; [split; by apply half_bound|]. split; [done|]. exists (mvec (mT r) (ray o)). split; [by exists (ray o)|]. exists q. split; [|done].
    rewrite (quarter_bearing w) by done. f_equal. replace (Vec _ _ 1) with (vscale (/ vz q) q).
    2:{ destruct q as [x y z]. unfold vscale. cbn in *. f_equal; field; lra. }
    unfold unit_vector. rewrite norm_scale by (left; by apply Rinv_0_lt_compat). unfold norm. rewrite Hqq, sqrt_1. destruct q as [x y z]. unfold vscale. cbn in *. f_equal; field; lra.
  - intros (p & [Hp1 Hp2] & -> & d & (b & Hb1 & Hd) & (b' & Hb' & Hd')). rewrite Hb in Hb1. injection Hb1 as <-. destruct p as [u v]. cbn [fst snd] in *.
    rewrite (quarter_bearing w) in Hb' by done. injection Hb' as Hb'. destruct (unit_scale (Vec (2 * u) (2 * v) 1)) as (k & Hk & Ek); [intros [=]; lra|]. rewrite Ek in Hb'.
    assert (q = b') as Eq. { unfold q. rewrite mvec_mmul, Hd, <- Hd', <- mvec_mmul, rotation_r by done. apply mvec_I. }
    rewrite Eq, <- Hb'. cbn. split; [lra|]. split; [nra|]. split; [nra|]. f_equal. f_equal; field; lra.
Qed.
(** Only the common borders of two views are seen twice. *)
Theorem C62_twice o side1 side2 o1 o2 : side1 ∈ sides -> side2 ∈ sides -> side1 <> side2 ->
  pano_observation c c' r (mmul (rows side1.2) r) o = Some o1 -> pano_observation c c' r (mmul (rows side2.2) r) o = Some o2 ->
  border (at_point o1) /\ border (at_point o2).
Proof.
  assert (forall side1 side2 o1 o2, side1 ∈ sides -> side2 ∈ sides -> side1 <> side2 ->
    pano_observation c c' r (mmul (rows side1.2) r) o = Some o1 -> pano_observation c c' r (mmul (rows side2.2) r) o = Some o2 -> border (at_point o1)) as H.
  { clear side1 side2 o1 o2. intros side1 side2 o1 o2 H1 H2 Hne E1 E2. apply (pano_obs_spec c w c' r _ o o1 Hm Ht Hq) in E1. apply (pano_obs_spec c w c' r _ o o2 Hm Ht Hq) in E2.
    rewrite view_rotation in E1, E2 by done. set (a := mvec (rows side1.2) (ray o)) in *. set (b := mvec (rows side2.2) (ray o)) in *. cbn zeta in *.
    destruct E1 as (Z1 & X1 & Y1 & ->), E2 as (Z2 & X2 & Y2 & _).
    split; [split; by apply half_bound|]. unfold at_point, moved. cbn [o_x o_y fst snd].
    assert (vx a = - vz a \/ vx a = vz a \/ vy a = - vz a \/ vy a = vz a) as HE.
    { destruct (Req_dec (vx a) (- vz a)); [tauto|]. destruct (Req_dec (vx a) (vz a)); [tauto|]. destruct (Req_dec (vy a) (- vz a)); [tauto|]. right; right; right.
      destruct (Req_dec (vy a) (vz a)); [done|]. exfalso. destruct (ray o) as [x y z].
      sides_cases H1; sides_cases H2; first [by destruct Hne|clear Hne; unfold a, b in *; cbn in *; lra]. }
    assert (forall s, s / 2 = s * vz a / vz a / 2) as HS by (intros; field; lra).
    destruct HE as [E|[E|[E|E]]]; [left|right; left|right; right; left|right; right; right]; rewrite E; field; lra. }
  intros H1 H2 Hne E1 E2. split; [by eapply H with (side1 := side1)|by eapply H with (side1 := side2) (side2 := side1)].
Qed.

(** * Images *)
Lemma sphere_project p : p <> v0 -> exists u v, Project c p = Some (u, v) /\ Bearing c (u, v) = Some (unit_vector p) /\ - (1 / 2) <= u <= 1 / 2 /\ - (1 / 4) <= v <= 1 / 4.
Proof.
  intros Hp. pose proof PI_RGT_0 as HPI.
  assert (forall a lo, - lo * PI <= a <= lo * PI -> - (lo / 2) <= a / (2 * PI) <= lo / 2) as HB.
  { intros a lo Ha. assert (a / (2 * PI) * (2 * PI) = a) as E by (field; lra). set (u := a / (2 * PI)) in *. clearbody u. split; apply Rmult_le_reg_r with (2 * PI); lra. }
  destruct (Req_dec (vx p) 0) as [Hx|Hx]; [destruct (Req_dec (vz p) 0) as [Hz|Hz]|].
  2,3: destruct (sphere_polar p ltac:(tauto)) as (rho & lat & lon & Hrho & Hlat & Hlon & E);
    destruct (C45_panorama c rho lat lon Hm Ht Hrho Hlat Hlon) as [E1 E2]; exists (lon / (2 * PI)), (- lat / (2 * PI)); rewrite E, E1, E2;
    (split; [done|]); (split; [|split]); [f_equal; unfold unit_vector; rewrite (norm_scale rho) by lra; rewrite direction_unit, Rmult_1_r, vscale_vscale, Rinv_l, vscale_1 by lra; reflexivity
      |apply HB; lra|replace (1 / 4) with (1 / 2 / 2) by lra; apply HB; lra].
  destruct p as [x y z]. cbn in Hx, Hz. subst x z. assert (y <> 0) as Hy by (intros ->; by destruct Hp).
  assert (Project c (Vec 0 y 0) = Some (0, if Rlt_dec 0 y then 1 / 4 else - (1 / 4))) as HP.
  { clear - Hm Ht Hy HPI. shaped. subst t. cbn in H0. conc vs 1%nat H0. unfold Project. cbn [cam_type cam_values Dispatch].
    cbv [Generic_Forward ComposeFunctions fwd cm_proj cm_disto cm_aff st_functor SPHER IDENT total nparams SphericalProjection Identity Forward ParamSize foldr fst snd Nat.add].
    unfold Spherical_Forward, list_of_vec. cbn [nth vx vy vz]. replace (0 * 0 + 0 * 0) with 0 by lra. rewrite sqrt_0.
    assert (GeoModel.atan2 0 0 = 0) as ->. { unfold GeoModel.atan2. repeat (destruct (Rlt_dec _ _); [lra|]). done. }
    assert (GeoModel.atan2 (- y) 0 = if Rlt_dec 0 y then - (PI / 2) else PI / 2) as ->.
    { unfold GeoModel.atan2. destruct (Rlt_dec 0 0); [lra|]. destruct (Rlt_dec 0 0); [lra|]. destruct (Rlt_dec 0 (- y)), (Rlt_dec 0 y); try lra. destruct (Rlt_dec (- y) 0); lra. }
    unfold Identity_Forward. cbn. f_equal. f_equal; [lra|]. destruct (Rlt_dec 0 y); field; lra. }
  exists 0, (if Rlt_dec 0 y then 1 / 4 else - (1 / 4)). split; [done|]. rewrite sphere_bearing by done.
  split; [|destruct (Rlt_dec 0 y); lra]. f_equal. unfold unit_vector, norm, dot, direction, vscale. cbn [vx vy vz]. replace (0 * 0 + y * y + 0 * 0) with (y ^ 2) by ring.
  replace (0 * 2 * PI) with 0 by ring. rewrite sin_0, cos_0. rewrite <- (Rabs_pos_eq (sqrt (y ^ 2))) by apply sqrt_pos.
  destruct (Rlt_dec 0 y).
  - rewrite sqrt_pow2 by lra. rewrite Rabs_pos_eq by lra. replace (- (1 / 4) * 2 * PI) with (- (PI / 2)) by lra. rewrite sin_neg, cos_neg, sin_PI2, cos_PI2. f_equal; field; lra.
  - replace (y ^ 2) with ((- y) ^ 2) by ring. rewrite sqrt_pow2 by lra. rewrite Rabs_pos_eq by lra. replace (- - (1 / 4) * 2 * PI) with (PI / 2) by lra. rewrite sin_PI2, cos_PI2. f_equal; field; lra.
Qed.
(** Each pixel of a view is read in the panorama, of any size, where the panorama looks in the same direction; this place is in the
    panorama if its width is twice its height (as it is after it is resized to [pano_image_size]). *)
Theorem C62_render r' x y iw ih : rotation r' -> (0 < w)%Z -> (0 < iw)%Z -> (0 < ih)%Z -> exists src, render_source c c' r r' iw ih x y = Some src /\
  same_direction c r (normalized_image_coordinates src iw ih) c' r' (normalized_image_coordinates (IZR x, IZR y) w w) /\
  (iw = 2 * ih -> in_image src iw ih)%Z.
Proof.
  intros Hr' Hw Hiw Hih. unfold render_source. destruct (Hq) as (-> & -> & _). destruct (normalized_image_coordinates (IZR x, IZR y) w w) as [u v] eqn:En.
  rewrite (quarter_bearing w) by done. set (b := unit_vector (Vec (2 * u) (2 * v) 1)).
  assert (dot b b = 1) as Hbb.
  { unfold b, unit_vector. set (a := Vec (2 * u) (2 * v) 1). assert (0 < dot a a) as Ha by (unfold dot, a; cbn; nra).
    assert (norm a * norm a = dot a a) as Hn by (apply sqrt_def; lra). assert (0 < norm a) by (apply sqrt_lt_R0; lra).
    transitivity (/ norm a * / norm a * dot a a); [unfold dot, vscale; cbn; ring|]. rewrite <- Hn. field. lra. }
  set (q := mvec (mmul r (mT r')) b). assert (dot q q = 1) as Hqq. { unfold q. rewrite dot_mvec by (apply rotation_mmul; [done|by apply rotation_T]). done. }
  destruct (sphere_project q) as (u' & v' & HP & HB & Hu & Hv). { intros E. rewrite E in Hqq. unfold dot, v0 in Hqq. cbn in Hqq. lra. }
  rewrite HP. eexists. split; [done|].
  assert (normalized_image_coordinates (denormalized_image_coordinates (u', v') iw ih) iw ih = (u', v')) as Hinv by (by apply C35_inverse).
  rewrite Hinv. split.
  - exists (mvec (mT r) q). split; [exists q|exists b].
    + split; [|done]. rewrite HB. f_equal. unfold unit_vector, norm. rewrite Hqq, sqrt_1, Rinv_1. apply vscale_1.
    + split; [by rewrite (quarter_bearing w)|]. unfold q. by rewrite <- mvec_mmul, mmul_assoc, rotation_l, mmul_I_l.
  - intros Eih. apply C35_box; [done|done|]. rewrite Hinv. unfold in_box. cbn [fst snd]. rewrite Z.max_l by lia. 
    assert (0 < IZR ih) by (by apply IZR_lt). rewrite Eih, mult_IZR. 
    replace (2 * IZR ih / (2 * (2 * IZR ih))) with (1 / 2) by (field; lra). replace (IZR ih / (2 * (2 * IZR ih))) with (1 / 4) by (field; lra).
    split; apply Rabs_le; lra.
Qed.
(** If an observation is at the centre of a pixel of the view, then this pixel is read where the observation was in the panorama. *)
Theorem C62_render_tracks r' o o' x y iw ih : rotation r' -> (0 < w)%Z -> (0 < iw)%Z -> (0 < ih)%Z -> - (1 / 2) < o_x o <= 1 / 2 -> - (1 / 4) < o_y o < 1 / 4 ->
  pano_observation c c' r r' o = Some o' -> at_point o' = normalized_image_coordinates (IZR x, IZR y) w w ->
  render_source c c' r r' iw ih x y = Some (denormalized_image_coordinates (at_point o) iw ih).
Proof.
  intros Hr' Hw Hiw Hih Hox Hoy E Hat. apply C62_same_direction in E; [|done]. destruct E as (p & _ & -> & d & (b & Hb & Hd) & (b' & Hb' & Hd')).
  assert (p = at_point (moved o p)) as Ep by (by destruct p). rewrite Ep, Hat in Hb'.
  unfold render_source. destruct Hq as (-> & -> & _). rewrite Hb'.
  assert (mvec (mmul r (mT r')) b' = b) as ->. { rewrite mvec_mmul, Hd', <- Hd, <- mvec_mmul, rotation_r by done. apply mvec_I. }
  unfold at_point in Hb. rewrite sphere_bearing in Hb by done. injection Hb as <-. pose proof PI_RGT_0 as HPI.
  destruct (C45_panorama c 1 (- o_y o * 2 * PI) (o_x o * 2 * PI) Hm Ht) as [HP _]; [lra|split; nra|split; nra|]. rewrite vscale_1 in HP. rewrite HP.
  f_equal. unfold at_point. f_equal. f_equal; field; lra.
Qed.
End Pano.

(** * In the undistorted reconstruction: no observation of a panorama is lost, and each is seen by a shot at the same place in the
    direction in which the panorama saw it. *)
Theorem C62_tracks_kept enumS enumL enumO tr r images image_format width st id s c p t o :
  enumerates enumS -> enumerates enumL -> enumerates enumO -> well_formed r -> no_clash r images image_format ->
  undistort_reconstruction enumS enumL enumO (Some tr) r images image_format width = Ok st ->
  kept r images id s c -> cam_type c = SPHERICAL -> get_pose r (false, id) = Some p -> observed tr id t = Some o ->
  (exists n q, n ∈ outputs image_format id (cam_type c) /\ observed (us_tracks st) n t = Some (moved o q)) /\
  forall n o', n ∈ outputs image_format id (cam_type c) -> observed (us_tracks st) n t = Some o' ->
    exists c' p' q, shot_of (us_rec st) n (sd_metadata (sh_data s)) c' p' /\ o' = moved o q /\ inside q /\ get_origin p' = get_origin p /\
      same_direction c (w_rot p) (at_point o) c' (w_rot p') q.
Proof.
  intros HS HL HO Hwf Hnc E K Ht Hp Ho. pose proof K as (_ & _ & Hc & _). destruct (wf_cameras _ Hwf _ _ Hc) as (_ & Hm & _).
  destruct (C61_panorama enumS enumL enumO (Some tr) r images image_format width HS HL HO Hwf Hnc st id s c E K Ht) as (p0 & Hp0 & Hsides). assert (p0 = p) as -> by congruence. clear Hp0.
  destruct (C61_tracks enumS enumL enumO (Some tr) r images image_format width HS HL HO Hwf Hnc st tr E eq_refl) as (_ & _ & Htr & _).
  destruct (kept_pose r images Hwf _ _ _ K) as (p1 & Hp1 & Hv). assert (p1 = p) as -> by congruence. destruct Hv as (Hrot & _).
  split.
  - destruct (C62_covered c (pano_camera width) width (w_rot p) Hm Ht (pano_camera_quarter width) Hrot o) as (side & o' & Hside & Eo).
    destruct (elem_of_list_lookup_1 _ _ Hside) as [i Hi]. destruct (Hsides i side Hi) as (n & c' & q & Hn & Hout & Hqc & Hsh & Hvq & Horg & Hrq).
    pose proof (pano_obs_spec c width (pano_camera width) (w_rot p) (mmul (rows side.2) (w_rot p)) o o' Hm Ht (pano_camera_quarter width)) as [Hs1 _]. destruct (Hs1 Eo) as (V1 & V2 & V3 & Eo').
    eexists n, _. split; [by eapply elem_of_list_lookup_2|]. rewrite (Htr id s c side n c' p q _ t K Ht Hside Hn Hp Hsh), Ho. cbn [mbind option_bind].
    apply (pano_obs_spec c width c' (w_rot p) _ o _ Hm Ht Hqc). cbn zeta. rewrite Hrq. cbn zeta in V1, V2, V3. split; [done|]. split; [done|]. split; [done|]. reflexivity.
  - intros n o' Hn Hobs. apply elem_of_list_lookup_1 in Hn as [i Hi].
    assert (exists side, sides !! i = Some side) as [side Hside].
    { apply lookup_lt_is_Some_2. apply lookup_lt_Some in Hi. rewrite Ht in Hi. unfold outputs in Hi. rewrite decide_False in Hi by (simpl; tauto). rewrite decide_True in Hi by done. by rewrite fmap_length in Hi. }
    destruct (Hsides i side Hside) as (n' & c' & q & Hn & Hout & Hqc & Hsh & Hvq & Horg & Hrq). assert (n' = n) as -> by congruence.
    assert (side ∈ sides) as Hin by (by eapply elem_of_list_lookup_2).
    rewrite (Htr id s c side n c' p q _ t K Ht Hin Hn Hp Hsh), Ho in Hobs. cbn [mbind option_bind] in Hobs.
    destruct Hvq as (Hqrot & _). apply (C62_same_direction c c' width (w_rot p) Hm Ht Hqc Hrot (w_rot q) o o' Hqrot) in Hobs as (z & Hz1 & Hz2 & Hz3).
    by exists c', q, z.
Qed.

(** * Defects and examples *)
Definition side_of (name : string) : mat := match List.find (fun side => bool_decide (side.1 = name)) sides with Some side => rows side.2 | None => mI end.
Definition obs_at (u v : R) : observation R := Obs u v 1 1 2 3 4 (-1) (-1) None.
Lemma quarter_turn u : u * 2 * PI = PI / 2 -> direction (- 0 * 2 * PI) (u * 2 * PI) = Vec 1 0 0.
Proof. intros ->. unfold direction. replace (- 0 * 2 * PI) with 0 by ring. rewrite sin_0, cos_0, sin_PI2, cos_PI2. f_equal; ring. Qed.
(** The view called left shows what is to the right: three quarters of the width of the panorama is the centre of the view called left. *)
Theorem C62_left_refuted c w : made c -> cam_type c = SPHERICAL ->
  pano_observation c (pano_camera w) mI (side_of "left") (obs_at (1 / 4) 0) = Some (obs_at 0 0) /\
  pano_observation c (pano_camera w) mI (side_of "right") (obs_at (1 / 4) 0) = None.
Proof.
  intros Hm Ht.
  assert (ray (obs_at (1 / 4) 0) = Vec 1 0 0) as Hray. { unfold ray, obs_at. cbn [o_x o_y]. apply quarter_turn. lra. }
  assert (side_of "left" = Mat 0 0 (-1) 0 1 0 1 0 0) as -> by done. assert (side_of "right" = Mat 0 0 1 0 1 0 (-1) 0 0) as -> by done.
  split.
  - apply (pano_obs_spec c w _ _ _ _ _ Hm Ht (pano_camera_quarter w)). rewrite Hray. cbn. split; [lra|]. split; [lra|]. split; [lra|]. unfold moved, obs_at. cbn. f_equal; field.
  - destruct (pano_observation _ _ _ _ _) eqn:E; [|done]. apply (pano_obs_spec c w _ _ _ _ _ Hm Ht (pano_camera_quarter w)) in E. rewrite Hray in E. cbn in E. lra.
Qed.
Example C62_example w : made ball /\ cam_type ball = SPHERICAL /\ quarter w (pano_camera w) /\ rotation (side_of "left") /\
  render_source ball (pano_camera 3) mI (side_of "left") 12 6 1 1 = Some (8.5, 2.5).
Proof.
  split; [by apply made_attributes, made_spherical|]. split; [done|]. split; [apply pano_camera_quarter|].
  split; [apply (rotation_side ("left", (Vec 0 0 (-1), Vec 0 1 0, Vec 1 0 0))); set_solver|].
  destruct (C62_left_refuted ball 3 (made_attributes _ _ _ _ made_spherical) eq_refl) as [E _].
  rewrite (C62_render_tracks ball (pano_camera 3) 3 mI (made_attributes _ _ _ _ made_spherical) eq_refl (pano_camera_quarter 3) rotation_I (side_of "left") (obs_at (1 / 4) 0) (obs_at 0 0) 1 1 12 6 ltac:(apply (rotation_side ("left", (Vec 0 0 (-1), Vec 0 1 0, Vec 1 0 0))); set_solver)
    ltac:(lia) ltac:(lia) ltac:(lia) ltac:(cbn; lra) ltac:(cbn; lra) E); [|unfold at_point, normalized_image_coordinates, obs_at; cbn [o_x o_y fst snd Z.max Z.compare Pos.compare Pos.compare_cont]; f_equal; lra].
  unfold at_point, denormalized_image_coordinates, obs_at; cbn [o_x o_y fst snd Z.max Z.compare Pos.compare Pos.compare_cont]. change (12 `max` 6)%Z with 12%Z. f_equal. f_equal; lra.
Qed.

(** Scaled images: at most [max_size], the longer side exactly so, the shorter one in proportion to half a pixel. *)
Lemma Rabs_le_inv a b : Rabs a <= b -> - b <= a <= b.
Proof. unfold Rabs. destruct (Rcase_abs a); lra. Qed.
Lemma py_round_near x : Rabs (IZR (py_round x) - x) <= 1 / 2.
Proof.
  unfold py_round. pose proof (base_Int_part x) as [H1 H2]. set (f := Int_part x) in *.
  destruct (Rlt_dec _ _); [|destruct (Rlt_dec _ _); [|destruct (Z.even f)]]; rewrite ?plus_IZR; apply Rabs_le; lra.
Qed.
Lemma py_round_mono_Z x (z : Z) : x = IZR z -> py_round x = z.
Proof. intros ->. pose proof (py_round_near (IZR z)) as H. apply Rabs_le_inv in H. assert (IZR (py_round (IZR z)) - IZR z < 1 /\ -1 < IZR (py_round (IZR z)) - IZR z) as [A B] by lra. rewrite <- minus_IZR in A, B. apply lt_IZR in A, B. lia. Qed.
Lemma py_round_le x (z : Z) : x <= IZR z -> (py_round x <= z)%Z.
Proof. intros H. pose proof (py_round_near x) as N. apply Rabs_le_inv in N. apply Zlt_succ_le. apply lt_IZR. rewrite succ_IZR. lra. Qed.
Theorem C62_scaled h w s : (0 < h)%Z -> (0 < w)%Z -> (0 < s)%Z -> let (h', w') := scale_image_size h w s in
  (0 <= h' <= h)%Z /\ (0 <= w' <= w)%Z /\ Z.max h' w' = Z.min (Z.max h w) s /\
  Rabs (IZR h' - IZR h * (IZR (Z.max h' w') / IZR (Z.max h w))) <= 1 / 2 /\ Rabs (IZR w' - IZR w * (IZR (Z.max h' w') / IZR (Z.max h w))) <= 1 / 2.
Proof.
  intros Hh Hw Hs. unfold scale_image_size. set (m := Z.max h w) in *. assert (0 < IZR m) as Hm by (apply IZR_lt; lia). assert (0 < IZR s) by (by apply IZR_lt).
  assert (IZR s / IZR m * IZR m = IZR s) as Ef by (field; lra). set (f := IZR s / IZR m) in *. assert (0 < f) as Hf by (unfold f; apply Rdiv_lt_0_compat; lra).
  destruct (Rle_dec 1 f) as [H1|H1].
  - assert (m <= s)%Z as Hms by (apply le_IZR; nra). split; [lia|]. split; [lia|]. fold m. split; [by rewrite Z.min_l|]. replace (IZR m / IZR m) with 1 by (field; lra). split; apply Rabs_le; lra.
  - assert (s < m)%Z as Hms by (apply lt_IZR; nra).
    assert (forall a, (0 < a <= m)%Z -> (0 <= py_round (IZR a * f) <= a)%Z /\ (py_round (IZR a * f) <= s)%Z) as HR.
    { intros a Ha. assert (0 < IZR a <= IZR m) as [? ?] by (split; [apply IZR_lt; lia|apply IZR_le; lia]). split; [split|].
      - pose proof (py_round_near (IZR a * f)) as N. apply Rabs_le_inv in N. assert (0 < IZR a * f) by nra. assert (-1 < py_round (IZR a * f))%Z; [apply lt_IZR; lra|lia].
      - apply py_round_le. nra.
      - apply py_round_le. rewrite <- Ef. nra. }
    destruct (HR h) as [A1 A2]; [lia|]. destruct (HR w) as [B1 B2]; [lia|].
    assert (Z.max (py_round (IZR h * f)) (py_round (IZR w * f)) = s) as Emax.
    { destruct (Z.max_spec h w) as [[? Em]|[? Em]].
      - assert (py_round (IZR w * f) = s) as -> by (apply py_round_mono_Z; rewrite <- Em; fold m; lra). lia.
      - assert (py_round (IZR h * f) = s) as -> by (apply py_round_mono_Z; rewrite <- Em; fold m; lra). lia. }
    split; [done|]. split; [done|]. split; [by rewrite Z.min_r by lia|]. rewrite Emax. fold f. split; apply py_round_near.
Qed.
(** An image much longer than wide loses its width: resizing to nothing is an error of OpenCV. *)
Theorem C62_scaled_empty_refuted : scale_image_size 3000 1 1000 = (1000, 0)%Z.
Proof.
  unfold scale_image_size. change (3000 `max` 1)%Z with 3000%Z. cbn zeta. destruct (Rle_dec 1 _) as [H|H]; [lra|].
  f_equal; [apply py_round_mono_Z; lra|]. pose proof (py_round_near (1 * (1000 / 3000))) as N. apply Rabs_le_inv in N.
  assert (IZR (py_round (1 * (1000 / 3000))) < 1 /\ -1 < IZR (py_round (1 * (1000 / 3000)))) as [A B] by lra. apply lt_IZR in A, B. lia.
Qed.

Print Assumptions C62_covered.
Print Assumptions C62_same_direction.
Print Assumptions C62_twice.
Print Assumptions C62_render.
Print Assumptions C62_render_tracks.
Print Assumptions C62_tracks_kept.
Print Assumptions C62_scaled.
Print Assumptions C62_left_refuted.
Print Assumptions C62_scaled_empty_refuted.
