From stdpp Require Import prelude.
From Coq Require Import Reals Lra.
From Verif Require Import Base Lin RotProofs CamModel CamSpec CamProofs GeoModel GeoProofs FunctorModel ProjModel CameraSpec.
Local Open Scope R_scope.

Lemma polar_up r z : 0 < r -> exists rho t, 0 < rho /\ 0 < t < PI /\ z = rho * cos t /\ r = rho * sin t.
Proof.
  intros Hr. destruct (polar_exists z r ltac:(right; lra)) as (rho & t & Hrho & Ht & Hz & Hs). exists rho, t.
  assert (0 < sin t) by nra. repeat split; try assumption; try lra.
  - destruct (Rlt_dec 0 t) as [|N]; [assumption|]. exfalso. assert (sin t <= 0); [|lra].
    replace (sin t) with (- sin (- t)) by (rewrite sin_neg; ring). assert (0 <= sin (- t)); [|lra]. apply sin_ge_0; lra.
  - destruct (Req_dec t PI) as [E|]; [|lra]. rewrite E, sin_PI in *. lra.
Qed.
Lemma sqrt_polar rho t : 0 <= rho -> sqrt ((rho * cos t) * (rho * cos t) + (rho * sin t) * (rho * sin t)) = rho.
Proof.
  intros H. replace (rho * cos t * (rho * cos t) + rho * sin t * (rho * sin t)) with (rho * rho * (sin t * sin t + cos t * cos t)) by ring.
  rewrite sc2, Rmult_1_r. apply sqrt_square; assumption.
Qed.
Lemma atan2_acos r z : 0 < r -> atan2 r z = acos (z / sqrt (z * z + r * r)) /\ 0 < atan2 r z < PI.
Proof.
  intros Hr. destruct (polar_up r z Hr) as (rho & t & Hrho & Ht & -> & ->).
  rewrite atan2_polar by lra. rewrite sqrt_polar by lra. split; [|lra].
  replace (rho * cos t / rho) with (cos t) by (field; lra). symmetry. apply acos_cos. lra.
Qed.

Lemma fisheye_equidistant p k : small <= axis_dist p ->
  Fisheye_Forward (list_of_vec p) k = [(equidistant p).1; (equidistant p).2].
Proof.
  intros H. assert (Hs : 0 < small) by (unfold small; apply Rinv_0_lt_compat, pow_lt; lra).
  unfold Fisheye_Forward, list_of_vec, SquaredNorm. cbn [nth].
  replace (vx p * vx p + vy p * vy p) with (vx p ^ 2 + vy p ^ 2) by ring. fold (axis_dist p).
  destruct (Rlt_dec _ _) as [L|_]; [lra|]. unfold equidistant, axis_angle. cbn [fst snd].
  destruct (atan2_acos (axis_dist p) (vz p) ltac:(lra)) as [-> _].
  assert (E : vz p * vz p + axis_dist p * axis_dist p = dot p p).
  { unfold axis_dist. rewrite sqrt_sqrt by (pose proof (pow2_ge_0 (vx p)); pose proof (pow2_ge_0 (vy p)); lra). unfold dot. ring. }
  rewrite E. fold (norm p). f_equal; [|f_equal]; field; lra.
Qed.
Lemma pinhole_forward p k : Perspective_Forward (list_of_vec p) k = [(pinhole p).1; (pinhole p).2].
Proof. reflexivity. Qed.

Ltac conc l n H := let rec go k := match k with O => destruct l; [clear H|discriminate H]
   | S ?k' => let e := fresh "v" in destruct l as [|e l]; [discriminate H|]; go k' end in go n.
Ltac shaped := match goal with H : made ?c |- _ => apply made_shape in H; let a := fresh in let b := fresh in let d := fresh in destruct H as (a & b & d);
   destruct c as [id w h t ps vs]; cbn [cam_type cam_params cam_values] in *; subst ps end.

Ltac values := repeat match goal with |- context [value_of ?c ?p] => let x := eval cbv in (value_of c p) in change (value_of c p) with x end.
Ltac list_eq := repeat match goal with |- _ :: _ = _ :: _ => apply f_equal2 end; try reflexivity.
Lemma Project_documented c p : made c -> cam_type c <> SPHERICAL ->
  (fisheye_like (cam_type c) \/ cam_type c = DUAL -> small <= axis_dist p) ->
  Project c p = Some (documented (cam_type c) (value_of c) p).
Proof.
  intros Hm Ht Hd. shaped. destruct t; try congruence; cbn in H0; unfold Project; cbn [cam_type cam_values Dispatch].
  all: try specialize (Hd (or_introl I)); try specialize (Hd (or_intror eq_refl)).
  all: cbv [Generic_Forward ComposeFunctions fwd cm_proj cm_disto cm_aff st_functor PERSP FISH DUALP D2 D24 D2468 D62 D624 BROWND AFF SCALE total nparams
            PerspectiveProjection FisheyeProjection DualProjection Disto2 Disto24 Disto2468 Disto62 Disto624 DistoBrown Affine UniformScale Forward ParamSize foldr fst snd Nat.add].
  all: unfold Dual_Forward; rewrite ?pinhole_forward, ?fisheye_equidistant by assumption.
  all: [> conc vs 3%nat H0|conc vs 9%nat H0|conc vs 3%nat H0|conc vs 8%nat H0|conc vs 12%nat H0|conc vs 16%nat H0|conc vs 4%nat H0|conc vs 6%nat H0|conc vs 5%nat H0].
  all: cbn [params_of]; unfold documented; values; unfold to_image, plus, radially, tangent, prism, radial_factor, radius2.
  all: cbv [Affine_Forward UniformScale_Forward Disto2_Forward Disto24_Forward Disto2468_Forward Disto62_Forward Disto624_Forward DistoBrown_Forward Disto2_Distortion
            Disto24_Distortion Disto2468_Distortion Disto62_RadialDistortion TangentialDistortion ThinPrismDistortion Brown_RadialDistortion SquaredNorm drop nth skipn mixed fst snd foldr].
  all: apply f_equal, f_equal2; ring.
Qed.

(** Distortions without coefficients do nothing, both ways *)
Lemma tol_pos : 0 < tol. Proof. unfold tol. apply Rinv_0_lt_compat, pow_lt. lra. Qed.
Lemma small_pos : 0 < small. Proof. unfold small. apply Rinv_0_lt_compat, pow_lt. lra. Qed.
Lemma eps_pos : 0 < epsilon. Proof. unfold epsilon. apply Rinv_0_lt_compat, pow_lt. lra. Qed.
Lemma radial_trivial d d' p : (forall r2, d r2 = 1) -> radial_Backward d d' p = [p.[0]; p.[1]].
Proof.
  intros H. unfold radial_Backward. destruct (Rlt_dec _ _); [reflexivity|]. set (ru := NewtonRaphson1 _ _ _ _ _). rewrite (H (ru * ru)). list_eq; field.
Qed.
Lemma Newton2_stop func deriv n x : func x = (0, 0) -> NewtonRaphson2 func deriv n x = x.
Proof.
  intros H. destruct n; [reflexivity|]. cbn [NewtonRaphson2]. rewrite H.
  replace (SolveDecr2 (deriv x) (0, 0)) with (0, 0) by (unfold SolveDecr2; cbn [fst snd]; f_equal; unfold Rdiv; ring).
  cbn [fst snd]. rewrite !Rmult_0_l, Rplus_0_l, sqrt_0. pose proof tol_pos. destruct (Rlt_dec 0 tol); [reflexivity|lra].
Qed.
Lemma Newton1_stop func deriv i n x : func i x = 0 -> NewtonRaphson1 func deriv i n x = x.
Proof.
  intros H. destruct n; [reflexivity|]. cbn [NewtonRaphson1]. rewrite H. unfold SolveDecr1.
  replace (if Req_EM_T (deriv i x) 0 then 0 else 0 / deriv i x) with 0 by (destruct (Req_EM_T _ _); [reflexivity|unfold Rdiv; ring]).
  rewrite Rabs_R0. pose proof tol_pos. destruct (Rlt_dec 0 tol); [reflexivity|lra].
Qed.
Lemma planar_trivial f j p : (forall x y, f [x; y] = [x; y]) -> planar_Backward f j p = [p.[0]; p.[1]].
Proof.
  intros H. unfold planar_Backward. destruct (Rlt_dec _ _); [reflexivity|].
  rewrite Newton2_stop; [reflexivity|]. cbn [fst snd]. rewrite H. cbn [nth]. f_equal; ring.
Qed.
(** The stages of an undistorted camera *)
Definition plane (c : camera) (u v : R) : R * R :=
  match cam_type c with
  | PERSPECTIVE | FISHEYE | DUAL => (u / value_of c Focal, v / value_of c Focal)
  | SPHERICAL => (u, v)
  | _ => ((u - value_of c Cx) / value_of c Focal, (v - value_of c Cy) / (value_of c Focal * value_of c AspectRatio))
  end.
Definition pair_list (q : R * R) : list R := [q.1; q.2].
Definition vec_of_list (b : list R) : vec := Vec b.[0] b.[1] b.[2].
Lemma two_focal a b x : x / (a * b) = x / (b * a). Proof. f_equal. ring. Qed.
Ltac coeffs H := repeat match goal with |- _ => idtac end;
  pose proof (H K1 ltac:(cbn; tauto)); pose proof (H K2 ltac:(cbn; tauto)); pose proof (H K3 ltac:(cbn; tauto)); pose proof (H K4 ltac:(cbn; tauto)); pose proof (H K5 ltac:(cbn; tauto)); pose proof (H K6 ltac:(cbn; tauto));
  pose proof (H P1 ltac:(cbn; tauto)); pose proof (H P2 ltac:(cbn; tauto)); pose proof (H S0 ltac:(cbn; tauto)); pose proof (H S1 ltac:(cbn; tauto)); pose proof (H S2 ltac:(cbn; tauto)); pose proof (H S3 ltac:(cbn; tauto)).
Ltac values_in := repeat match goal with H : context [value_of ?c ?p] |- _ => let x := eval cbv in (value_of c p) in change (value_of c p) with x in H end.

Lemma Bearing_undistorted c u v : made c -> undistorted c ->
  Bearing c (u, v) =
  match st_backward (cm_proj (Dispatch (cam_type c))) (pair_list (plane c u v)) (match cam_type c with DUAL => [value_of c Transition] | _ => [] end) with
  | Some b => Some (vec_of_list b) | None => None end.
Proof.
  intros Hm Hu. shaped. unfold plane. cbn [cam_type]. destruct t; cbn in H0; unfold Bearing; cbn [cam_type cam_values Dispatch].
  all: [> conc vs 3%nat H0|conc vs 9%nat H0|conc vs 3%nat H0|conc vs 8%nat H0|conc vs 12%nat H0|conc vs 16%nat H0|conc vs 1%nat H0|conc vs 4%nat H0|conc vs 6%nat H0|conc vs 5%nat H0].
  all: coeffs Hu; clear Hu; values_in; subst; values.
  all: cbv [Generic_Backward ComposeFunctions bwd cm_proj cm_disto cm_aff st_functor st_backward PERSP FISH DUALP SPHER IDENT D2 D24 D2468 D62 D624 BROWND AFF SCALE total nparams ConstructReversedParams Size
            PerspectiveProjection FisheyeProjection DualProjection SphericalProjection Identity Disto2 Disto24 Disto2468 Disto62 Disto624 DistoBrown Affine UniformScale Forward ParamSize foldr fst snd Nat.add Nat.sub Nat.max replicate take firstn drop skipn app].
  all: unfold Disto2_Backward, Disto24_Backward, Disto2468_Backward, Disto62_Backward, Disto624_Backward, DistoBrown_Backward; cbn [nth].
  all: rewrite ?(radial_trivial _ _ _), ?(planar_trivial _ _ _) by
    (intros; unfold Disto2_Distortion, Disto24_Distortion, Disto2468_Distortion, Disto62_Forward, Disto624_Forward, DistoBrown_Forward, Disto62_RadialDistortion, TangentialDistortion, ThinPrismDistortion, Brown_RadialDistortion;
     cbn [nth fst snd]; list_eq; ring).
  all: try reflexivity.
  all: unfold Affine_Backward, pair_list; cbn [nth fst snd]; match goal with |- context [?x / (?a * ?b)] => rewrite (two_focal a b x) end; reflexivity.
Qed.
Definition image (c : camera) (q : R * R) : R * R :=
  match cam_type c with
  | PERSPECTIVE | FISHEYE | DUAL => (value_of c Focal * q.1, value_of c Focal * q.2)
  | SPHERICAL => q
  | _ => (value_of c Focal * q.1 + value_of c Cx, value_of c Focal * value_of c AspectRatio * q.2 + value_of c Cy)
  end.
Lemma radial_zero q : (radial_factor [0] (radius2 q) * q.1, radial_factor [0] (radius2 q) * q.2) = q.
Proof. destruct q. unfold radial_factor. cbn [foldr fst snd]. f_equal; ring. Qed.
Lemma Project_undistorted c p : made c -> undistorted c -> cam_type c <> SPHERICAL ->
  (fisheye_like (cam_type c) \/ cam_type c = DUAL -> small <= axis_dist p) ->
  Project c p = Some (image c (match cam_type c with DUAL => mixed (value_of c Transition) p | FISHEYE | FISHEYE_OPENCV | FISHEYE62 | FISHEYE624 => equidistant p | _ => pinhole p end)).
Proof.
  intros Hm Hu Ht Hd. rewrite Project_documented by assumption. f_equal. unfold documented, image.
  pose proof (Hu K1 ltac:(cbn; tauto)) as U1; pose proof (Hu K2 ltac:(cbn; tauto)) as U2; pose proof (Hu K3 ltac:(cbn; tauto)) as U3; pose proof (Hu K4 ltac:(cbn; tauto)) as U4; pose proof (Hu K5 ltac:(cbn; tauto)) as U5; pose proof (Hu K6 ltac:(cbn; tauto)) as U6;
  pose proof (Hu P1 ltac:(cbn; tauto)) as U7; pose proof (Hu P2 ltac:(cbn; tauto)) as U8; pose proof (Hu S0 ltac:(cbn; tauto)) as U9; pose proof (Hu S1 ltac:(cbn; tauto)) as U10; pose proof (Hu S2 ltac:(cbn; tauto)) as U11; pose proof (Hu S3 ltac:(cbn; tauto)) as U12.
  rewrite U1, U2, U3, U4, U5, U6, U7, U8, U9, U10, U11, U12.
  destruct (cam_type c); try congruence; unfold to_image, plus, radially, tangent, prism, radial_factor; cbn [foldr fst snd]; f_equal; ring.
Qed.
Lemma aspect_shape c : made c -> has_aspect (cam_type c) -> get_param c AspectRatio <> Err RuntimeError.
Proof.
  intros Hm Ht. shaped. destruct t; cbn in Ht; try contradiction; cbn in H0;
  [> conc vs 9%nat H0|conc vs 8%nat H0|conc vs 12%nat H0|conc vs 16%nat H0|conc vs 6%nat H0|conc vs 5%nat H0]; cbv; discriminate.
Qed.
Lemma plane_image c q : made c -> (cam_type c <> SPHERICAL -> focal_nonzero c) -> plane c (image c q).1 (image c q).2 = q.
Proof.
  intros Hm Hf. pose proof (aspect_shape c Hm) as Ha. destruct q as [x y]. unfold plane, image, focal_nonzero in *. 
  destruct (cam_type c); try (specialize (Hf ltac:(discriminate)) as [Hf1 Hf2]); cbn [has_aspect fst snd] in *; try (specialize (Ha I)); try (destruct Hf2; [contradiction|]); try reflexivity; f_equal; field; auto.
Qed.
Lemma image_plane c u v : made c -> (cam_type c <> SPHERICAL -> focal_nonzero c) -> image c (plane c u v) = (u, v).
Proof.
  intros Hm Hf. pose proof (aspect_shape c Hm) as Ha. unfold plane, image, focal_nonzero in *. 
  destruct (cam_type c); try (specialize (Hf ltac:(discriminate)) as [Hf1 Hf2]); cbn [has_aspect fst snd] in *; try (specialize (Ha I)); try (destruct Hf2; [contradiction|]); try reflexivity; f_equal; field; auto.
Qed.

Lemma norm_one b : dot b b = 1 -> norm b = 1. Proof. intros H. unfold norm. rewrite H. apply sqrt_1. Qed.
(** Perspective *)
Lemma persp_fb q k : let b := vec_of_list (Perspective_Backward (pair_list q) k) in pinhole b = q /\ 0 < vz b /\ norm b = 1.
Proof.
  destruct q as [x y]. unfold Perspective_Backward, pair_list, SquaredNorm, vec_of_list. cbn [nth fst snd]. cbn zeta.
  assert (Hp : 0 < x * x + y * y + 1) by nra. set (n := sqrt (x * x + y * y + 1)).
  assert (Hn : 0 < n) by (apply sqrt_lt_R0; lra). assert (Hn2 : n * n = x * x + y * y + 1) by (apply sqrt_sqrt; lra).
  assert (Hi : 0 < 1 / n) by (unfold Rdiv; rewrite Rmult_1_l; now apply Rinv_0_lt_compat).
  split; [|split].
  - unfold pinhole. cbn [vx vy vz]. f_equal; field; lra.
  - exact Hi.
  - apply norm_one. unfold dot. cbn [vx vy vz]. transitivity ((x * x + y * y + 1) / (n * n)); [field; lra|]. rewrite Hn2. field. lra.
Qed.
Lemma persp_bf p k : 0 < vz p -> vec_of_list (Perspective_Backward (pair_list (pinhole p)) k) = unit_vector p.
Proof.
  intros Hz. destruct p as [x y z]. cbn [vz] in Hz. unfold Perspective_Backward, pair_list, SquaredNorm, vec_of_list, pinhole, unit_vector, vscale. cbn [nth fst snd vx vy vz].
  assert (E : sqrt (x / z * (x / z) + y / z * (y / z) + 1) = norm (Vec x y z) / z).
  { unfold norm, dot. cbn [vx vy vz]. transitivity (sqrt (x * x + y * y + z * z) / sqrt (z * z)); [|rewrite (sqrt_square z) by lra; reflexivity]. rewrite <- sqrt_div_alt by nra. f_equal. field. lra. }
  rewrite E. assert (0 < norm (Vec x y z)) by (apply sqrt_lt_R0; unfold dot; cbn; nra). f_equal; field; lra.
Qed.

(** Fisheye *)
Lemma radius_pair q : SquaredNorm (pair_list q) = radius2 q. Proof. unfold SquaredNorm, pair_list, radius2. cbn. ring. Qed.
Lemma radius2_nonneg q : 0 <= radius2 q. Proof. unfold radius2. pose proof (pow2_ge_0 q.1). pose proof (pow2_ge_0 q.2). lra. Qed.
Lemma fish_backward_far q k : small < sqrt (radius2 q) -> let th := sqrt (radius2 q) in
  vec_of_list (Fisheye_Backward (pair_list q) k) = Vec (q.1 * (sin th / th)) (q.2 * (sin th / th)) (cos th).
Proof.
  intros H th. unfold Fisheye_Backward. rewrite radius_pair. fold th. destruct (Rlt_dec small th) as [_|N]; [reflexivity|]. contradiction.
Qed.
Lemma polar_norm (x y s c th : R) : 0 < th -> x ^ 2 + y ^ 2 = th * th -> s * s + c * c = 1 -> 0 <= s ->
  let b := Vec (x * (s / th)) (y * (s / th)) c in axis_dist b = s /\ norm b = 1.
Proof.
  intros Ht Hq Hs Hp b. split.
  - unfold axis_dist, b. cbn [vx vy]. replace ((x * (s / th)) ^ 2 + (y * (s / th)) ^ 2) with ((x ^ 2 + y ^ 2) * (s * s) / (th * th)) by (field; lra).
    rewrite Hq. replace (th * th * (s * s) / (th * th)) with (s * s) by (field; lra). now apply sqrt_square.
  - apply norm_one. unfold dot, b. cbn [vx vy vz]. transitivity ((x ^ 2 + y ^ 2) * (s * s) / (th * th) + c * c); [field; lra|]. rewrite Hq. rewrite <- Hs. field. lra.
Qed.
Lemma fish_fb q k : small < sqrt (radius2 q) < PI -> let b := vec_of_list (Fisheye_Backward (pair_list q) k) in
  equidistant b = q /\ axis_dist b = sin (sqrt (radius2 q)) /\ norm b = 1.
Proof.
  intros [H1 H2] b. pose proof small_pos. set (th := sqrt (radius2 q)) in *.
  assert (Hth : th * th = radius2 q) by (apply sqrt_sqrt, radius2_nonneg).
  assert (Hs : 0 < sin th) by (apply sin_gt_0; lra).
  assert (Eb : b = Vec (q.1 * (sin th / th)) (q.2 * (sin th / th)) (cos th)) by (apply fish_backward_far; exact H1).
  destruct (polar_norm q.1 q.2 (sin th) (cos th) th) as [A N]; [lra|exact (eq_sym Hth)|apply sc2|lra|]. rewrite <- Eb in A, N.
  split; [|split; assumption]. unfold equidistant, axis_angle. rewrite A, N. rewrite Eb. cbn [vx vy vz]. replace (cos th / 1) with (cos th) by field. rewrite acos_cos by lra.
  destruct q as [x y]. cbn [fst snd]. f_equal; field; lra.
Qed.
Lemma fish_bf p k : 0 < axis_dist p -> small < axis_angle p -> vec_of_list (Fisheye_Backward (pair_list (equidistant p)) k) = unit_vector p.
Proof.
  intros Hd Ha. destruct p as [x y z]. pose proof small_pos.
  destruct (polar_up (axis_dist (Vec x y z)) z Hd) as (rho & t & Hrho & Ht & Hz & Hr).
  assert (Hr2 : axis_dist (Vec x y z) * axis_dist (Vec x y z) = x ^ 2 + y ^ 2).
  { apply sqrt_sqrt. cbn. pose proof (pow2_ge_0 x). pose proof (pow2_ge_0 y). lra. }
  assert (HN : norm (Vec x y z) = rho).
  { unfold norm. replace (dot (Vec x y z) (Vec x y z)) with (rho * rho); [apply sqrt_square; lra|]. unfold dot. cbn [vx vy vz].
    replace (x * x + y * y + z * z) with (axis_dist (Vec x y z) * axis_dist (Vec x y z) + z * z) by (rewrite Hr2; ring). rewrite Hr, Hz.
    transitivity (rho * rho * (sin t * sin t + cos t * cos t)); [rewrite sc2; ring|ring]. }
  assert (HA : axis_angle (Vec x y z) = t).
  { unfold axis_angle. rewrite HN. cbn [vz]. rewrite Hz. replace (rho * cos t / rho) with (cos t) by (field; lra). apply acos_cos. lra. }
  assert (HE : sqrt (radius2 (equidistant (Vec x y z))) = t).
  { unfold radius2, equidistant. rewrite HA. cbn [fst snd vx vy]. set (a := axis_dist (Vec x y z)) in *. transitivity (sqrt (t * t)); [f_equal|apply sqrt_square; lra].
    transitivity (t * t * (x ^ 2 + y ^ 2) / (a * a)); [field; lra|rewrite <- Hr2; field; lra]. }
  rewrite fish_backward_far; rewrite HE; [|lra]. unfold unit_vector, vscale, equidistant. rewrite HA, HN. cbn [fst snd vx vy vz].
  set (a := axis_dist (Vec x y z)) in *. assert (Hs : 0 < sin t) by (apply sin_gt_0; lra). rewrite Hr. f_equal; [field; lra|field; lra|]. rewrite Hz. field. lra.
Qed.

(** Panorama *)
Lemma sphere_polar p : vx p <> 0 \/ vz p <> 0 -> exists rho lat lon, 0 < rho /\ - (PI / 2) < lat < PI / 2 /\ - PI < lon <= PI /\ p = vscale rho (direction lat lon).
Proof.
  intros H. destruct p as [x y z]. cbn [vx vz] in H. destruct (polar_exists z x ltac:(tauto)) as (r & lon & Hr & Hlon & Hz & Hx).
  destruct (polar_exists r (- y) ltac:(left; lra)) as (rho & lat & Hrho & Hlat & Hc & Hs). exists rho, lat, lon.
  assert (0 < cos lat) by nra. split; [exact Hrho|]. split; [|split; [exact Hlon|]].
  - split.
    + destruct (Rlt_dec (- (PI / 2)) lat) as [|N]; [assumption|]. exfalso. rewrite <- cos_neg in H0. pose proof (cos_le_0 (- lat) ltac:(lra) ltac:(pose proof PI_RGT_0; lra)). lra.
    + destruct (Rlt_dec lat (PI / 2)) as [|N]; [assumption|]. exfalso. pose proof (cos_le_0 lat ltac:(lra) ltac:(pose proof PI_RGT_0; lra)). lra.
  - unfold vscale, direction. cbn [vx vy vz]. f_equal; [rewrite Hx, Hc; ring|lra|rewrite Hz, Hc; ring].
Qed.
Lemma direction_unit lat lon : norm (direction lat lon) = 1.
Proof.
  apply norm_one. unfold dot, direction. cbn [vx vy vz]. transitivity (cos lat * cos lat * (sin lon * sin lon + cos lon * cos lon) + sin lat * sin lat); [ring|]. rewrite sc2. pose proof (sc2 lat). lra.
Qed.
Lemma sphere_forward rho lat lon k : 0 < rho -> - (PI / 2) < lat < PI / 2 -> - PI < lon <= PI ->
  Spherical_Forward (list_of_vec (vscale rho (direction lat lon))) k = [lon / (2 * PI); - lat / (2 * PI)].
Proof.
  intros Hr Hlat Hlon. assert (Hc : 0 < cos lat) by (apply cos_gt_0; lra). unfold Spherical_Forward, list_of_vec, vscale, direction. cbn [nth vx vy vz].
  replace (rho * (cos lat * sin lon)) with (rho * cos lat * sin lon) by ring. replace (rho * (cos lat * cos lon)) with (rho * cos lat * cos lon) by ring.
  rewrite atan2_polar by (try lra; now apply Rmult_lt_0_compat).
  rewrite (Rplus_comm (rho * cos lat * sin lon * _)), sqrt_polar by (apply Rlt_le, Rmult_lt_0_compat; assumption).
  replace (- (rho * - sin lat)) with (rho * sin lat) by ring. rewrite atan2_polar by (pose proof PI_RGT_0; lra).
  pose proof PI_RGT_0. list_eq; field; lra.
Qed.
Lemma sphere_backward u v k : vec_of_list (Spherical_Backward [u; v] k) = direction (- v * 2 * PI) (u * 2 * PI).
Proof. reflexivity. Qed.

Lemma fish_norm q k : 1 <= norm (vec_of_list (Fisheye_Backward (pair_list q) k)) <= 1 + / 10 ^ 16.
Proof.
  pose proof small_pos. pose proof (radius2_nonneg q) as H0. set (th := sqrt (radius2 q)).
  assert (Hth : th * th = radius2 q) by (apply sqrt_sqrt; assumption). assert (Hp : 0 <= th) by apply sqrt_pos.
  assert (Hi : 0 < / 10 ^ 16) by (apply Rinv_0_lt_compat, pow_lt; lra).
  destruct (Rlt_dec small th) as [L|N].
  - rewrite fish_backward_far by exact L. fold th. 
    assert (E : norm (Vec (q.1 * (sin th / th)) (q.2 * (sin th / th)) (cos th)) = 1); [|rewrite E; lra].
    apply norm_one. unfold dot. cbn [vx vy vz]. transitivity (radius2 q * (sin th * sin th) / (th * th) + cos th * cos th); [unfold radius2; field; lra|].
    rewrite <- Hth, <- (sc2 th). field. lra.
  - unfold Fisheye_Backward. rewrite radius_pair. fold th. destruct (Rlt_dec small th); [contradiction|]. unfold vec_of_list, pair_list, norm, dot. cbn [nth vx vy vz].
    assert (E : q.1 * 1 * (q.1 * 1) + q.2 * 1 * (q.2 * 1) + cos th * cos th = 1 + (th * th - sin th * sin th)).
    { rewrite Hth. unfold radius2. pose proof (sc2 th). nra. }
    rewrite E. assert (Hsin : 0 <= sin th * sin th <= th * th).
    { split; [nra|]. destruct (Req_dec th 0) as [->|Hn]; [rewrite sin_0; lra|]. 
      assert (small < PI). { unfold small. pose proof PI_RGT_0. pose proof PI2_1. assert (/ 10 ^ 8 < 1); [|lra]. rewrite <- Rinv_1. apply Rinv_lt_contravar; [|apply Rlt_pow_R1; [lra|lia]]. rewrite Rmult_1_l. apply pow_lt. lra. }
      assert (0 < sin th) by (apply sin_gt_0; lra). assert (sin th < th) by (apply sin_lt_x; lra). nra. }
    assert (Hsm : th * th <= / 10 ^ 16).
    { replace (/ 10 ^ 16) with (small * small) by (unfold small; rewrite <- Rinv_mult, <- pow_add; reflexivity). nra. }
    split.
    + rewrite <- sqrt_1 at 1. apply sqrt_le_1_alt. lra.
    + rewrite <- (sqrt_square (1 + / 10 ^ 16)) by lra. apply sqrt_le_1_alt. nra.
Qed.

(** Dual *)
Lemma dual_norm q k l : Dual_Backward q k = Some l -> norm (vec_of_list l) = 1.
Proof.
  unfold Dual_Backward. match goal with |- context [NewtonRaphson1 ?a ?b ?c ?d ?e] => generalize (NewtonRaphson1 a b c d e) end. intros theta.
  destruct (Req_EM_T _ _); [discriminate|]. set (s := tan theta / _). intros [= <-]. apply (persp_fb (s * q.[0], s * q.[1]) k).
Qed.
Lemma sin_small x : 2 * small <= x <= PI - 2 * small -> small <= sin x.
Proof.
  intros Hx. pose proof small_pos. assert (K : forall y, 0 <= y <= PI / 2 -> y / 2 <= sin y).
  { intros y Hy. destruct (Req_dec y 0) as [->|Hn]; [rewrite sin_0; lra|].
    assert (HPI : PI / 2 <= 17 / 10) by (pose proof (proj2 (PI_ineq 2)) as HP; unfold tg_alt, PI_tg in HP; simpl in HP; lra).
    destruct (pre_sin_bound y 0 ltac:(lra) ltac:(lra)) as [HL _]. unfold sin_approx, sin_term in HL. simpl in HL.
    assert (y * y <= 3) by nra. assert (y * (y * y) <= 3 * y) by nra. lra. }
  destruct (Rle_dec x (PI / 2)) as [L|G].
  - pose proof (K x ltac:(lra)). lra.
  - rewrite <- sin_PI_x. pose proof (K (PI - x) ltac:(lra)). lra.
Qed.
Lemma norm_scale s v : 0 <= s -> norm (vscale s v) = s * norm v.
Proof.
  intros H. rewrite norm_vscale, Rabs_pos_eq by assumption. reflexivity.
Qed.
Lemma dual_near_centre q k : sqrt (SquaredNorm q) < 2 * tol -> Dual_Backward q k = None.
Proof.
  intros H. unfold Dual_Backward. assert (H0 : 0 <= sqrt (SquaredNorm q)) by apply sqrt_pos.
  assert (E : forall F G n, F 0%nat 0 = - sqrt (SquaredNorm q) -> G 0%nat 0 = 2 -> NewtonRaphson1 F G 0 (S n) 0 = 0).
  { intros F G n HF HG. cbn [NewtonRaphson1]. rewrite HF, HG. unfold SolveDecr1. destruct (Req_EM_T 2 0); [lra|].
    destruct (Rlt_dec _ _) as [_|N]; [reflexivity|]. exfalso. apply N. unfold Rdiv. rewrite Ropp_mult_distr_l_reverse, Rabs_Ropp, Rabs_pos_eq by lra. lra. }
  rewrite E.
  - rewrite tan_0. destruct (Req_EM_T _ _) as [_|N]; [reflexivity|]. exfalso. apply N. ring.
  - rewrite tan_0. ring.
  - rewrite decide_True by reflexivity. rewrite cos_0. field.
Qed.
