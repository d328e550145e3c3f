(** C45: projections and bearings *)
From stdpp Require Import prelude strings.
From Coq Require Import Reals Lra.
From Verif Require Import Base Lin CamModel CamSpec CamProofs GeoModel GeoProofs FunctorModel ProjModel CameraSpec CameraProofs.
From Verif Require PixelModel.
Local Open Scope R_scope.

(** A camera projects as documented. A fisheye camera does so at least 1e-8 away from its axis. *)
Theorem C45_project_documented c p : made c -> cam_type c <> SPHERICAL ->
  (fisheye_like (cam_type c) \/ cam_type c = DUAL -> / 10 ^ 8 <= axis_dist p) ->
  Project c p = Some (documented (cam_type c) (value_of c) p).
Proof. apply Project_documented. Qed.
Theorem C45_panorama c rho lat lon : made c -> cam_type c = SPHERICAL -> 0 < rho -> - (PI / 2) < lat < PI / 2 -> - PI < lon <= PI ->
  Project c (vscale rho (direction lat lon)) = Some (lon / (2 * PI), - lat / (2 * PI)) /\
  Bearing c (lon / (2 * PI), - lat / (2 * PI)) = Some (direction lat lon).
Proof.
  intros Hm Ht Hr Hlat Hlon. shaped. subst t. cbn in H0. conc vs 1%nat H0. split.
  - unfold Project. cbn [cam_type cam_values Dispatch].
    cbv [Generic_Forward ComposeFunctions fwd cm_proj cm_disto cm_aff st_functor SPHER IDENT total nparams SphericalProjection Identity Forward ParamSize foldr fst snd Nat.add].
    rewrite sphere_forward by assumption. reflexivity.
  - unfold Bearing. cbn [cam_type cam_values Dispatch].
    cbv [Generic_Backward ComposeFunctions bwd cm_proj cm_disto cm_aff st_functor st_backward SPHER IDENT total nparams SphericalProjection Identity Forward ParamSize foldr fst snd Nat.add].
    unfold Identity_Backward. cbn [nth].
    set (l := Spherical_Backward [lon / (2 * PI); - lat / (2 * PI)] _).
    change (Some (vec_of_list l) = Some (direction lat lon)). unfold l. rewrite sphere_backward. pose proof PI_RGT_0.
    f_equal. f_equal; field; lra.
Qed.
(** The documentation gives the distortion of a dual camera as a function of the angle of the point: this is not what it computes. *)
Definition documented_dual (get : param -> R) (p : vec) : R * R :=
  let d := radial_factor [get K1; get K2] (axis_angle p ^ 2) in
  to_image (get Focal) (get Focal) 0 0 (d * (mixed (get Transition) p).1, d * (mixed (get Transition) p).2).
Theorem C45_dual_documentation_refuted : let c := create_dual 1 1 1 0 in
  made c /\ Project c (Vec 1 0 1) = Some (2, 0) /\ documented_dual (value_of c) (Vec 1 0 1) <> (2, 0).
Proof.
  cbn zeta. split; [constructor|]. 
  assert (HA : axis_dist (Vec 1 0 1) = 1). { unfold axis_dist. cbn [vx vy]. replace (1 ^ 2 + 0 ^ 2) with 1 by ring. apply sqrt_1. }
  split.
  - rewrite C45_project_documented; [|constructor|discriminate|].
    2:{ intros _. rewrite HA. rewrite <- (Rinv_1). apply Rinv_le_contravar; [lra|]. apply pow_R1_Rle. lra. }
    unfold documented, mixed, pinhole. cbn [cam_type create_dual new_camera]. values. cbn [fst snd vx vy vz]. unfold to_image, radially, radial_factor, radius2. cbn [foldr fst snd].
    apply f_equal, f_equal2; unfold Rdiv; rewrite ?Rinv_1; ring.
  - unfold documented_dual, mixed, pinhole. values. cbn [fst snd vx vy vz]. unfold to_image, radial_factor. cbn [foldr fst snd].
    intros E. injection E as E _. 
    assert (Hth : 0 < axis_angle (Vec 1 0 1) < 1).
    { unfold axis_angle. cbn [vz]. assert (N : norm (Vec 1 0 1) = sqrt 2) by (unfold norm, dot; cbn; f_equal; ring). rewrite N.
      replace (1 / sqrt 2) with (cos (PI / 4)) by apply cos_PI4. pose proof PI_RGT_0. rewrite acos_cos by lra. pose proof PI_4. 
      assert (PI < 4); [|lra]. pose proof (proj2 (PI_ineq 1)) as HP. unfold tg_alt, PI_tg in HP. simpl in HP. lra. }
    cbn in E. nra.
Qed.

(** A bearing is a unit vector. Within 1e-8 of its axis a fisheye camera returns a vector which is at most 1e-16 too long. A dual
    camera may return vectors that are not numbers. Every division by zero is excluded but the one of a null distortion factor. *)
Theorem C45_bearing_unit c u v b : made c -> (cam_type c <> SPHERICAL -> focal_nonzero c) -> Bearing c (u, v) = Some b ->
  (fisheye_like (cam_type c) -> 1 <= norm b <= 1 + / 10 ^ 16) /\ (~ fisheye_like (cam_type c) -> norm b = 1).
Proof.
  intros Hm _ HB. shaped.
  assert (HQ : exists q ps, match st_backward (cm_proj (Dispatch t)) q ps with Some l => Some (vec_of_list l) | None => None end = Some b).
  { destruct t; unfold Bearing in HB; cbn [cam_type cam_values Dispatch] in HB;
      cbv [Generic_Backward ComposeFunctions bwd cm_proj cm_disto cm_aff st_functor st_backward PERSP FISH DUALP SPHER IDENT D2 D24 D2468 D62 D624 BROWND AFF SCALE total] in HB; eexists _, _; exact HB. }
  destruct HQ as (q & k & HQ).
  assert (Hq : q.[0] = q.[0]) by reflexivity.
  assert (P : forall l, l = Perspective_Backward q k -> norm (vec_of_list l) = 1).
  { intros l ->. change (Perspective_Backward q k) with (Perspective_Backward (pair_list (q.[0], q.[1])) k). apply persp_fb. }
  assert (F : forall l, l = Fisheye_Backward q k -> 1 <= norm (vec_of_list l) <= 1 + / 10 ^ 16).
  { intros l ->. change (Fisheye_Backward q k) with (Fisheye_Backward (pair_list (q.[0], q.[1])) k). apply fish_norm. }
  destruct t; cbn in HQ; cbn [fisheye_like]; (split; intros Hf; [try contradiction|try tauto]).
  all: try (injection HQ as <-; apply P; reflexivity).
  all: try (injection HQ as <-; apply F; reflexivity).
  - injection HQ as <-. apply direction_unit.
  - destruct (Dual_Backward q k) as [l|] eqn:E; [|discriminate]. injection HQ as <-. eapply dual_norm. exact E.
Qed.
(** Bearings are always numbers, but for dual cameras *)
Theorem C45_bearing_defined c u v : made c -> cam_type c <> DUAL -> exists b, Bearing c (u, v) = Some b.
Proof.
  intros Hm Ht. shaped. destruct t; try congruence; eexists; reflexivity.
Qed.

(** Without distortion the two are inverse of each other. *)
Lemma Project_sphere c p : made c -> cam_type c = SPHERICAL ->
  Project c p = Some ((Spherical_Forward (list_of_vec p) []).[0], (Spherical_Forward (list_of_vec p) []).[1]).
Proof. intros Hm Ht. shaped. subst t. reflexivity. Qed.
(** The distance of a place to the principal point, in focal lengths: for a fisheye camera, the angle of what is seen there *)
Definition image_radius (c : camera) (u v : R) : R := sqrt (radius2 (plane c u v)).
Theorem C45_project_bearing c u v : made c -> undistorted c -> (cam_type c <> SPHERICAL -> focal_nonzero c) ->
  match cam_type c with
  | PERSPECTIVE | BROWN | RADIAL | SIMPLE_RADIAL => True
  | FISHEYE | FISHEYE_OPENCV | FISHEYE62 | FISHEYE624 => 2 * / 10 ^ 8 <= image_radius c u v <= PI - 2 * / 10 ^ 8
  | SPHERICAL => - (1 / 2) < u <= 1 / 2 /\ - (1 / 4) < v < 1 / 4
  | DUAL => False
  end ->
  exists b, Bearing c (u, v) = Some b /\ Project c b = Some (u, v).
Proof.
  intros Hm Hu Hf Hd. pose proof small_pos as Hsm. pose proof PI_RGT_0 as HPI. rewrite Bearing_undistorted by assumption.
  destruct (cam_type c) eqn:Ht; try contradiction; cbn [Dispatch cm_proj].
  1,2,8,9: destruct (persp_fb (plane c u v) []) as (E & _); eexists; (split; [reflexivity|]);
    (rewrite Project_undistorted; [|assumption|assumption|rewrite Ht; discriminate|rewrite Ht; cbn; intros [?|?]; [contradiction|discriminate]]);
    rewrite Ht, E, image_plane by (rewrite ?Ht; assumption); reflexivity.
  1,2,3,4: fold small in Hd; destruct (fish_fb (plane c u v) [] ltac:(unfold image_radius in Hd; lra)) as (E & A & _);
    eexists; (split; [reflexivity|]); 
    (rewrite Project_undistorted; [|assumption|assumption|rewrite Ht; discriminate|intros _; rewrite A; apply sin_small; exact Hd]);
    rewrite Ht, E, image_plane by (rewrite ?Ht; assumption); reflexivity.
  assert (Ep : plane c u v = (u, v)) by (unfold plane; rewrite Ht; reflexivity). rewrite Ep.
  exists (direction (- v * 2 * PI) (u * 2 * PI)). split; [reflexivity|].
  destruct Hd as [[H1 H2] [H3 H4]].
  rewrite <- (vscale_1 (direction _ _)). rewrite Project_sphere, sphere_forward by (try assumption; try lra; nra). cbn [nth].
  f_equal. f_equal; field; lra.
Qed.
Theorem C45_bearing_project c p : made c -> undistorted c -> (cam_type c <> SPHERICAL -> focal_nonzero c) ->
  match cam_type c with
  | PERSPECTIVE | BROWN | RADIAL | SIMPLE_RADIAL => 0 < vz p
  | FISHEYE | FISHEYE_OPENCV | FISHEYE62 | FISHEYE624 => / 10 ^ 8 <= axis_dist p /\ / 10 ^ 8 < axis_angle p
  | SPHERICAL => vx p <> 0 \/ vz p <> 0
  | DUAL => False
  end ->
  exists u v, Project c p = Some (u, v) /\ Bearing c (u, v) = Some (unit_vector p).
Proof.
  intros Hm Hu Hf Hd. pose proof small_pos as Hsm. pose proof PI_RGT_0 as HPI.
  destruct (cam_type c) eqn:Ht; try contradiction.
  1,2,8,9: eexists _, _; (split; [rewrite Project_undistorted;
      [rewrite Ht, (surjective_pairing (image c _)); reflexivity|assumption|assumption|rewrite Ht; discriminate|rewrite Ht; cbn; intros [?|?]; [contradiction|discriminate]]|]);
    rewrite Bearing_undistorted, plane_image by (rewrite ?Ht; assumption); rewrite Ht; cbn [Dispatch cm_proj PERSP FISH st_backward total]; f_equal; apply persp_bf; exact Hd.
  1,2,3,4: eexists _, _; (split; [rewrite Project_undistorted;
      [rewrite Ht, (surjective_pairing (image c _)); reflexivity|assumption|assumption|rewrite Ht; discriminate|intros _; apply Hd]|]);
    rewrite Bearing_undistorted, plane_image by (rewrite ?Ht; assumption); rewrite Ht; cbn [Dispatch cm_proj PERSP FISH st_backward total]; f_equal;
    apply fish_bf; [fold small in Hd; lra|apply Hd].
  destruct (sphere_polar p Hd) as (rho & lat & lon & Hr & Hlat & Hlon & ->). exists (lon / (2 * PI)), (- lat / (2 * PI)).
  destruct (C45_panorama c rho lat lon Hm Ht Hr Hlat Hlon) as [P B]. split; [exact P|]. rewrite B. f_equal.
  unfold unit_vector. rewrite (norm_scale rho) by lra. rewrite direction_unit, Rmult_1_r, vscale_vscale, Rinv_l, vscale_1 by lra. reflexivity.
Qed.

(** A projection depends on the direction only: rescaling the scene does not move images. Fisheye cameras need the two points at least
    1e-8 away from their axis. *)
Theorem C45_project_direction c p s : made c -> 0 < s ->
  (fisheye_like (cam_type c) \/ cam_type c = DUAL -> / 10 ^ 8 <= axis_dist p /\ / 10 ^ 8 <= axis_dist (vscale s p)) ->
  (perspective_like (cam_type c) \/ cam_type c = DUAL -> vz p <> 0) -> (cam_type c = SPHERICAL -> vx p <> 0 \/ vz p <> 0) ->
  Project c (vscale s p) = Project c p.
Proof.
  intros Hm Hs Hd Hz Hx. destruct (decide (cam_type c = SPHERICAL)) as [E|E].
  - rewrite !Project_sphere by assumption. destruct (sphere_polar p (Hx E)) as (rho & lat & lon & Hr & Hlat & Hlon & ->).
    rewrite vscale_vscale, !sphere_forward by (try assumption; now apply Rmult_lt_0_compat). reflexivity.
  - rewrite !C45_project_documented by (try assumption; intros H; apply Hd, H). f_equal.
    assert (HP : vz p <> 0 -> pinhole (vscale s p) = pinhole p) by (intros; unfold pinhole, vscale; cbn; f_equal; field; lra).
    assert (HE : / 10 ^ 8 <= axis_dist p -> equidistant (vscale s p) = equidistant p).
    { intros H. pose proof small_pos. fold small in H. unfold equidistant, axis_angle.
      assert (A : axis_dist (vscale s p) = s * axis_dist p).
      { unfold axis_dist, vscale. cbn. rewrite <- (sqrt_square s) at 5 by lra. rewrite <- sqrt_mult by nra. f_equal. ring. }
      assert (0 < norm p). { apply sqrt_lt_R0. unfold dot. unfold axis_dist in H. assert (0 < vx p ^ 2 + vy p ^ 2) by (apply sqrt_lt_0_alt; rewrite sqrt_0; lra). nra. }
      rewrite A, norm_scale by lra. unfold vscale. cbn [vx vy vz]. f_equal; (f_equal; [f_equal; field; lra|field; lra]). }
    destruct (cam_type c); try congruence; unfold documented, mixed; cbn [perspective_like fisheye_like] in *; rewrite ?HP, ?HE by tauto; reflexivity.
Qed.
(** A perspective camera also sees what is behind it, upside down. *)
Theorem C45_behind c p : made c -> perspective_like (cam_type c) -> vz p <> 0 -> Project c (vopp p) = Project c p.
Proof.
  intros Hm Ht Hz. rewrite !C45_project_documented; try assumption; try (intros E; rewrite E in Ht; contradiction);
    try (intros [E|E]; [destruct (cam_type c); contradiction|rewrite E in Ht; contradiction]).
  assert (HP : pinhole (vopp p) = pinhole p) by (unfold pinhole, vopp; cbn; f_equal; field; auto).
  f_equal. destruct (cam_type c); try contradiction; unfold documented; rewrite HP; reflexivity.
Qed.
(** The bearing of the centre of the image of a dual camera is not a number. *)
Theorem C45_dual_centre_refuted c : made c -> cam_type c = DUAL -> value_of c Focal <> 0 -> Bearing c (0, 0) = None.
Proof.
  intros Hm Ht Hf. shaped. subst t. cbn in H0. conc vs 4%nat H0. unfold value_of, get_param in Hf. cbn in Hf.
  assert (HF : v2 <> 0) by exact Hf. clear Hf.
  unfold Bearing. cbn [cam_type cam_values Dispatch].
  cbv [Generic_Backward ComposeFunctions bwd cm_proj cm_disto cm_aff st_functor st_backward DUALP D24 SCALE total nparams ConstructReversedParams Size
            DualProjection Disto24 UniformScale Forward ParamSize foldr fst snd Nat.add Nat.sub Nat.max replicate take firstn drop skipn app].
  unfold UniformScale_Backward, Disto24_Backward, radial_Backward. cbn [nth].
  assert (E : sqrt (SquaredNorm [0 / v2; 0 / v2]) = 0) by (unfold SquaredNorm; cbn [nth]; replace (0 / v2) with 0 by (field; assumption); rewrite Rmult_0_l, Rplus_0_l; apply sqrt_0).
  rewrite E. pose proof eps_pos. destruct (Rlt_dec 0 epsilon) as [_|N]; [|contradiction].
  rewrite dual_near_centre; [reflexivity|]. rewrite E. pose proof tol_pos. lra.
Qed.
Theorem C45_dual_near_centre_refuted c u v : made c -> cam_type c = DUAL -> undistorted c -> image_radius c u v < 2 * / 10 ^ 6 -> Bearing c (u, v) = None.
Proof.
  intros Hm Ht Hu Hr. rewrite Bearing_undistorted, Ht by assumption. cbn [Dispatch cm_proj DUALP st_backward].
  rewrite dual_near_centre; [reflexivity|]. rewrite radius_pair. exact Hr.
Qed.

(** C46. The matrices of a camera: K and K in pixels agree with the projection and the pixel coordinates, and undistorting an image
    looks each pixel up where the same ray was seen. *)
Lemma param_or_value c p d : made c -> has_aspect (cam_type c) \/ cam_type c = PERSPECTIVE -> p = Focal \/ has_aspect (cam_type c) /\ In p [AspectRatio; Cx; Cy] -> param_or c p d = value_of c p.
Proof.
  intros Hm Ht Hp. unfold param_or, value_of. destruct (get_param c p) eqn:E; [reflexivity|]. exfalso. shaped.
  destruct t; cbn in Ht; try (exfalso; destruct Ht; [contradiction|discriminate]); cbn in H0;
  [> conc vs 3%nat H0|conc vs 9%nat H0|conc vs 8%nat H0|conc vs 12%nat H0|conc vs 16%nat H0|conc vs 6%nat H0|conc vs 5%nat H0];
  (destruct Hp as [->|[Ha Hp]]; [cbv in E; discriminate|]); try (cbn in Ha; contradiction); destruct Hp as [<-|[<-|[<-|[]]]]; cbv in E; discriminate.
Qed.
Lemma param_or_default c p d : made c -> cam_type c = PERSPECTIVE -> In p [AspectRatio; Cx; Cy] -> param_or c p d = d.
Proof.
  intros Hm Ht Hp. shaped. subst t. cbn in H0. conc vs 3%nat H0. destruct Hp as [<-|[<-|[<-|[]]]]; reflexivity.
Qed.
Lemma half_half : 0.5 = 1 / 2. Proof. lra. Qed.
Theorem C46_projection_matrix c p : made c -> perspective_like (cam_type c) -> undistorted c -> vz p <> 0 ->
  let q := mvec (GetProjectionMatrix c) p in vz q = vz p /\ Project c p = Some (vx q / vz q, vy q / vz q).
Proof.
  intros Hm Ht Hu Hz. cbn zeta. rewrite Project_undistorted; [|assumption|assumption|intros E; rewrite E in Ht; contradiction|].
  2:{ intros [E|E]; [destruct (cam_type c); contradiction|rewrite E in Ht; contradiction]. }
  unfold GetProjectionMatrix, mvec, image, pinhole. cbn [vx vy vz m11 m12 m13 m21 m22 m23 m31 m32 m33].
  replace (0 * vx p + 0 * vy p + 1 * vz p) with (vz p) by ring. split; [reflexivity|].
  destruct (cam_type c) eqn:E; try contradiction.
  - rewrite (param_or_value c Focal) by (rewrite ?E; cbn; auto 10). rewrite !(param_or_default c) by (rewrite ?E; cbn; auto 10). cbn [fst snd]. apply f_equal, f_equal2; field; assumption.
  - rewrite !param_or_value by (rewrite ?E; cbn; auto 10). cbn [fst snd]. apply f_equal, f_equal2; field; assumption.
  - rewrite !param_or_value by (rewrite ?E; cbn; auto 10). cbn [fst snd]. apply f_equal, f_equal2; field; assumption.
  - rewrite !param_or_value by (rewrite ?E; cbn; auto 10). cbn [fst snd]. apply f_equal, f_equal2; field; assumption.
Qed.
(** The matrix in pixels has its origin at the corner of the first pixel: half a pixel away from the documented pixel coordinates,
    which the conversions of features and images use. *)
Theorem C46_pixel_matrix c p w h u v : made c -> perspective_like (cam_type c) -> undistorted c -> vz p <> 0 -> (0 < w)%Z -> (0 < h)%Z -> Project c p = Some (u, v) ->
  let q := mvec (GetProjectionMatrixScaled c w h) p in let pixel := PixelModel.denormalized_image_coordinates (u, v) w h in
  vz q = vz p /\ vx q / vz q = pixel.1 + 1 / 2 /\ vy q / vz q = pixel.2 + 1 / 2.
Proof.
  intros Hm Ht Hu Hz Hw Hh HP. destruct (C46_projection_matrix c p Hm Ht Hu Hz) as [_ E]. rewrite HP in E. injection E as -> ->. cbn zeta.
  unfold GetProjectionMatrixScaled, GetProjectionMatrix, PixelModel.denormalized_image_coordinates, mvec. cbn [vx vy vz m11 m12 m13 m21 m22 m23 m31 m32 m33 fst snd].
  rewrite half_half. split; [ring|]. split; (field; lra).
Qed.
(** The map of a camera to itself is the identity; the entry for a pixel of the new image is where the old camera saw its ray. *)
Theorem C46_mapping_identity c w h i j : made c -> perspective_like (cam_type c) -> undistorted c -> focal_nonzero c -> (0 < w)%Z -> (0 < h)%Z ->
  ComputeCameraMapping c c w h i j = Some (IZR j, IZR i).
Proof.
  intros Hm Ht Hu Hf Hw Hh. unfold ComputeCameraMapping. rewrite half_half. set (s := IZR (Z.max w h)). assert (Hs : 0 < s) by (apply IZR_lt; lia).
  destruct (C45_project_bearing c (1 / s * (IZR j - IZR w * (1 / 2))) (1 / s * (IZR i - IZR h * (1 / 2))) Hm Hu ltac:(auto)) as (b & B & P).
  { destruct (cam_type c); try contradiction; exact I. }
  rewrite B, P. cbn [fst snd]. apply f_equal, f_equal2; field; lra.
Qed.
Theorem C46_mapping_same_ray from to w h i j x y : made from -> made to -> perspective_like (cam_type to) -> undistorted to -> focal_nonzero to -> (0 < w)%Z -> (0 < h)%Z ->
  ComputeCameraMapping from to w h i j = Some (x, y) ->
  exists ray, norm ray = 1 /\ 0 < vz ray /\
  Project to ray = Some ((IZR j - IZR w / 2) / IZR (Z.max w h), (IZR i - IZR h / 2) / IZR (Z.max w h)) /\
  Project from ray = Some ((x - IZR w / 2) / IZR (Z.max w h), (y - IZR h / 2) / IZR (Z.max w h)).
Proof.
  intros Hm Hm' Ht Hu Hf Hw Hh. unfold ComputeCameraMapping. rewrite half_half. set (s := IZR (Z.max w h)). assert (Hs : 0 < s) by (apply IZR_lt; lia).
  destruct (C45_project_bearing to (1 / s * (IZR j - IZR w * (1 / 2))) (1 / s * (IZR i - IZR h * (1 / 2))) Hm' Hu ltac:(auto)) as (b & B & P).
  { destruct (cam_type to); try contradiction; exact I. }
  rewrite B. destruct (Project from b) as [[u v]|] eqn:E; [|discriminate]. cbn [fst snd]. intros [= <- <-].
  exists b. assert (HB : norm b = 1 /\ 0 < vz b).
  { rewrite Bearing_undistorted in B by assumption. 
    destruct (persp_fb (plane to (1 / s * (IZR j - IZR w * (1 / 2))) (1 / s * (IZR i - IZR h * (1 / 2)))) []) as (_ & Z & N).
    assert (b = vec_of_list (Perspective_Backward (pair_list (plane to (1 / s * (IZR j - IZR w * (1 / 2))) (1 / s * (IZR i - IZR h * (1 / 2))))) [])) as ->.
    { destruct (cam_type to); try contradiction; injection B as <-; reflexivity. }
    tauto. }
  split; [apply HB|]. split; [apply HB|]. rewrite P. split; [apply f_equal, f_equal2; field; lra|]. rewrite E. apply f_equal, f_equal2; field; lra.
Qed.

(** The hypotheses are met by cameras of every kind. *)
Example C45_cameras : 
  (let c := create_perspective (9 / 10) 0 0 in made c /\ undistorted c /\ focal_nonzero c) /\
  (let c := create_radial (9 / 10) (11 / 10) (1 / 100, 1 / 200) (0, 0) in made c /\ undistorted c /\ focal_nonzero c) /\
  (let c := create_fisheye (1 / 2) 0 0 in made c /\ undistorted c /\ focal_nonzero c /\ 2 * / 10 ^ 8 <= image_radius c (1 / 2) 0 <= PI - 2 * / 10 ^ 8).
Proof.
  assert (HU : forall c, made c -> In c [create_perspective (9 / 10) 0 0; create_radial (9 / 10) (11 / 10) (1 / 100, 1 / 200) (0, 0); create_fisheye (1 / 2) 0 0] -> undistorted c).
  { intros c _ Hc p Hp. cbn in Hc, Hp. decompose [or] Hc; subst; try contradiction; decompose [or] Hp; subst; try contradiction; reflexivity. }
  assert (M1 : made (create_perspective (9 / 10) 0 0)) by constructor. assert (M2 : made (create_radial (9 / 10) (11 / 10) (1 / 100, 1 / 200) (0, 0))) by constructor.
  assert (M3 : made (create_fisheye (1 / 2) 0 0)) by constructor.
  split; [|split]; cbn zeta; (split; [assumption|]); (split; [apply HU; [assumption|cbn; tauto]|]).
  - unfold focal_nonzero. values. split; [lra|now left].
  - unfold focal_nonzero. values. split; [lra|right; lra].
  - unfold focal_nonzero. values. split; [split; [lra|now left]|].
    assert (E : image_radius (create_fisheye (1 / 2) 0 0) (1 / 2) 0 = 1).
    { unfold image_radius, plane, radius2. cbn [cam_type create_fisheye new_camera fst snd]. values. transitivity (sqrt 1); [|apply sqrt_1]. apply f_equal. change R1 with 1. field. }
    rewrite E. pose proof PI2_1. assert (/ 10 ^ 8 < 1 / 4); [|lra]. replace (1 / 4) with (/ 4) by lra. apply Rinv_lt_contravar; [|]; assert (4 < 10 ^ 8) by (assert (1 <= 10 ^ 7) by (apply pow_R1_Rle; lra); change (10 ^ 8) with (10 * 10 ^ 7); lra); lra.
Qed.
Print Assumptions C45_project_documented.
Print Assumptions C45_panorama.
Print Assumptions C45_bearing_unit.
Print Assumptions C45_project_bearing.
Print Assumptions C45_bearing_project.
Print Assumptions C45_project_direction.
Print Assumptions C45_dual_centre_refuted.
Print Assumptions C46_pixel_matrix.
Print Assumptions C46_mapping_same_ray.
