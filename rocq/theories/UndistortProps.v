(** C47. Removing the distortion: how far the bearing of the projection of a point can be from the direction of the point. *)
From stdpp Require Import prelude.
From Coq Require Import Reals Lra Lia.
From Verif Require Import Base Lin RotProofs CamModel CamSpec CamProofs GeoModel GeoProofs FunctorModel ProjModel CameraSpec CameraProofs CameraProps UndistortSpec UndistortProofs.
Local Open Scope R_scope.

Definition distortion_of (c : camera) : R -> R :=
  match cam_type c with
  | SIMPLE_RADIAL => fun r2 => Disto2_Distortion r2 (value_of c K1)
  | FISHEYE_OPENCV => fun r2 => Disto2468_Distortion r2 (value_of c K1) (value_of c K2) (value_of c K3) (value_of c K4)
  | _ => fun r2 => Disto24_Distortion r2 (value_of c K1) (value_of c K2)
  end.
Definition derivative_of (c : camera) : R -> R :=
  match cam_type c with
  | SIMPLE_RADIAL => fun r2 => Disto2_DistortionDerivative r2 (value_of c K1)
  | FISHEYE_OPENCV => fun r2 => Disto2468_DistortionDerivative r2 (value_of c K1) (value_of c K2) (value_of c K3) (value_of c K4)
  | _ => fun r2 => Disto24_DistortionDerivative r2 (value_of c K1) (value_of c K2)
  end.
Definition backward_of (c : camera) : list R -> list R := fun q => match cam_type c with FISHEYE | FISHEYE_OPENCV => Fisheye_Backward q [] | _ => Perspective_Backward q [] end.
Lemma distortion_factor c r2 : radial_camera (cam_type c) -> distortion_of c r2 = radial_factor (coefficients c) r2.
Proof.
  intros H. unfold distortion_of, coefficients, radial_factor, Disto2_Distortion, Disto24_Distortion, Disto2468_Distortion.
  destruct (cam_type c); try contradiction; cbn [foldr]; ring.
Qed.
Lemma Bearing_radial c u v : made c -> radial_camera (cam_type c) ->
  Bearing c (u, v) = Some (vec_of_list (backward_of c (radial_Backward (distortion_of c) (derivative_of c) (pair_list (plane c u v))))).
Proof.
  intros Hm Ht. shaped. unfold plane, backward_of, distortion_of, derivative_of. cbn [cam_type]. destruct t; try contradiction; cbn in H0; unfold Bearing; cbn [cam_type cam_values Dispatch].
  all: [> conc vs 3%nat H0|conc vs 3%nat H0|conc vs 8%nat H0|conc vs 6%nat H0|conc vs 5%nat H0].
  all: values.
  all: cbv [Generic_Backward ComposeFunctions bwd cm_proj cm_disto cm_aff st_functor st_backward PERSP FISH DUALP SPHER IDENT D2 D24 D2468 D62 D624 BROWND AFF SCALE total nparams ConstructReversedParams Size
            PerspectiveProjection FisheyeProjection DualProjection SphericalProjection Identity Disto2 Disto24 Disto2468 Disto62 Disto624 DistoBrown Affine UniformScale Forward ParamSize foldr fst snd Nat.add Nat.sub Nat.max replicate take firstn drop skipn app].
  all: unfold Disto2_Backward, Disto24_Backward, Disto2468_Backward; cbn [nth].
  all: try reflexivity.
  all: unfold Affine_Backward, pair_list; cbn [nth fst snd]; match goal with |- context [?x / (?a * ?b)] => rewrite (two_focal a b x) end; reflexivity.
Qed.
Lemma Project_radial c p : made c -> radial_camera (cam_type c) -> (fisheye_like (cam_type c) -> / 10 ^ 8 <= axis_dist p) ->
  let q := ideal c p in let k := distortion_of c (radius2 q) in Project c p = Some (image c (k * q.1, k * q.2)).
Proof.
  intros Hm Ht Hd q k. rewrite C45_project_documented; [|assumption|intros E; rewrite E in Ht; contradiction|].
  2:{ intros [H|H]; [auto|rewrite H in Ht; contradiction]. }
  f_equal. unfold documented, image, k, q, ideal. rewrite distortion_factor by assumption. unfold coefficients, to_image.
  destruct (cam_type c); try contradiction; unfold radially; cbn [fst snd]; apply f_equal2; ring.
Qed.
Lemma radius_square q : radius q * radius q = radius2 q. Proof. apply sqrt_sqrt, radius2_nonneg. Qed.
Lemma amount_nonneg ks r2 : 0 <= r2 -> 0 <= amount ks r2.
Proof. intros H. induction ks as [|k ks IH]; cbn; [lra|fold (amount ks r2)]. apply Rmult_le_pos; [assumption|]. pose proof (Rabs_pos k). lra. Qed.
Lemma tame_of c q : radial_camera (cam_type c) -> let u := amount (coefficients c) (radius2 q) in u <= limit c -> 0 < radius q ->
  exists F, tame (distortion_of c) (derivative_of c) F (limit c) (rate c u) (radius q) u.
Proof.
  intros Ht u Hu Hs. set (s := radius q) in *. 
  assert (E2 : radius2 q = s ^ 2) by (rewrite <- radius_square; unfold s; ring).
  unfold distortion_of, derivative_of, limit, rate, u, coefficients in *. rewrite E2 in *. clear u E2.
  destruct (cam_type c); try contradiction; cbn [amount foldr] in *; eexists.
  1, 2, 4: match goal with |- tame _ _ _ _ (5 * ?u) _ _ => replace u with (Rabs (value_of c K1) * s ^ 2 + Rabs (value_of c K2) * s ^ 4) in * by ring end; apply tame24; assumption.
  - match goal with |- tame _ _ _ _ (8 * ?u) _ _ => replace u with (Rabs (value_of c K1) * s ^ 2 + Rabs (value_of c K2) * s ^ 4 + Rabs (value_of c K3) * s ^ 6 + Rabs (value_of c K4) * s ^ 8) in * by ring end. apply tame2468; assumption.
  - match goal with |- tame _ _ _ _ (5 * ?u) _ _ => replace u with (Rabs (value_of c K1) * s ^ 2) in * by ring end. apply tame2; assumption.
Qed.
Lemma factor_at_zero ks : radial_factor ks 0 = 1.
Proof. unfold radial_factor. destruct ks; cbn; ring. Qed.

Lemma equidistant_radius p : 0 < axis_dist p -> 0 <= axis_angle p -> radius (equidistant p) = axis_angle p.
Proof.
  intros Hpos Ha. unfold radius, radius2, equidistant. cbn [fst snd].
  assert (Hsq : axis_dist p * axis_dist p = vx p ^ 2 + vy p ^ 2) by (apply sqrt_sqrt; pose proof (pow2_ge_0 (vx p)); pose proof (pow2_ge_0 (vy p)); lra).
  rewrite <- (sqrt_square (axis_angle p)) at 3 by assumption. f_equal.
  transitivity (axis_angle p * axis_angle p * (vx p ^ 2 + vy p ^ 2) / (axis_dist p * axis_dist p)); [field; lra|]. rewrite <- Hsq. field. lra.
Qed.
Theorem C47_bearing_accuracy c p : made c -> radial_camera (cam_type c) -> focal_nonzero c ->
  match cam_type c with FISHEYE | FISHEYE_OPENCV => / 10 ^ 8 <= axis_dist p /\ 2 * / 10 ^ 8 <= axis_angle p | _ => 0 < vz p end ->
  amount (coefficients c) (radius2 (ideal c p)) <= limit c ->
  exists pixel b, Project c p = Some pixel /\ Bearing c pixel = Some b /\ norm (vsub b (unit_vector p)) <= accuracy c (radius (ideal c p)).
Proof.
  intros Hm Ht Hf Hp Hu. set (q := ideal c p) in *. set (u := amount (coefficients c) (radius2 q)) in *.
  assert (Hd : fisheye_like (cam_type c) -> / 10 ^ 8 <= axis_dist p) by (destruct (cam_type c); try contradiction; tauto).
  pose proof (Project_radial c p Hm Ht Hd) as HP. cbn zeta in HP. fold q in HP.
  eexists _, _. split; [exact HP|]. rewrite (surjective_pairing (image c _)), Bearing_radial by assumption. rewrite plane_image by auto. split; [reflexivity|].
  assert (Hu0 : 0 <= u) by (apply amount_nonneg, radius2_nonneg).
  assert (Hl : limit c <= / 10) by (unfold limit; destruct (cam_type c); lra).
  assert (Hr : 0 <= rate c u <= / 2) by (unfold rate, limit in *; destruct (cam_type c); lra).
  assert (HF : 0 < radius q \/ radius q = 0) by (destruct (sqrt_pos (radius2 q)); [left; assumption|right; symmetry; assumption]).
  assert (HT : exists F, 0 < radius q -> tame (distortion_of c) (derivative_of c) F (limit c) (rate c u) (radius q) u).
  { destruct HF as [HF|HF]; [|exists (fun _ => 0); lra]. destruct (tame_of c q Ht Hu HF) as [F HT]. exists F. auto. }
  destruct HT as [F HT].
  destruct (tame_backward (distortion_of c) (derivative_of c) F (limit c) (rate c u) q u Hr ltac:(lra) Hl HT) as (mu & E & Hmu & B & B').
  { intros E. rewrite E, Rmult_0_l, distortion_factor, factor_at_zero by assumption. lra. }
  rewrite radius_square in E. unfold pair_list. cbn [fst snd]. rewrite E.
  assert (HB : accuracy c (radius q) = Rmax (2 * tol) (rate c u ^ 10 * (u * radius q))) by (unfold accuracy; rewrite radius_square; reflexivity).
  rewrite HB. eapply Rle_trans; [|exact B]. clear HB B HP.
  assert (HE : sqrt ((mu * q.1 - q.1) ^ 2 + (mu * q.2 - q.2) ^ 2) = Rabs (mu * radius q - radius q)).
  { pose proof (sqrt_scaled (mu - 1) q) as S. unfold SquaredNorm in S. cbn [nth] in S. replace (mu * radius q - radius q) with ((mu - 1) * radius q) by ring.
    rewrite Rabs_mult, (Rabs_right (radius q)) by (apply Rle_ge, sqrt_pos). rewrite <- S. f_equal. ring. }
  unfold backward_of, q, ideal in *.
  destruct (cam_type c); try contradiction.
  1, 4, 5: rewrite <- (persp_bf p []) by assumption; rewrite <- HE; apply persp_lipschitz.
  all: destruct Hp as [Hp1 Hp2]; pose proof small_pos; assert (Ha : radius (equidistant p) = axis_angle p) by (apply equidistant_radius; [change small with (/ 10 ^ 8) in *; lra|change small with (/ 10 ^ 8) in *; lra]).
  all: change (/ 10 ^ 8) with small in *; rewrite <- (fish_bf p []) by lra; apply fish_lipschitz; rewrite ?Ha in *; try lra; apply abs_between in B';
       assert (limit c * axis_angle p <= / 10 * axis_angle p) by (apply Rmult_le_compat_r; lra); lra.
Qed.
(** For every pixel where the distortion is small there is a direction seen exactly at this pixel, and the bearing is near it. *)
Lemma factor_continuous ks r2 : continuity (fun t => t * radial_factor ks (t * t * r2)).
Proof.
  apply continuity_mult; [apply derivable_continuous, derivable_id|]. unfold radial_factor. apply continuity_plus; [apply continuity_const; intros x y; reflexivity|].
  induction ks as [|k ks IH]; cbn [foldr]; [apply continuity_const; intros x y; reflexivity|].
  apply continuity_mult; [apply continuity_mult; [apply continuity_mult; apply derivable_continuous, derivable_id|apply continuity_const; intros x y; reflexivity]|].
  apply continuity_plus; [apply continuity_const; intros x y; reflexivity|exact IH].
Qed.
Lemma amount_monotone ks r2 r2' : 0 <= r2 <= r2' -> amount ks r2 <= amount ks r2'.
Proof.
  intros H. induction ks as [|k ks IH]; cbn; [lra|]. fold (amount ks r2) (amount ks r2'). pose proof (Rabs_pos k). pose proof (amount_nonneg ks r2 ltac:(lra)). apply Rmult_le_compat; lra.
Qed.
Lemma factor_bound ks r2 : 0 <= r2 -> Rabs (radial_factor ks r2 - 1) <= amount ks r2.
Proof.
  intros H. unfold radial_factor. replace (1 + foldr (fun k acc => r2 * (k + acc)) 0 ks - 1) with (foldr (fun k acc => r2 * (k + acc)) 0 ks) by ring.
  induction ks as [|k ks IH]; cbn; [rewrite Rabs_R0; lra|]. fold (amount ks r2). rewrite Rabs_mult, (Rabs_right r2) by lra. apply Rmult_le_compat_l; [assumption|].
  eapply Rle_trans; [apply Rabs_triang|]. lra.
Qed.
Lemma undistorted_exists ks r2 : 0 <= r2 -> amount ks (6 / 5 * (6 / 5) * r2) <= / 10 -> exists t, 9 / 10 <= t <= 6 / 5 /\ t * radial_factor ks (t * t * r2) = 1.
Proof.
  intros Hr Ha.
  assert (HB : forall t, 0 <= t <= 6 / 5 -> 9 / 10 <= radial_factor ks (t * t * r2) <= 11 / 10).
  { intros t Ht. assert (H0 : 0 <= t * t * r2) by (apply Rmult_le_pos; [nra|assumption]). pose proof (factor_bound ks _ H0) as B. apply abs_between in B.
    assert (amount ks (t * t * r2) <= / 10); [|lra]. eapply Rle_trans; [|exact Ha]. apply amount_monotone. split; [assumption|]. apply Rmult_le_compat_r; [assumption|]. nra. }
  destruct (IVT_cor (fun t => t * radial_factor ks (t * t * r2) - 1) (9 / 10) (6 / 5)) as (t & Ht & E).
  - apply continuity_minus; [apply factor_continuous|apply continuity_const; intros x y; reflexivity].
  - lra.
  - pose proof (HB (9 / 10) ltac:(lra)). pose proof (HB (6 / 5) ltac:(lra)). cbv beta.
    set (a := radial_factor ks (9 / 10 * (9 / 10) * r2)) in *. set (b := radial_factor ks (6 / 5 * (6 / 5) * r2)) in *. 
    assert (9 / 10 * a - 1 <= 0) by lra. assert (0 <= 6 / 5 * b - 1) by lra. 
    replace ((9 / 10 * a - 1) * (6 / 5 * b - 1)) with (- ((1 - 9 / 10 * a) * (6 / 5 * b - 1))) by ring. assert (0 <= (1 - 9 / 10 * a) * (6 / 5 * b - 1)) by (apply Rmult_le_pos; lra). lra.
  - exists t. split; [exact Ht|lra].
Qed.
Lemma PI_large : 11 / 4 < PI.
Proof. pose proof (PI_ineq 1) as [H _]. cbn in H. unfold tg_alt, PI_tg in H. cbn in H. lra. Qed.
Lemma radius2_scale t q : radius2 (t * q.1, t * q.2) = t * t * radius2 q. Proof. unfold radius2. cbn. ring. Qed.
Theorem C47_pixel_accuracy c u v : made c -> radial_camera (cam_type c) -> focal_nonzero c ->
  (fisheye_like (cam_type c) -> 4 * / 10 ^ 8 <= image_radius c u v <= 2) ->
  amount (coefficients c) (6 / 5 * (6 / 5) * (image_radius c u v * image_radius c u v)) <= limit c ->
  exists p b, norm p = 1 /\ Project c p = Some (u, v) /\ Bearing c (u, v) = Some b /\ norm (vsub b p) <= accuracy c (radius (ideal c p)) /\ radius (ideal c p) <= 6 / 5 * image_radius c u v.
Proof.
  intros Hm Ht Hf Hr Ha. set (q := plane c u v). unfold image_radius in *. fold q in Hr, Ha |- *. rewrite sqrt_sqrt in Ha by apply radius2_nonneg.
  assert (Hl : limit c <= / 10) by (unfold limit; destruct (cam_type c); lra).
  destruct (undistorted_exists (coefficients c) (radius2 q) (radius2_nonneg q) ltac:(lra)) as (t & Ht' & E).
  assert (Hrt : radius (t * q.1, t * q.2) = t * radius q).
  { unfold radius. rewrite radius2_scale, sqrt_mult by (try apply radius2_nonneg; nra). rewrite sqrt_square by lra. reflexivity. }
  pose proof small_pos as Hsm. change (/ 10 ^ 8) with small in *. pose proof PI2_1 as Hpi.
  assert (Hp : exists p, ideal c p = (t * q.1, t * q.2) /\ norm p = 1 /\ (fisheye_like (cam_type c) -> small <= axis_dist p /\ 2 * small <= axis_angle p) /\ (~ fisheye_like (cam_type c) -> 0 < vz p)).
  { unfold ideal. destruct (cam_type c) eqn:ET; try contradiction.
    1, 4, 5: destruct (persp_fb (t * q.1, t * q.2) []) as (P & Z & N); eexists; split; [exact P|]; split; [exact N|]; split; [intros H; contradiction|intros _; exact Z].
    all: specialize (Hr I); fold (radius q) in Hr; assert (B : 2 * small < t * radius q < 5 / 2) by (split; [apply Rlt_le_trans with (9 / 10 * radius q)|apply Rle_lt_trans with (6 / 5 * radius q)]; try lra; apply Rmult_le_compat_r; lra).
    all: assert (Hs1 : small < 1 / 100) by (unfold small; replace (1 / 100) with (/ (10 ^ 2)) by field; apply Rinv_lt_contravar; [apply Rmult_lt_0_compat; apply pow_lt; lra|apply Rlt_pow; [lra|lia]]).
    all: pose proof PI_large as HPI; destruct (fish_fb (t * q.1, t * q.2) []) as (P & A & N); [fold (radius (t * q.1, t * q.2)); rewrite Hrt; lra|].
    all: eexists; split; [exact P|]; split; [exact N|]; split; [|intros H; exfalso; apply H; exact I]; intros _; 
         assert (HA : small <= axis_dist (vec_of_list (Fisheye_Backward (pair_list (t * q.1, t * q.2)) []))) by (rewrite A; fold (radius (t * q.1, t * q.2)); rewrite Hrt; apply sin_small; lra);
         (split; [exact HA|]); rewrite <- (equidistant_radius (vec_of_list (Fisheye_Backward (pair_list (t * q.1, t * q.2)) []))); [rewrite P, Hrt; lra|lra|apply acos_bound]. }
  destruct Hp as (p & HI & HN & Hfish & Hpersp).
  assert (HP : Project c p = Some (u, v)).
  { rewrite Project_radial by (try assumption; intros H; apply Hfish; exact H). cbn zeta. rewrite HI, distortion_factor, radius2_scale by assumption. cbn [fst snd].
    rewrite <- (image_plane c u v Hm ltac:(auto)). fold q. f_equal. f_equal. destruct q as [x y]. cbn [fst snd] in *. 
    replace (x, y) with (t * radial_factor (coefficients c) (t * t * radius2 (x, y)) * x, t * radial_factor (coefficients c) (t * t * radius2 (x, y)) * y) at 3 by (rewrite E; apply f_equal2; ring).
    apply f_equal2; ring. }
  destruct (C47_bearing_accuracy c p Hm Ht Hf) as (pixel & b & P & B & D).
  - destruct (cam_type c); try contradiction; try (apply Hpersp; intros []); apply Hfish; exact I.
  - rewrite HI, radius2_scale. eapply Rle_trans; [|exact Ha]. apply amount_monotone. split; [apply Rmult_le_pos; [nra|apply radius2_nonneg]|]. apply Rmult_le_compat_r; [apply radius2_nonneg|nra].
  - rewrite HP in P. injection P as <-. exists p, b. split; [exact HN|]. split; [exact HP|]. split; [exact B|]. split.
    + assert (EU : unit_vector p = p). { unfold unit_vector. rewrite HN. destruct p as [x y z]. unfold vscale. cbn [vx vy vz]. rewrite Rinv_1, !Rmult_1_l. reflexivity. }
      rewrite EU in D. exact D.
    + rewrite HI, Hrt. apply Rmult_le_compat_r; [apply sqrt_pos|]. lra.
Qed.
(** A single non-negative coefficient: any amount of distortion. *)
Theorem C47_pincushion c p : made c -> In (cam_type c) [SIMPLE_RADIAL; PERSPECTIVE; RADIAL] -> focal_nonzero c -> 0 < vz p -> 0 <= value_of c K1 -> value_of c K2 = 0 ->
  exists pixel b, Project c p = Some pixel /\ Bearing c pixel = Some b /\ norm (vsub b (unit_vector p)) <= Rmax (8 * / 10 ^ 6) (7 / 100 * (value_of c K1 * radius (pinhole p) ^ 3)).
Proof.
  intros Hm Ht Hf Hz Hk Hk2. assert (Ht' : radial_camera (cam_type c)) by (destruct Ht as [<-|[<-|[<-|[]]]]; exact I).
  assert (HI : ideal c p = pinhole p) by (unfold ideal; destruct Ht as [<-|[<-|[<-|[]]]]; reflexivity).
  assert (HB : forall l, backward_of c l = Perspective_Backward l []) by (intros l; unfold backward_of; destruct Ht as [<-|[<-|[<-|[]]]]; reflexivity).
  assert (Hd : fisheye_like (cam_type c) -> / 10 ^ 8 <= axis_dist p) by (destruct Ht as [<-|[<-|[<-|[]]]]; intros []).
  assert (Edist : forall r2, distortion_of c r2 = 1 + r2 * value_of c K1).
  { intros r2. unfold distortion_of, Disto2_Distortion, Disto24_Distortion. rewrite Hk2. destruct Ht as [<-|[<-|[<-|[]]]]; ring. }
  assert (Eder : forall r2, derivative_of c r2 = 1 + 2 * r2 * value_of c K1).
  { intros r2. unfold derivative_of, Disto2_DistortionDerivative, Disto24_DistortionDerivative. rewrite Hk2. destruct Ht as [<-|[<-|[<-|[]]]]; ring. }
  pose proof (Project_radial c p Hm Ht' Hd) as HP. cbn zeta in HP. rewrite HI in HP.
  eexists _, _. split; [exact HP|]. rewrite (surjective_pairing (image c _)), Bearing_radial by assumption. rewrite plane_image by auto. split; [reflexivity|].
  set (q := pinhole p) in *. set (k := value_of c K1) in *. set (s := radius q). assert (Hs : 0 <= s) by apply sqrt_pos. clear HP. pose proof tol_pos.
  destruct (radial_backward (distortion_of c) (derivative_of c) (fun x => 1 + k * (x ^ 2 + x * s + s ^ 2)) (fun x => 9 / 10 * s <= x) q (7 / 10) (12 / 5)) as (mu & E & Hmu & B & _); try lra.
  - fold s. rewrite Edist. assert (0 <= s * s * k) by (apply Rmult_le_pos; [nra|assumption]). lra.
  - fold s. rewrite Edist. intros Hs0. assert (0 <= s * s * k) by (apply Rmult_le_pos; [nra|assumption]). nra.
  - fold s. intros x Hs0 Hx. rewrite !Edist, !Eder. assert (Hxx : 0 <= k * (x * x)) by (apply Rmult_le_pos; nra).
    assert (Eq : x * (1 + x * x * k) - s * (1 + s * s * k) = (x - s) * (1 + k * (x ^ 2 + x * s + s ^ 2))) by ring. split; [exact Eq|]. split; [lra|].
    assert (Hlow : k * (s * s + x * s - x * x) <= k * (7 / 5 * (x * x))) by (apply Rmult_le_compat_l; [assumption|nra]).
    assert (Hhigh : k * (x * x - x * s - s * s) <= k * (x * x)) by (apply Rmult_le_compat_l; [assumption|nra]).
    split; [apply Rabs_le; lra|]. rewrite Eq. assert (HD : 0 < 1 + 2 * (x * x) * k) by lra.
    assert (Est : x - (x - s) * (1 + k * (x ^ 2 + x * s + s ^ 2)) / (1 + 2 * (x * x) * k) - s = k * ((x - s) * (x * x - x * s - s * s)) / (1 + 2 * (x * x) * k)) by (field; lra).
    assert (G : - (s / 10) <= k * ((x - s) * (x * x - x * s - s * s)) / (1 + 2 * (x * x) * k)); [|lra].
    apply Rmult_le_reg_r with (1 + 2 * (x * x) * k); [exact HD|]. replace (k * ((x - s) * (x * x - x * s - s * s)) / (1 + 2 * (x * x) * k) * (1 + 2 * (x * x) * k)) with (k * ((x - s) * (x * x - x * s - s * s))) by (field; lra).
    assert (G2 : - (s * (x * x) / 5) <= (x - s) * (x * x - x * s - s * s)).
    { destruct (Rle_dec x s) as [L|L].
      - assert (0 <= (s - x) * (s * s + x * s - x * x)) by (apply Rmult_le_pos; nra). nra.
      - destruct (near_ratio (x / s) s x Hs0) as (y & Ey & _).
        { unfold near. rewrite Rabs_right by lra. unfold Rdiv. rewrite Rmult_assoc, Rinv_l by lra. lra. }
        subst x. assert (1 < y) by nra. replace (- (s * (s * y * (s * y)) / 5)) with (s * s * s * (- (y * y / 5))) by field.
        replace ((s * y - s) * (s * y * (s * y) - s * y * s - s * s)) with (s * s * s * ((y - 1) * (y * y - y - 1))) by ring.
        apply Rmult_le_compat_l; [apply Rmult_le_pos; nra|]. pose proof (pow2_ge_0 (y - 5 / 4)). assert (0 <= (y - 1) ^ 3) by (apply pow_le; lra). lra. }
    assert (k * (- (s * (x * x) / 5)) <= k * ((x - s) * (x * x - x * s - s * s))) by (apply Rmult_le_compat_l; assumption). nra.
  - fold s. intros x Hs0 Hx. rewrite !Edist. assert (Hxx : 0 <= x * x * k) by (apply Rmult_le_pos; nra). split; [lra|].
    replace (1 + s * s * k - (1 + x * x * k)) with (k * (s + x) * (s - x)) by ring. rewrite !Rabs_mult, (Rabs_right k), (Rabs_right (s + x)), (Rabs_minus_sym s x) by lra.
    replace (s * (k * (s + x) * Rabs (x - s))) with (k * (s * (s + x)) * Rabs (x - s)) by ring. replace (12 / 5 * Rabs (x - s) * (1 + x * x * k)) with (12 / 5 * (1 + x * x * k) * Rabs (x - s)) by ring. apply Rmult_le_compat_r; [apply Rabs_pos|].
    assert (k * (s * (s + x)) <= k * (12 / 5 * (x * x))) by (apply Rmult_le_compat_l; [assumption|nra]). lra.
  - fold s. rewrite Edist. intros L. pose proof eps_tol. assert (0 <= s * (s * s * k)) by (apply Rmult_le_pos; [assumption|apply Rmult_le_pos; nra]). rewrite Rabs_right by lra. lra.
  - change (radius q) with s in E, B. rewrite HB. unfold pair_list. cbn [fst snd]. replace (radius2 q) with (s * s) by apply radius_square. rewrite E.
    assert (HE : sqrt ((mu * q.1 - q.1) ^ 2 + (mu * q.2 - q.2) ^ 2) = Rabs (mu * s - s)).
    { pose proof (sqrt_scaled (mu - 1) q) as S. unfold SquaredNorm in S. cbn [nth] in S. replace (mu * s - s) with ((mu - 1) * s) by ring.
      rewrite Rabs_mult, (Rabs_right s) by lra. unfold s. rewrite <- S. f_equal. ring. }
    rewrite <- (persp_bf p []) by assumption. eapply Rle_trans; [apply persp_lipschitz|]. fold q. rewrite HE. eapply Rle_trans; [exact B|].
    rewrite Edist. replace (s * (1 + s * s * k) - s) with (k * s ^ 3) by ring. rewrite (Rabs_right (k * s ^ 3)) by (apply Rle_ge, Rmult_le_pos; [assumption|apply pow_le; assumption]).
    assert (0 <= k * s ^ 3) by (apply Rmult_le_pos; [assumption|apply pow_le; assumption]).
    rewrite <- RmaxRmult by lra. change (/ 10 ^ 6) with tol. apply Rmax_lub; [eapply Rle_trans; [|apply Rmax_l]; lra|eapply Rle_trans; [|apply Rmax_r]].
    rewrite <- Rmult_assoc. apply Rmult_le_compat_r; [assumption|]. lra.
Qed.

(** The hypotheses are met: a phone camera with some distortion, and a fisheye. *)
Example C47_cameras :
  (let c := create_perspective (85 / 100) (- (1 / 10)) (1 / 100) in let p := Vec (1 / 4) (1 / 5) 1 in
   made c /\ radial_camera (cam_type c) /\ focal_nonzero c /\ 0 < vz p /\ 0 < amount (coefficients c) (radius2 (ideal c p)) <= / 50 /\
   accuracy c (radius (ideal c p)) = 2 * / 10 ^ 6).
Proof.
  cbn zeta. split; [constructor|]. split; [exact I|]. split; [unfold focal_nonzero; values; split; [lra|now left]|]. split; [cbn; lra|].
  assert (EA : Rabs (- (1 / 10)) = 1 / 10) by (rewrite Rabs_left; lra). assert (EB : Rabs (1 / 100) = 1 / 100) by (apply Rabs_right; lra).
  assert (EV1 : value_of (create_perspective (85 / 100) (- (1 / 10)) (1 / 100)) K1 = - (1 / 10)) by reflexivity. assert (EV2 : value_of (create_perspective (85 / 100) (- (1 / 10)) (1 / 100)) K2 = 1 / 100) by reflexivity.
  assert (H : 0 < amount (coefficients (create_perspective (85 / 100) (- (1 / 10)) (1 / 100))) (radius2 (ideal (create_perspective (85 / 100) (- (1 / 10)) (1 / 100)) (Vec (1 / 4) (1 / 5) 1))) <= / 50).
  { unfold amount, coefficients, radius2, ideal, pinhole. cbn [cam_type create_perspective new_camera foldr fst snd vx vy vz]. fold (create_perspective (85 / 100) (- (1 / 10)) (1 / 100)). rewrite EV1, EV2, EA, EB. lra. }
  split; [exact H|]. unfold accuracy. cbn zeta. rewrite radius_square. set (u := amount _ _) in *. apply Rmax_left. unfold rate. cbn [cam_type create_perspective new_camera].
  assert (Hr : radius (ideal (create_perspective (85 / 100) (- (1 / 10)) (1 / 100)) (Vec (1 / 4) (1 / 5) 1)) <= 1).
  { unfold radius. apply Rle_trans with (sqrt 1); [|rewrite sqrt_1; lra]. apply sqrt_le_1_alt. unfold radius2, ideal, pinhole. cbn [cam_type create_perspective new_camera fst snd vx vy vz]. lra. }
  assert (H1 : (5 * u) ^ 10 <= (1 / 10) ^ 10) by (apply pow_incr; lra). assert (0 <= (5 * u) ^ 10) by (apply pow_le; lra). pose proof (sqrt_pos (radius2 (ideal (create_perspective (85 / 100) (- (1 / 10)) (1 / 100)) (Vec (1 / 4) (1 / 5) 1)))) as H2. fold (radius (ideal (create_perspective (85 / 100) (- (1 / 10)) (1 / 100)) (Vec (1 / 4) (1 / 5) 1))) in H2.
  set (r := radius _) in *. assert (0 <= u * r <= 1) by (split; [apply Rmult_le_pos; lra|]; nra).
  apply Rle_trans with ((1 / 10) ^ 10 * 1); [apply Rmult_le_compat; lra|]. lra.
Qed.
Print Assumptions C47_bearing_accuracy.
Print Assumptions C47_pixel_accuracy.
Print Assumptions C47_pincushion.
