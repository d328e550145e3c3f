(** C88: the poses of a camera from three points and their bearings *)
From stdpp Require Import prelude.
From Coq Require Import Reals Lra Psatz.
From Verif Require Import Lin TriangModel FitModel FitSpec FitProofs Cpx P3pModel P3pSpec QuarticProofs QuarticProps P3pProofs.
Local Open Scope R_scope.

(** The coefficients, as five numbers *)
Notation "'with_coefficients' q f" := (let '(c0, c1, c2, c3, c4) := p3p_quartic q in f c0 c1 c2 c3 c4) (at level 10, q at level 9, f at level 9).

(** Whatever the roots are, each pose returned has a rotation and places the third point on the ray of its bearing *)
Theorem C88_rotations svd s1 s2 s3 r t : (forall m, is_svd_of m (svd m)) -> Some (r, t) ∈ AbsolutePoseThreePoints svd s1 s2 s3 -> rotation r /\ exists depth, 0 <= depth /\ vadd (mvec r s3.2) t = vscale depth s3.1.
Proof.
  intros Hsvd. unfold AbsolutePoseThreePoints. destruct (p3p_setup s1 s2 s3) as [q|] eqn:S; [|intros H; inversion H]. destruct (SolveQuartic _) as [[roots|]|]; [|rewrite !elem_of_cons, elem_of_nil; naive_solver|intros H; inversion H].
  intros (root & E & _)%elem_of_list_fmap. destruct root as [root|]; [|discriminate]. simpl in E. symmetry in E. assert (q_k3_b3 q <> 0 /\ 0 < q_sigma q) as [Nk Ps].
  { destruct s1 as [b1 p1], s2 as [b2 p2], s3 as [b3 p3]. unfold p3p_setup in S. destruct (Req_EM_T (norm _) 0) as [|Ns]; [discriminate|]. destruct (Req_EM_T (dot _ b3) 0) as [|Nk]; [discriminate|]. injection S as <-. simpl. split; [exact Nk|]. pose proof (norm_nonneg (cross (vsub p1 p3) (normalized (vsub p1 p2)))). lra. }
  destruct (pose_third _ _ _ _ _ _ _ _ Nk Ps Hsvd E) as (Hr & depth & P & H & _). split; [exact Hr|]. now exists depth.
Qed.
(** The poses of the roots of the quartic place all three points on the lines of their bearings *)
Theorem C88_sound svd b1 b2 b3 p1 p2 p3 q roots i root r t : (forall m, is_svd_of m (svd m)) -> unit b1 -> unit b2 ->
  p3p_setup (b1, p1) (b2, p2) (b3, p3) = Some q -> SolveQuartic (p3p_quartic q) = Some (Some roots) -> RefineQuarticRoots (p3p_quartic q) roots !! i = Some (Some root) ->
  with_coefficients q (fun c0 c1 c2 c3 c4 => at_real c0 c1 c2 c3 c4 root = 0) ->
  AbsolutePoseThreePoints svd (b1, p1) (b2, p2) (b3, p3) !! i = Some (Some (r, t)) ->
  rotation r /\ on_line r t b1 p1 /\ on_line r t b2 p2 /\ on_line r t b3 p3.
Proof.
  intros Hsvd U1 U2 S Q L E. unfold AbsolutePoseThreePoints. rewrite S, Q, list_lookup_fmap, L. intros H. apply (inj Some) in H. destruct (setup_geometry _ _ _ _ _ _ _ U1 U2 S) as (x & z & c & s & d1 & d2 & l & G). exact (pose_sound _ _ _ _ _ _ _ _ _ _ _ _ _ _ G svd root r t Hsvd H E).
Qed.
(** The pose of the camera is found: if it sees the three points in the directions of the bearings, a number k of it is a root of the quartic, and if the quartic is solved and k is
    a simple root where the determinant is not 0 then the pose is returned *)
Theorem C88_pose_is_root b1 b2 b3 p1 p2 p3 q r t : unit b1 -> unit b2 -> p3p_setup (b1, p1) (b2, p2) (b3, p3) = Some q -> rotation r -> sees r t b1 p1 -> sees r t b2 p2 -> sees r t b3 p3 ->
  with_coefficients q (fun c0 c1 c2 c3 c4 => at_real c0 c1 c2 c3 c4 (dot (q_k3 q) (mvec r (q_k3_second q))) = 0).
Proof.
  intros U1 U2 S Hr (l1 & P1 & H1) (l2 & P2 & H2) (l3 & P3 & H3). destruct (setup_geometry _ _ _ _ _ _ _ U1 U2 S) as (x & z & c & s & d1 & d2 & l & G).
  destruct (p3p_quartic q) as [[[[c0 c1] c2] c3] c4] eqn:E. pose proof (pose_root _ _ _ _ _ _ _ _ _ _ _ _ _ _ G r t l1 l2 l3 Hr H1 H2 P3 H3) as H. rewrite E in H. exact H.
Qed.
Theorem C88_complete svd b1 b2 b3 p1 p2 p3 q roots r t : (forall m, is_svd_of m (svd m)) -> unit b1 -> unit b2 -> p3p_setup (b1, p1) (b2, p2) (b3, p3) = Some q ->
  SolveQuartic (p3p_quartic q) = Some (Some roots) -> rotation r -> sees r t b1 p1 -> sees r t b2 p2 -> sees r t b3 p3 ->
  let k := dot (q_k3 q) (mvec r (q_k3_second q)) in
  with_coefficients q (fun c0 c1 c2 c3 c4 => epsilon < Rabs c4 /\ simple_root c0 c1 c2 c3 c4 k) -> g5 q * k ^ 2 + g6 q * k + g7 q <> 0 ->
  Some (r, t) ∈ AbsolutePoseThreePoints svd (b1, p1) (b2, p2) (b3, p3).
Proof.
  intros Hsvd U1 U2 S Q Hr (l1 & P1 & H1) (l2 & P2 & H2) (l3 & P3 & H3) k HC HD. destruct (setup_geometry _ _ _ _ _ _ _ U1 U2 S) as (x & z & c & s & d1 & d2 & l & G).
  destruct (pose_complete _ _ _ _ _ _ _ _ _ _ _ _ _ _ G svd r t l1 l2 l3 Hsvd Hr H1 H2 P3 H3) as [_ HP]. fold k in HP. unfold AbsolutePoseThreePoints. rewrite S, Q.
  destruct (p3p_quartic q) as [[[[c0 c1] c2] c3] c4]. destruct HC as [Eps HS]. apply elem_of_list_fmap. exists (Some k). split; [|now apply C87_simple_roots_found]. simpl. symmetry. apply HP. intros E. apply HD. rewrite <- E. ring.
Qed.
(** Poses are looked for exactly when the points are not on a line and the bearings are not in a plane *)
Theorem C88_degenerate b1 b2 b3 p1 p2 p3 : p3p_setup (b1, p1) (b2, p2) (b3, p3) = None <-> cross (vsub p1 p3) (vsub p1 p2) = v0 \/ dot (cross b1 b2) b3 = 0.
Proof.
  unfold p3p_setup. assert (norm (cross (vsub p1 p3) (normalized (vsub p1 p2))) = 0 <-> cross (vsub p1 p3) (vsub p1 p2) = v0) as E1.
  { destruct (Req_EM_T (dot (vsub p1 p2) (vsub p1 p2)) 0) as [E|E].
    - apply dot_0 in E. rewrite E, normalized_v0. replace (cross (vsub p1 p3) v0) with v0 by (destruct p1, p3; vcbv; f_equal; ring). split; [done|intros _; apply norm_v0].
    - assert (vsub p1 p2 <> v0) as N. { intros E'. apply E. rewrite E'. vcbv. ring. } destruct (normalized_unit _ N) as (_ & s & P & Es & _). set (k := normalized (vsub p1 p2)) in *. rewrite Es.
      assert (cross (vsub p1 p3) (vscale s k) = vscale s (cross (vsub p1 p3) k)) as -> by (generalize (vsub p1 p3) k; intros [] []; vcbv; f_equal; ring). generalize (cross (vsub p1 p3) k). intros w. split.
      + intros H%norm_0. subst w. vcbv. f_equal; ring.
      + intros H. assert (w = v0) as ->; [|apply norm_v0]. rewrite <- (vscale_1 w), <- (Rinv_l s) by lra. rewrite <- vscale_vscale, H. vcbv. f_equal; ring. }
  assert (dot (normalized (cross b1 b2)) b3 = 0 <-> dot (cross b1 b2) b3 = 0) as E2.
  { destruct (Req_EM_T (dot (cross b1 b2) (cross b1 b2)) 0) as [E|E].
    - apply dot_0 in E. now rewrite E, normalized_v0.
    - assert (cross b1 b2 <> v0) as N. { intros E'. apply E. rewrite E'. vcbv. ring. } destruct (normalized_unit _ N) as (_ & s & P & Es & _). rewrite Es at 2. rewrite dot_scale_l. split; [intros ->; ring|]. intros H. apply Rmult_integral in H as [H|H]; [lra|exact H]. }
  destruct (Req_EM_T (norm _) 0) as [H|H]; [split; [intros _; left; now apply E1|reflexivity]|]. destruct (Req_EM_T (dot _ b3) 0) as [H'|H']; [split; [intros _; right; now apply E2|reflexivity]|]. split; [discriminate|]. intros [K|K]; [now apply E1 in K|now apply E2 in K].
Qed.
(** There are four or no poses *)
Theorem C88_number svd s1 s2 s3 : length (AbsolutePoseThreePoints svd s1 s2 s3) = 0%nat \/ length (AbsolutePoseThreePoints svd s1 s2 s3) = 4%nat.
Proof.
  unfold AbsolutePoseThreePoints. destruct (p3p_setup s1 s2 s3) as [q|]; [|now left]. destruct (SolveQuartic (p3p_quartic q)) as [[roots|]|] eqn:Q; [|now right|now left]. right. unfold RefineQuarticRoots. rewrite !fmap_length.
  destruct (p3p_quartic q) as [[[[c0 c1] c2] c3] c4]. unfold SolveQuartic in Q. destruct (_ && _) in Q; [discriminate|]. destruct (ferrari _ _ _ _) as [[[[z1 z2] z3] z4]|]; [|discriminate]. injection Q as <-. reflexivity.
Qed.
(** Of the bearings only the directions count, with the wrapper that Python calls *)
Theorem C88_directions svd b1 b2 b3 p1 p2 p3 a1 a2 a3 : 0 < a1 -> 0 < a2 -> 0 < a3 ->
  absolute_pose_three_points svd (vscale a1 b1, p1) (vscale a2 b2, p2) (vscale a3 b3, p3) = absolute_pose_three_points svd (b1, p1) (b2, p2) (b3, p3).
Proof.
  intros P1 P2 P3. assert (forall a b, 0 < a -> normalized (vscale a b) = normalized b) as N; [|unfold absolute_pose_three_points; simpl; now rewrite !N].
  intros a b P. unfold normalized. rewrite dot_scale_l, dot_scale_r. pose proof (dot_nonneg b) as D. destruct (Req_EM_T (dot b b) 0) as [E|E].
  - destruct (Req_EM_T (a * (a * dot b b)) 0) as [_|H]; [|exfalso; apply H; rewrite E; ring]. apply dot_0 in E. subst b. vcbv. f_equal; ring.
  - destruct (Req_EM_T (a * (a * dot b b)) 0) as [H|_]; [apply Rmult_integral in H as [H|H]; [lra|]; apply Rmult_integral in H as [H|H]; lra|]. rewrite <- Rmult_assoc, sqrt_mult by nra. rewrite sqrt_square by lra. rewrite vscale_vscale. f_equal. field. split; [|lra]. intros H. apply sqrt_eq_0 in H; lra.
Qed.

(** A camera at the origin that sees (57, 0, 0), (0, 76, 0) and (8, 12, 24) *)
Lemma normalized_by v n : 0 < n -> dot v v = n * n -> normalized v = vscale (/ n) v.
Proof. intros P E. unfold normalized. rewrite E. destruct (Req_EM_T (n * n) 0) as [H|_]; [nra|]. now rewrite sqrt_square by lra. Qed.
Definition q_example : p3p := P3p (Vec (3 / 5) (-4 / 5) 0) (Vec 0 0 1) (Vec (-12 / 25) (-9 / 25) (-4 / 5)) 40 (6 / 7) (28800 / 49) (-18720 / 49) (-19200 / 49) (5760 / 7) (57600 / 49) 0 (-11232 / 7).
Lemma setup_example : p3p_setup (Vec 1 0 0, Vec 57 0 0) (Vec 0 1 0, Vec 0 76 0) (Vec (2 / 7) (3 / 7) (6 / 7), Vec 8 12 24) = Some q_example.
Proof.
  unfold p3p_setup. rewrite (normalized_by (vsub (Vec 57 0 0) (Vec 0 76 0)) 95), (normalized_by (cross (Vec 1 0 0) (Vec 0 1 0)) 1) by (vcbv; lra).
  assert (forall v n, 0 <= n -> dot v v = n * n -> norm v = n) as NB by (intros v n P E; unfold norm; rewrite E; now apply sqrt_square).
  rewrite (NB (cross (vsub (Vec 57 0 0) (Vec 8 12 24)) (vscale (/ 95) (vsub (Vec 57 0 0) (Vec 0 76 0)))) 40), (NB (cross (Vec 1 0 0) (Vec 0 1 0)) 1) by (vcbv; lra).
  destruct (Req_EM_T 40 0) as [H|_]; [lra|]. destruct (Req_EM_T (dot _ _) 0) as [H|_]; [revert H; vcbv; lra|]. unfold q_example. f_equal. f_equal; vcbv; try (f_equal; field); field.
Qed.
Example p3p_example svd : (forall m, is_svd_of m (svd m)) ->
  Some (mI, v0) ∈ AbsolutePoseThreePoints svd (Vec 1 0 0, Vec 57 0 0) (Vec 0 1 0, Vec 0 76 0) (Vec (2 / 7) (3 / 7) (6 / 7), Vec 8 12 24).
Proof.
  intros Hsvd. assert (p3p_quartic q_example = (4205592576 / 2401, 2626560000 / 2401, -8279424000 / 2401, -2626560000 / 2401, 92160000 / 49)) as EQ.
  { unfold p3p_quartic, q_example. cbn [g1 g2 g3 g4 g5 g6 g7]. repeat f_equal; field. }
  assert (epsilon < Rabs (92160000 / 49)) as Eps. { pose proof epsilon_small. rewrite Rabs_pos_eq; lra. }
  destruct (C87_solved (4205592576 / 2401) (2626560000 / 2401) (-8279424000 / 2401) (-2626560000 / 2401) (92160000 / 49) Eps) as (roots & Q & _).
  - match goal with |- _ <= Rabs ?a => replace a with (5974413313 / 384160000) by field end. pose proof epsilon_small. rewrite Rabs_pos_eq; lra.
  - match goal with |- ?a <> 0 => replace a with (- 224466 / 588245) by field end. lra.
  - assert (dot (q_k3 q_example) (mvec mI (q_k3_second q_example)) = -4 / 5) as Ek. { unfold q_example. cbn [q_k3 q_k3_second]. vcbv. field. }
    apply (C88_complete svd _ _ _ _ _ _ q_example roots); try assumption.
    + unfold unit. vcbv. ring.
    + unfold unit. vcbv. ring.
    + exact setup_example.
    + now rewrite EQ.
    + apply rotation_I.
    + exists 57. split; [lra|]. vcbv. f_equal; ring.
    + exists 76. split; [lra|]. vcbv. f_equal; ring.
    + exists 28. split; [lra|]. vcbv. f_equal; field.
    + rewrite EQ, Ek. split; [exact Eps|]. unfold simple_root, at_real. split; [field|lra].
    + rewrite Ek. unfold q_example. cbn [g5 g6 g7]. lra.
Qed.
Print Assumptions C88_rotations.
Print Assumptions C88_sound.
Print Assumptions C88_complete.
Print Assumptions C88_degenerate.
