(** Proofs about the pose of a camera from three points *)
From stdpp Require Import prelude.
From Coq Require Import Reals Lra Psatz.
From Verif Require Import Lin TriangModel FitModel FitSpec PlaneProofs FitProofs Cpx P3pModel P3pSpec QuarticProofs.
Local Open Scope R_scope.

Ltac vcbv := cbv [vadd vsub vopp vscale dot cross mvec mmul mT mscale madd mI v0 columns RotationMatrixAroundAxis det vx vy vz m11 m12 m13 m21 m22 m23 m31 m32 m33].
Lemma mat_eq a b : m11 a = m11 b -> m12 a = m12 b -> m13 a = m13 b -> m21 a = m21 b -> m22 a = m22 b -> m23 a = m23 b -> m31 a = m31 b -> m32 a = m32 b -> m33 a = m33 b -> a = b.
Proof. destruct a, b. simpl. congruence. Qed.
(** What is returned is a rotation, and a rotation is left alone *)
Lemma closest_rotation svd m : is_svd_of m (svd m) -> rotation (ClosestRotationMatrix svd m).
Proof.
  unfold ClosestRotationMatrix, transposed_svd. destruct (svd m) as [[u [[s1 s2] s3]] vh]. intros (Hu & Hv & _). pose proof (orthogonal_mmul _ _ Hu Hv) as H. pose proof (orthogonal_det _ H) as D.
  destruct (Rlt_dec (det (mmul u vh)) 0) as [L|L]; [|split; [exact H|nra]]. set (r := mmul u vh) in *. split.
  - transitivity (mmul r (mT r)); [generalize r; vring|exact H].
  - assert (det r = -1) as E by nra. transitivity (- det r); [generalize r; intros []; vcbv; ring|lra].
Qed.
Lemma closest_of_rotation svd m : is_svd_of m (svd m) -> rotation m -> ClosestRotationMatrix svd m = m.
Proof.
  unfold ClosestRotationMatrix, transposed_svd. destruct (svd m) as [[u [[s1 s2] s3]] vh]. intros (Hu & Hv & Em & S12 & S23 & S3) [Hm Dm].
  set (d := Mat s1 0 0 0 s2 0 0 0 s3) in *. assert (mmul d (mT d) = mI) as Hd.
  { transitivity (mmul (mT u) (mmul (mmul m (mT m)) u)).
    - rewrite Em. rewrite !mT_mmul. transitivity (mmul (mmul (mT u) u) (mmul d (mmul (mmul vh (mT vh)) (mmul (mT d) (mmul (mT u) u))))).
      + rewrite Hv, (orthogonal_l u Hu), !mmul_I_l, mmul_I_r. reflexivity.
      + rewrite !mmul_assoc. reflexivity.
    - rewrite Hm, mmul_I_l. apply (orthogonal_l u Hu). }
  assert (d = mI) as Ed. { assert (s1 * s1 = 1 /\ s2 * s2 = 1 /\ s3 * s3 = 1) as (E1 & E2 & E3). { assert (forall a b, a = b -> m11 a = m11 b /\ m22 a = m22 b /\ m33 a = m33 b) as P by (intros ? ? ->; auto). apply P in Hd. revert Hd. unfold d. vcbv. lra. } unfold d. vcbv. f_equal; nra. }
  rewrite Ed, mmul_I_l in Em. rewrite <- Em. destruct (Rlt_dec (det m) 0); [lra|reflexivity].
Qed.

(** *** The frames *)
Lemma normalized_unit v : v <> v0 -> dot (normalized v) (normalized v) = 1 /\ exists s, 0 < s /\ v = vscale s (normalized v) /\ s = norm v.
Proof.
  intros N. unfold normalized. destruct (Req_EM_T (dot v v) 0) as [E|E]; [now apply dot_0 in E|]. pose proof (dot_nonneg v) as P. assert (0 < sqrt (dot v v)) as S by (apply sqrt_lt_R0; lra).
  pose proof (sqrt_sqrt (dot v v) P) as Q. split.
  - transitivity (/ sqrt (dot v v) * / sqrt (dot v v) * dot v v); [generalize (/ sqrt (dot v v)); intros r; unfold dot, vscale; simpl; ring|]. rewrite <- Q at 3. field. lra.
  - exists (sqrt (dot v v)). split; [exact S|]. split; [|reflexivity]. rewrite vscale_vscale. replace (sqrt (dot v v) * / sqrt (dot v v)) with 1 by (field; lra). now rewrite vscale_1.
Qed.
Lemma normalized_v0 : normalized v0 = v0.
Proof. unfold normalized. destruct (Req_EM_T _ 0) as [_|H]; [reflexivity|]. exfalso. apply H. vcbv. ring. Qed.
Lemma dot_comm u v : dot u v = dot v u. Proof. unfold dot. ring. Qed.
Lemma dot_scale_r s u v : dot u (vscale s v) = s * dot u v. Proof. unfold dot, vscale. simpl. ring. Qed.
Lemma dot_scale_l s u v : dot (vscale s u) v = s * dot u v. Proof. unfold dot, vscale. simpl. ring. Qed.
Lemma lagrange u v : dot (cross u v) (cross u v) = dot u u * dot v v - dot u v * dot u v. Proof. unfold dot, cross. simpl. ring. Qed.
(** Three vectors u, v, u x v of which u and v are orthonormal are a rotation *)
Lemma frame_rotation u v : dot u u = 1 -> dot v v = 1 -> dot u v = 0 -> rotation (columns u v (cross u v)).
Proof.
  intros U V W. assert (det (columns u v (cross u v)) = 1) as D.
  { transitivity (dot (cross u v) (cross u v)); [destruct u, v; vcbv; ring|]. rewrite lagrange, U, V, W. ring. }
  split; [|exact D]. assert (mmul (mT (columns u v (cross u v))) (mT (mT (columns u v (cross u v)))) = mI) as H.
  { rewrite mT_T. pose proof (lagrange u v) as L. rewrite U, V, W in L. destruct u as [a b c], v as [d e f]. revert U V W L. vcbv. intros. f_equal; try lra; ring. }
  pose proof (orthogonal_l _ H) as H'. rewrite mT_T in H'. exact H'.
Qed.
Lemma axis_1 c s : RotationMatrixAroundAxis c s (Vec 1 0 0) = Mat 1 0 0 0 c s 0 (- s) c.
Proof. vcbv. f_equal; ring. Qed.
Lemma axis_2 c s : RotationMatrixAroundAxis c s (Vec 0 1 0) = Mat c 0 (- s) 0 1 0 s 0 c.
Proof. vcbv. f_equal; ring. Qed.

Record geometry (b1 b2 b3 p1 p2 p3 : vec) (q : p3p) (x z c s d1 d2 l : R) : Prop := Geometry {
  o_a : rotation (columns (q_k1 q) (q_k3_second q) (cross (q_k1 q) (q_k3_second q)));
  o_b : rotation (mT (columns b1 (q_k3 q) (cross b1 (q_k3 q))));
  o_u1 : mvec (mT (columns (q_k1 q) (q_k3_second q) (cross (q_k1 q) (q_k3_second q)))) (vsub p1 p3) = Vec d1 0 (q_sigma q);
  o_u2 : mvec (mT (columns (q_k1 q) (q_k3_second q) (cross (q_k1 q) (q_k3_second q)))) (vsub p2 p3) = Vec d2 0 (q_sigma q);
  o_b1 : mvec (mT (columns b1 (q_k3 q) (cross b1 (q_k3 q)))) b1 = Vec 1 0 0;
  o_b2 : mvec (mT (columns b1 (q_k3 q) (cross b1 (q_k3 q)))) b2 = Vec c 0 (- s);
  o_b3 : mvec (mT (columns b1 (q_k3 q) (cross b1 (q_k3 q)))) b3 = Vec x (q_k3_b3 q) z;
  o_sigma : 0 < q_sigma q; o_k : q_k3_b3 q <> 0; o_l : 0 < l; o_d : d1 - d2 = l; o_s : 0 < s; o_cs : c * c + s * s = 1;
  o_g1 : g1 q = (- q_sigma q * z) * (q_sigma q * q_k3_b3 q * s);
  o_g2 : g2 q = (- q_sigma q * z) * (- d2 * c * q_k3_b3 q) - (- d1 * q_k3_b3 q) * (- q_sigma q * (s * x + c * z));
  o_g3 : g3 q = (q_sigma q * q_k3_b3 q) * (- q_sigma q * (s * x + c * z)) - (- q_sigma q * z) * (q_sigma q * c * q_k3_b3 q);
  o_g4 : g4 q = - (- q_sigma q * z) * (d2 * q_k3_b3 q * s);
  o_g5 : g5 q = (q_sigma q * q_k3_b3 q) * (q_sigma q * q_k3_b3 q * s);
  o_g6 : g6 q = (q_sigma q * q_k3_b3 q) * (- d2 * c * q_k3_b3 q) - (- d1 * q_k3_b3 q) * (q_sigma q * c * q_k3_b3 q);
  o_g7 : g7 q = - (- d1 * q_k3_b3 q) * (d2 * q_k3_b3 q * s) }.
Global Arguments o_a {_ _ _ _ _ _ _ _ _ _ _ _ _ _} _.
Global Arguments o_b {_ _ _ _ _ _ _ _ _ _ _ _ _ _} _.
Global Arguments o_u1 {_ _ _ _ _ _ _ _ _ _ _ _ _ _} _.
Global Arguments o_u2 {_ _ _ _ _ _ _ _ _ _ _ _ _ _} _.
Global Arguments o_b1 {_ _ _ _ _ _ _ _ _ _ _ _ _ _} _.
Global Arguments o_b2 {_ _ _ _ _ _ _ _ _ _ _ _ _ _} _.
Global Arguments o_b3 {_ _ _ _ _ _ _ _ _ _ _ _ _ _} _.
Global Arguments o_sigma {_ _ _ _ _ _ _ _ _ _ _ _ _ _} _.
Global Arguments o_k {_ _ _ _ _ _ _ _ _ _ _ _ _ _} _.
Global Arguments o_l {_ _ _ _ _ _ _ _ _ _ _ _ _ _} _.
Global Arguments o_d {_ _ _ _ _ _ _ _ _ _ _ _ _ _} _.
Global Arguments o_s {_ _ _ _ _ _ _ _ _ _ _ _ _ _} _.
Global Arguments o_cs {_ _ _ _ _ _ _ _ _ _ _ _ _ _} _.
Global Arguments o_g1 {_ _ _ _ _ _ _ _ _ _ _ _ _ _} _.
Global Arguments o_g2 {_ _ _ _ _ _ _ _ _ _ _ _ _ _} _.
Global Arguments o_g3 {_ _ _ _ _ _ _ _ _ _ _ _ _ _} _.
Global Arguments o_g4 {_ _ _ _ _ _ _ _ _ _ _ _ _ _} _.
Global Arguments o_g5 {_ _ _ _ _ _ _ _ _ _ _ _ _ _} _.
Global Arguments o_g6 {_ _ _ _ _ _ _ _ _ _ _ _ _ _} _.
Global Arguments o_g7 {_ _ _ _ _ _ _ _ _ _ _ _ _ _} _.
Lemma setup_geometry b1 b2 b3 p1 p2 p3 q : unit b1 -> unit b2 -> p3p_setup (b1, p1) (b2, p2) (b3, p3) = Some q -> exists x z c s d1 d2 l, geometry b1 b2 b3 p1 p2 p3 q x z c s d1 d2 l.
Proof.
  unfold p3p_setup, unit. intros U1 U2. set (k1 := normalized (vsub p1 p2)). set (k3 := normalized (cross b1 b2)). set (w := cross (vsub p1 p3) k1).
  destruct (Req_EM_T (norm w) 0) as [|Ns]; [discriminate|]. destruct (Req_EM_T (dot k3 b3) 0) as [|Nk]; [discriminate|]. intros H. injection H as <-.
  pose proof (norm_nonneg w) as Pw. pose proof (norm_sq w) as Sw. set (sigma := norm w) in *. set (k3s := vscale (/ sigma) w).
  assert (vsub p1 p2 <> v0) as N12. { intros E. apply Ns. unfold sigma, w, k1. rewrite E, normalized_v0. replace (cross (vsub p1 p3) v0) with v0 by (destruct p1, p3; vcbv; f_equal; ring). apply norm_v0. }
  assert (cross b1 b2 <> v0) as Nb. { intros E. apply Nk. unfold k3. rewrite E, normalized_v0. vcbv. ring. }
  destruct (normalized_unit _ N12) as (K1 & l & Pl & El & _). fold k1 in K1, El. destruct (normalized_unit _ Nb) as (K3 & s & Ps & Es & Es'). fold k3 in K3, Es.
  assert (0 < sigma) as Psg by lra.
  assert (dot w k1 = 0) as W1 by (unfold w, dot, cross; simpl; ring). assert (dot w (vsub p1 p3) = 0) as W2 by (unfold w, dot, cross; simpl; ring).
  assert (dot k3s k3s = 1) as K3s. { unfold k3s. rewrite dot_scale_l, dot_scale_r, <- Sw. field. lra. }
  assert (dot k1 k3s = 0) as K13. { unfold k3s. rewrite dot_scale_r, (dot_comm k1), W1. ring. }
  assert (dot b1 (cross b1 b2) = 0) as B0 by (unfold dot, cross; simpl; ring). assert (dot b2 (cross b1 b2) = 0) as B0' by (unfold dot, cross; simpl; ring).
  assert (dot b1 k3 = 0) as B1. { rewrite Es, dot_scale_r in B0. nra. } assert (dot b2 k3 = 0) as B2. { rewrite Es, dot_scale_r in B0'. nra. }
  set (d1 := dot (vsub p1 p3) k1). set (d2 := dot (vsub p2 p3) k1). set (c := dot b1 b2). set (x := dot b1 b3). set (z := dot (cross b1 k3) b3).
  assert (c * c + s * s = 1) as CS. { pose proof (lagrange b1 b2) as L. rewrite Es in L at 1 2. rewrite dot_scale_l, dot_scale_r, K3, U1, U2 in L. fold c in L. lra. }
  assert (d1 - d2 = l) as Dl. { transitivity (dot (vsub p1 p2) k1); [unfold d1, d2, dot, vsub; simpl; ring|]. rewrite El, dot_scale_l, K1. ring. }
  assert (dot (vsub p1 p3) (cross k1 k3s) = sigma) as D3.
  { apply (Rmult_eq_reg_l sigma); [|lra]. transitivity (dot w w); [|rewrite <- Sw; reflexivity]. unfold k3s. transitivity (sigma * / sigma * dot (vsub p1 p3) (cross k1 w)); [generalize (/ sigma), (vsub p1 p3), w; intros; unfold dot, cross, vscale; simpl; ring|].
    rewrite Rinv_r by lra. rewrite Rmult_1_l. unfold w at 3. generalize w as w'. intros. unfold dot, cross. simpl. ring. }
  assert (vsub p2 p3 = vsub (vsub p1 p3) (vscale l k1)) as E23. { rewrite <- El. destruct p1, p2, p3. vcbv. f_equal; ring. }
  assert (dot (cross b1 b3) k3 = - z) as V1. { unfold z, dot, cross. simpl. ring. }
  assert (dot (cross b1 k3) b2 = - s) as V3. { transitivity (- dot (cross b1 b2) k3); [unfold dot, cross; simpl; ring|]. rewrite Es, dot_scale_l, K3. ring. }
  assert (rotation (columns b1 k3 (cross b1 k3))) as RB by now apply frame_rotation.
  assert (mvec (mT (columns b1 k3 (cross b1 k3))) b2 = Vec c 0 (- s)) as MB2. { apply vec_eq; [reflexivity| |]; [rewrite <- B2|rewrite <- V3]; unfold dot; vcbv; ring. }
  assert (mvec (mT (columns b1 k3 (cross b1 k3))) b3 = Vec x (dot k3 b3) z) as MB3. { apply vec_eq; unfold x, z, dot; vcbv; ring. }
  assert (dot (cross b2 b3) k3 = - (s * x + c * z)) as V2.
  { transitivity (dot b2 (cross b3 k3)); [unfold dot, cross; simpl; ring|]. (* b2 = c b1 - s (b1 x k3) *)
    assert (b2 = vadd (vscale c b1) (vscale (- s) (cross b1 k3))) as Eb2.
    { rewrite <- (mvec_I b2). rewrite <- (rotation_r _ RB), mvec_mmul, MB2. destruct b1, k3. vcbv. f_equal; ring. }
    rewrite Eb2. transitivity (c * dot b1 (cross b3 k3) - s * dot (cross b1 k3) (cross b3 k3)); [unfold dot, vadd, vscale, cross; simpl; ring|].
    assert (dot (cross b1 k3) (cross b3 k3) = x * dot k3 k3 - dot b1 k3 * dot k3 b3) as -> by (unfold x, dot, cross; simpl; ring). rewrite K3, B1.
    assert (dot b1 (cross b3 k3) = - z) as -> by (unfold z, dot, cross; simpl; ring). ring. }
  exists x, z, c, s, d1, d2, l. constructor; cbn [q_k1 q_k3 q_k3_second q_sigma q_k3_b3 g1 g2 g3 g4 g5 g6 g7]; fold k3s; try assumption.
  - now apply frame_rotation.
  - now apply rotation_T.
  - apply vec_eq; [unfold d1; vcbv; ring| |rewrite <- D3; unfold dot; vcbv; ring]. transitivity (/ sigma * dot w (vsub p1 p3)); [unfold k3s, dot; simpl; ring|]. rewrite W2. simpl. ring.
  - apply vec_eq; [unfold d2; vcbv; ring| |]; rewrite E23.
    + transitivity (/ sigma * dot w (vsub p1 p3) - l * (/ sigma * dot w k1)); [unfold k3s, dot; simpl; ring|]. rewrite W2, W1. simpl. ring.
    + transitivity (dot (vsub p1 p3) (cross k1 k3s) - l * dot k1 (cross k1 k3s)); [unfold dot; simpl; ring|]. rewrite D3. replace (dot k1 (cross k1 k3s)) with 0 by (unfold dot, cross; simpl; ring). simpl. ring.
  - apply vec_eq; [rewrite <- U1; unfold dot; vcbv; ring|rewrite <- B1; unfold dot; vcbv; ring|vcbv; ring].
  - rewrite V1, <- Es'. ring.
  - rewrite V1, V2. fold c d1 d2. ring.
  - rewrite V1, V2. fold c d1 d2. ring.
  - rewrite V1, <- Es'. fold c d1 d2. ring.
  - rewrite <- Es'. ring.
  - fold c d1 d2. ring.
  - rewrite <- Es'. fold c d1 d2. ring.
Qed.

(** *** The poses *)
Lemma quartic_sum q r : let '(c0, c1, c2, c3, c4) := p3p_quartic q in at_real c0 c1 c2 c3 c4 r =
  (g5 q * (r * r) + g6 q * r + g7 q) * (g5 q * (r * r) + g6 q * r + g7 q) - (1 - r * r) * ((g1 q * r + g2 q) * (g1 q * r + g2 q) + (g3 q * r + g4 q) * (g3 q * r + g4 q)).
Proof. unfold p3p_quartic, at_real. ring. Qed.
Lemma Sign_sq a : Sign a * Sign a = 1. Proof. unfold Sign. destruct (Rlt_dec a 0); ring. Qed.
Lemma Sign_mul a : 0 <= Sign a * a. Proof. unfold Sign. destruct (Rlt_dec a 0); lra. Qed.
Lemma Sign_pos a : a <> 0 -> 0 < Sign a * a. Proof. intros. unfold Sign. destruct (Rlt_dec a 0); lra. Qed.
Lemma Sign_div a r : a <> 0 -> 0 <= r -> 0 <= Sign a * r / a.
Proof.
  intros N P. unfold Sign. destruct (Rlt_dec a 0) as [L|L].
  - replace (-1 * r / a) with (r * / (- a)) by (field; lra). apply Rmult_le_pos; [exact P|]. left. apply Rinv_0_lt_compat. lra.
  - replace (1 * r / a) with (r * / a) by (field; lra). apply Rmult_le_pos; [exact P|]. left. apply Rinv_0_lt_compat. lra.
Qed.
(** The third point is always on its line of sight, in front *)
Lemma pose_third svd b1 b3 p3 q root r t : q_k3_b3 q <> 0 -> 0 < q_sigma q -> (forall m, is_svd_of m (svd m)) -> p3p_pose svd b1 b3 p3 q root = Some (r, t) ->
  rotation r /\ exists depth, 0 <= depth /\ vadd (mvec r p3) t = vscale depth b3 /\ depth * depth * (q_k3_b3 q * q_k3_b3 q) = q_sigma q * q_sigma q * (1 - root * root).
Proof.
  intros Nk Ps Hsvd. unfold p3p_pose. destruct (Rlt_dec (1 - root * root) 0) as [|P]; [discriminate|]. destruct (Req_EM_T _ 0) as [|Nd]; [discriminate|].
  set (m := mmul _ _). set (rot := ClosestRotationMatrix svd m). assert (rotation rot) as Hr by (apply closest_rotation, Hsvd). clearbody rot. intros H. injection H as <- <-. split; [now apply rotation_T|].
  set (s1 := Sign (q_k3_b3 q) * sqrt (1 - root * root)). exists (q_sigma q * s1 / q_k3_b3 q). split; [|split].
  - unfold s1. replace (q_sigma q * (Sign (q_k3_b3 q) * sqrt (1 - root * root)) / q_k3_b3 q) with (q_sigma q * (Sign (q_k3_b3 q) * sqrt (1 - root * root) / q_k3_b3 q)) by (field; exact Nk). apply Rmult_le_pos; [lra|]. apply Sign_div; [exact Nk|apply sqrt_pos].
  - generalize (q_sigma q * s1 / q_k3_b3 q). intros a. transitivity (vscale a (mvec (mmul (mT rot) rot) b3)); [generalize (mT rot); vring|]. now rewrite (rotation_l _ Hr), mvec_I.
  - transitivity (q_sigma q * q_sigma q * (s1 * s1)); [field; exact Nk|]. f_equal. unfold s1. transitivity (Sign (q_k3_b3 q) * Sign (q_k3_b3 q) * (sqrt (1 - root * root) * sqrt (1 - root * root))); [ring|]. rewrite Sign_sq, sqrt_sqrt by lra. ring.
Qed.
Lemma shift m p p3 t : vadd (mvec m p) t = vadd (mvec m (vsub p p3)) (vadd (mvec m p3) t). Proof. vring. Qed.
Lemma centre m m' a p3 b3 : vadd (mvec m' p3) (vopp (mvec m' (vsub p3 (vscale a (mvec m b3))))) = vscale a (mvec (mmul m' m) b3). Proof. vring. Qed.
Lemma difference r p p3 t : mvec r (vsub p p3) = vsub (vadd (mvec r p) t) (vadd (mvec r p3) t). Proof. vring. Qed.
Lemma mvec_sub_scale m a u b v : mvec m (vsub (vscale a u) (vscale b v)) = vsub (vscale a (mvec m u)) (vscale b (mvec m v)). Proof. vring. Qed.
Lemma opposite m m' p a b : vopp (mvec m (vsub p (vscale a (mvec m' b)))) = vsub (vscale a (mvec (mmul m m') b)) (mvec m p). Proof. vring. Qed.
Lemma add_sub u t : vsub (vadd u t) u = t. Proof. vring. Qed.
Section core.
  Context (b1 b2 b3 p1 p2 p3 : vec) (q : p3p) (x z c s d1 d2 l : R) (G : geometry b1 b2 b3 p1 p2 p3 q x z c s d1 d2 l).
  Let k := q_k3_b3 q. Let sg := q_sigma q.
  Let A := columns (q_k1 q) (q_k3_second q) (cross (q_k1 q) (q_k3_second q)).
  Let B := mT (columns b1 (q_k3 q) (cross b1 (q_k3 q))).
  Lemma determinant r : g5 q * (r * r) + g6 q * r + g7 q = (sg * k * r) * (sg * k * s * r - d2 * c * k) - (- d1 * k) * (sg * c * k * r + d2 * k * s).
  Proof. rewrite (o_g5 G), (o_g6 G), (o_g7 G). unfold sg, k. ring. Qed.
  Lemma cramer r s1 : let D := g5 q * (r * r) + g6 q * r + g7 q in D <> 0 ->
    let c3 := s1 / D * (g1 q * r + g2 q) in let s3 := s1 / D * (g3 q * r + g4 q) in
    sg * k * r * c3 - d1 * k * s3 = - sg * z * s1 /\ (sg * c * k * r + d2 * k * s) * c3 + (sg * k * s * r - d2 * c * k) * s3 = - sg * (s * x + c * z) * s1.
  Proof.
    intros D N c3 s3. split; apply (Rmult_eq_reg_l D); try exact N.
    - transitivity (s1 * (sg * k * r * (g1 q * r + g2 q) - d1 * k * (g3 q * r + g4 q))); [unfold c3, s3; field; exact N|]. unfold D. rewrite (o_g1 G), (o_g2 G), (o_g3 G), (o_g4 G), (o_g5 G), (o_g6 G), (o_g7 G). fold sg k. ring.
    - transitivity (s1 * ((sg * c * k * r + d2 * k * s) * (g1 q * r + g2 q) + (sg * k * s * r - d2 * c * k) * (g3 q * r + g4 q))); [unfold c3, s3; field; exact N|]. unfold D. rewrite (o_g1 G), (o_g2 G), (o_g3 G), (o_g4 G), (o_g5 G), (o_g6 G), (o_g7 G). fold sg k. ring.
  Qed.
  Lemma cramer_unique r s1 c3 s3 : let D := g5 q * (r * r) + g6 q * r + g7 q in
    sg * k * r * c3 - d1 * k * s3 = - sg * z * s1 -> (sg * c * k * r + d2 * k * s) * c3 + (sg * k * s * r - d2 * c * k) * s3 = - sg * (s * x + c * z) * s1 ->
    D * c3 = s1 * (g1 q * r + g2 q) /\ D * s3 = s1 * (g3 q * r + g4 q).
  Proof.
    intros D E1 E2. unfold D. rewrite (o_g1 G), (o_g2 G), (o_g3 G), (o_g4 G), (o_g5 G), (o_g6 G), (o_g7 G). fold sg k. split.
    2: { transitivity (sg * k * r * ((sg * c * k * r + d2 * k * s) * c3 + (sg * k * s * r - d2 * c * k) * s3) - (sg * c * k * r + d2 * k * s) * (sg * k * r * c3 - d1 * k * s3)); [ring|]. rewrite E1, E2. ring. }
    transitivity ((sg * k * r * c3 - d1 * k * s3) * (sg * k * s * r - d2 * c * k) + d1 * k * ((sg * c * k * r + d2 * k * s) * c3 + (sg * k * s * r - d2 * c * k) * s3)); [ring|]. rewrite E1, E2. ring.
  Qed.
  Lemma C1_C2_transposed r s1 c3 s3 a b v : mvec (mT (mmul (Mat 1 0 0 0 r s1 0 (- s1) r) (Mat c3 0 (- s3) 0 1 0 s3 0 c3))) (Vec a b v) =
    Vec (c3 * a + s3 * (s1 * b + r * v)) (r * b - s1 * v) (- s3 * a + c3 * (s1 * b + r * v)).
  Proof. vcbv. f_equal; ring. Qed.
  Lemma C1_C2_rotation r s1 c3 s3 : r * r + s1 * s1 = 1 -> c3 * c3 + s3 * s3 = 1 -> rotation (mmul (Mat 1 0 0 0 r s1 0 (- s1) r) (Mat c3 0 (- s3) 0 1 0 s3 0 c3)).
  Proof. intros E1 E3. apply rotation_mmul; split; revert E1 E3; vcbv; intros; try (f_equal; lra); lra. Qed.
  (** A point seen: u is p - p3 in the frame of the points, b the bearing in its own *)
  Lemma seen r s1 c3 s3 rot t p bp a bx bz depth : let m := mmul (Mat 1 0 0 0 r s1 0 (- s1) r) (Mat c3 0 (- s3) 0 1 0 s3 0 c3) in
    rot = mmul (mmul A m) B -> rotation m -> vadd (mvec (mT rot) p3) t = vscale (sg * s1 / k) b3 ->
    mvec (mT A) (vsub p p3) = Vec a 0 sg -> mvec B bp = Vec bx 0 bz ->
    c3 * a + s3 * r * sg + sg * s1 / k * x = depth * bx -> - s3 * a + c3 * r * sg + sg * s1 / k * z = depth * bz ->
    vadd (mvec (mT rot) p) t = vscale depth bp.
  Proof.
    intros m -> Hm H3 Ha Hb Ex Ez. pose proof (o_b G) as RB. fold B in RB. pose proof (o_k G) as Nk. fold k in Nk. assert (forall v, mvec (mT B) (mvec B v) = v) as Inv by (intros; now rewrite <- mvec_mmul, (rotation_l _ RB), mvec_I).
    rewrite <- (Inv (vadd _ t)), <- (Inv (vscale depth bp)). f_equal.
    assert (vadd (mvec (mT (mmul (mmul A m) B)) p) t = vadd (mvec (mT (mmul (mmul A m) B)) (vsub p p3)) (vscale (sg * s1 / k) b3)) as ->. { rewrite <- H3. apply shift. }
    rewrite mvec_add, !mvec_scale, Hb. rewrite mT_mmul, (mT_mmul A m), !mvec_mmul, Ha. rewrite <- (mvec_mmul B), (rotation_r _ RB), mvec_I. unfold m. rewrite C1_C2_transposed.
    pose proof (o_b3 G) as Hb3. fold B in Hb3. rewrite Hb3. fold k. unfold vadd, vscale. cbn [vx vy vz]. f_equal; [lra|field; exact Nk|lra].
  Qed.
  Lemma pose_sound svd root r t : (forall m, is_svd_of m (svd m)) -> p3p_pose svd b1 b3 p3 q root = Some (r, t) -> (let '(c0, c1, c2, c3, c4) := p3p_quartic q in at_real c0 c1 c2 c3 c4 root = 0) ->
    rotation r /\ on_line r t b1 p1 /\ on_line r t b2 p2 /\ on_line r t b3 p3.
  Proof.
    intros Hsvd Hp Hq. pose proof (o_k G) as Nk. fold k in Nk. pose proof (o_s G) as Ps. pose proof (o_cs G) as Ecs. destruct (pose_third _ _ _ _ _ _ _ _ (o_k G) (o_sigma G) Hsvd Hp) as (Hr & depth3 & P3 & H3 & _). split; [exact Hr|].
    assert (on_line r t b3 p3) as L3 by now exists depth3.
    pose proof (quartic_sum q root) as Q. destruct (p3p_quartic q) as [[[[a0 a1] a2] a3] a4]. rewrite Hq in Q. clear Hq a0 a1 a2 a3 a4. revert Hp. unfold p3p_pose.
    destruct (Rlt_dec (1 - root * root) 0) as [|Pr]; [discriminate|]. set (D := g5 q * (root * root) + g6 q * root + g7 q) in *. destruct (Req_EM_T D 0) as [|Nd]; [discriminate|].
    fold A B. set (s1 := Sign (q_k3_b3 q) * sqrt (1 - root * root)). set (c3 := s1 / D * (g1 q * root + g2 q)). set (s3 := s1 / D * (g3 q * root + g4 q)). rewrite axis_1, axis_2.
    assert (s1 * s1 = 1 - root * root) as Es1. { unfold s1. transitivity (Sign (q_k3_b3 q) * Sign (q_k3_b3 q) * (sqrt (1 - root * root) * sqrt (1 - root * root))); [ring|]. rewrite Sign_sq, sqrt_sqrt by lra. ring. }
    assert (c3 * c3 + s3 * s3 = 1) as E3.
    { apply (Rmult_eq_reg_l (D * D)); [|nra]. transitivity ((s1 * s1) * ((g1 q * root + g2 q) * (g1 q * root + g2 q) + (g3 q * root + g4 q) * (g3 q * root + g4 q))); [unfold c3, s3; field; exact Nd|]. rewrite Es1. lra. }
    assert (root * root + s1 * s1 = 1) as E1 by lra. pose proof (C1_C2_rotation root s1 c3 s3 E1 E3) as Hm. set (m := mmul (Mat 1 0 0 0 root s1 0 (- s1) root) (Mat c3 0 (- s3) 0 1 0 s3 0 c3)) in *.
    assert (rotation (mmul (mmul A m) B)) as Hrot. { apply rotation_mmul; [apply rotation_mmul; [apply (o_a G)|exact Hm]|apply (o_b G)]. }
    rewrite <- (mmul_assoc A). fold m. rewrite (closest_of_rotation svd _ (Hsvd _) Hrot). intros H. injection H as Er Et.
    assert (vadd (mvec (mT (mmul (mmul A m) B)) p3) t = vscale (sg * s1 / k) b3) as H3'.
    { rewrite <- Et. fold sg k. generalize (sg * s1 / k). intros a. rewrite centre, (rotation_l _ Hrot), mvec_I. reflexivity. }
    destruct (cramer root s1 Nd) as [C1 C2]. fold D c3 s3 in C1, C2. rewrite <- Er. split; [|split; [|now rewrite Er]].
    - exists (c3 * d1 + s3 * root * sg + sg * s1 / k * x). apply (seen root s1 c3 s3 _ t p1 b1 d1 1 0); try assumption; [reflexivity|apply (o_u1 G)|apply (o_b1 G)|ring|].
      apply (Rmult_eq_reg_l k); [|exact Nk]. transitivity (- (d1 * k * s3) + sg * k * root * c3 + sg * s1 * z); [field; exact Nk|]. lra.
    - exists (c * (c3 * d2 + s3 * root * sg + sg * s1 / k * x) - s * (- s3 * d2 + c3 * root * sg + sg * s1 / k * z)).
      assert (s * (c3 * d2 + s3 * root * sg + sg * s1 / k * x) + c * (- s3 * d2 + c3 * root * sg + sg * s1 / k * z) = 0) as E0.
      { apply (Rmult_eq_reg_l k); [|exact Nk]. transitivity ((sg * c * k * root + d2 * k * s) * c3 + (sg * k * s * root - d2 * c * k) * s3 + sg * (s * x + c * z) * s1); [field; exact Nk|]. rewrite C2. ring. }
      apply (seen root s1 c3 s3 _ t p2 b2 d2 c (- s)); try assumption; [reflexivity|apply (o_u2 G)|apply (o_b2 G)| |].
      + set (X := c3 * d2 + s3 * root * sg + sg * s1 / k * x) in *. set (Z := - s3 * d2 + c3 * root * sg + sg * s1 / k * z) in *. transitivity ((c * c + s * s) * X - s * (s * X + c * Z)); [rewrite Ecs, E0; ring|ring].
      + set (X := c3 * d2 + s3 * root * sg + sg * s1 / k * x) in *. set (Z := - s3 * d2 + c3 * root * sg + sg * s1 / k * z) in *. transitivity ((c * c + s * s) * Z - c * (s * X + c * Z)); [rewrite Ecs, E0; ring|ring].
  Qed.
  Lemma pose_solution r t l1 l2 l3 : rotation r -> vadd (mvec r p1) t = vscale l1 b1 -> vadd (mvec r p2) t = vscale l2 b2 -> 0 < l3 -> vadd (mvec r p3) t = vscale l3 b3 ->
    let root := dot (q_k3 q) (mvec r (q_k3_second q)) in
    (let '(c0, c1, c2, c3, c4) := p3p_quartic q in at_real c0 c1 c2 c3 c4 root = 0) /\
    (g5 q * (root * root) + g6 q * root + g7 q <> 0 -> forall svd, (forall m, is_svd_of m (svd m)) -> p3p_pose svd b1 b3 p3 q root = Some (r, t)).
  Proof.
    intros Hr H1 H2 P3 H3 root. pose proof (o_k G) as Nk. fold k in Nk. pose proof (o_s G) as Ps. pose proof (o_sigma G) as Psg. fold sg in Psg. pose proof (o_a G) as RA. fold A in RA. pose proof (o_b G) as RB. fold B in RB.
    set (n := mmul B (mmul r A)). assert (rotation n) as Rn by (apply rotation_mmul; [exact RB|apply rotation_mmul; [exact Hr|exact RA]]).
    assert (m22 n = root) as Er. { unfold n, root, A, B. generalize (q_k1 q), (q_k3 q), (q_k3_second q), b1. clear. intros. unfold dot, mvec, mmul, columns, mT. cbn [m11 m12 m13 m21 m22 m23 m31 m32 m33 vx vy vz]. ring. }
    assert (forall p b lp, vadd (mvec r p) t = vscale lp b -> mvec n (mvec (mT A) (vsub p p3)) = vsub (vscale lp (mvec B b)) (vscale l3 (mvec B b3))) as Hn.
    { intros p b lp Hp. unfold n. rewrite !mvec_mmul, <- (mvec_mmul A), (rotation_r _ RA), mvec_I. assert (mvec r (vsub p p3) = vsub (vadd (mvec r p) t) (vadd (mvec r p3) t)) as -> by apply difference. rewrite Hp, H3. apply mvec_sub_scale. }
    pose proof (Hn _ _ _ H1) as N1. pose proof (Hn _ _ _ H2) as N2. clear Hn. pose proof (o_u1 G) as U1. pose proof (o_u2 G) as U2. pose proof (o_b1 G) as B1. pose proof (o_b2 G) as B2. pose proof (o_b3 G) as B3. fold A sg in U1, U2. fold B k in B1, B2, B3.
    rewrite U1, B1, B3 in N1. rewrite U2, B2, B3 in N2. clear U1 U2 B1 B2 B3. pose proof (o_l G) as Pl. pose proof (o_d G) as Ed.
    assert (forall u v : vec, u = v -> vx u = vx v /\ vy u = vy v /\ vz u = vz v) as VE by (intros ? ? ->; auto). apply VE in N1, N2. unfold mvec, vsub, vscale in N1, N2. cbn [vx vy vz] in N1, N2. destruct N1 as (N1x & N1y & N1z), N2 as (N2x & N2y & N2z).
    assert (m21 n = 0) as E21. { apply (Rmult_eq_reg_r (d1 - d2)); [|lra]. lra. }
    assert (m23 n * sg = - l3 * k) as E23. { rewrite E21 in N1y. lra. }
    pose proof (rotation_adj _ Rn) as AD. pose proof (rotation_r _ Rn) as OR. pose proof (rotation_l _ Rn) as OL.
    assert (m12 n = m23 n * m31 n) as E12. { apply (f_equal m21) in AD. revert AD. unfold adj, mT. cbn [m11 m12 m13 m21 m22 m23 m31 m32 m33]. rewrite E21. lra. }
    assert (m13 n = - (m22 n * m31 n)) as E13. { apply (f_equal m31) in AD. revert AD. unfold adj, mT. cbn [m11 m12 m13 m21 m22 m23 m31 m32 m33]. rewrite E21. lra. }
    assert (m32 n = - (m11 n * m23 n)) as E32. { apply (f_equal m23) in AD. revert AD. unfold adj, mT. cbn [m11 m12 m13 m21 m22 m23 m31 m32 m33]. rewrite E21. lra. }
    assert (m33 n = m11 n * m22 n) as E33. { apply (f_equal m33) in AD. revert AD. unfold adj, mT. cbn [m11 m12 m13 m21 m22 m23 m31 m32 m33]. rewrite E21. lra. }
    assert (m22 n * m22 n + m23 n * m23 n = 1) as R2. { apply (f_equal m22) in OR. revert OR. unfold mmul, mT, mI. cbn [m11 m12 m13 m21 m22 m23 m31 m32 m33]. rewrite E21. lra. }
    assert (m11 n * m11 n + m31 n * m31 n = 1) as C1. { apply (f_equal m11) in OL. revert OL. unfold mmul, mT, mI. cbn [m11 m12 m13 m21 m22 m23 m31 m32 m33]. rewrite E21. lra. }
    set (s1 := - m23 n). set (c3 := m11 n). set (s3 := - m31 n). assert (l3 * k = s1 * sg) as El3 by (unfold s1; lra).
    assert (n = mT (mmul (Mat 1 0 0 0 root s1 0 (- s1) root) (Mat c3 0 (- s3) 0 1 0 s3 0 c3))) as En. { rewrite <- Er. unfold s1, c3, s3. apply mat_eq; unfold mmul, mT; cbn [m11 m12 m13 m21 m22 m23 m31 m32 m33]; rewrite ?E12, ?E13, ?E32, ?E33, ?E21; ring. }
    destruct (cramer_unique root s1 c3 s3) as [D1 D2].
    - rewrite <- Er. transitivity (k * (m31 n * d1 + m32 n * 0 + m33 n * sg)); [rewrite E33; unfold c3, s3; ring|]. rewrite N1z. transitivity (- (l3 * k) * z); [ring|]. rewrite El3. ring.
    - rewrite <- Er. transitivity (k * (s * (m11 n * d2 + m12 n * 0 + m13 n * sg) + c * (m31 n * d2 + m32 n * 0 + m33 n * sg))); [rewrite E33, E13; unfold c3, s3; ring|]. rewrite N2x, N2z. transitivity (- (l3 * k) * (s * x + c * z)); [ring|]. rewrite El3. ring.
    - assert (s1 * s1 = 1 - root * root) as Es1 by (unfold s1; rewrite <- Er; lra). assert (c3 * c3 + s3 * s3 = 1) as E3 by (unfold c3, s3; lra). set (D := g5 q * (root * root) + g6 q * root + g7 q) in *. split.
      + pose proof (quartic_sum q root) as Q. destruct (p3p_quartic q) as [[[[a0 a1] a2] a3] a4]. rewrite Q. fold D. rewrite <- Es1.
        transitivity (D * D * (c3 * c3 + s3 * s3) - s1 * s1 * ((g1 q * root + g2 q) * (g1 q * root + g2 q) + (g3 q * root + g4 q) * (g3 q * root + g4 q))); [rewrite E3; ring|].
        transitivity ((D * c3) * (D * c3) + (D * s3) * (D * s3) - s1 * s1 * ((g1 q * root + g2 q) * (g1 q * root + g2 q) + (g3 q * root + g4 q) * (g3 q * root + g4 q))); [ring|]. rewrite D1, D2. ring.
      + intros Nd svd Hsvd. unfold p3p_pose. fold A B D. destruct (Rlt_dec (1 - root * root) 0) as [L|_]; [nra|]. destruct (Req_EM_T D 0) as [|_]; [contradiction|].
        assert (Sign (q_k3_b3 q) * sqrt (1 - root * root) = s1) as ->.
        { fold k. assert (0 < s1 * k) as Pos. { apply (Rmult_lt_reg_r sg); [exact Psg|]. replace (s1 * k * sg) with (k * (s1 * sg)) by ring. rewrite <- El3. replace (k * (l3 * k)) with (l3 * (k * k)) by ring. rewrite Rmult_0_l. apply Rmult_lt_0_compat; [exact P3|]. clear - Nk. nra. } rewrite <- Es1. unfold Sign. destruct (Rlt_dec k 0).
          - replace (s1 * s1) with ((- s1) * (- s1)) by ring. rewrite sqrt_square by (clear - Pos r0; nra). ring.
          - rewrite sqrt_square by (clear - Pos n0; nra). ring. }
        replace (s1 / D * (g1 q * root + g2 q)) with c3 by (apply (Rmult_eq_reg_l D); [|exact Nd]; rewrite D1; field; exact Nd). replace (s1 / D * (g3 q * root + g4 q)) with s3 by (apply (Rmult_eq_reg_l D); [|exact Nd]; rewrite D2; field; exact Nd).
        rewrite axis_1, axis_2, <- (mmul_assoc A). assert (mmul (mmul A (mmul (Mat 1 0 0 0 root s1 0 (- s1) root) (Mat c3 0 (- s3) 0 1 0 s3 0 c3))) B = mT r) as ->.
        { transitivity (mmul (mmul A (mT n)) B); [now rewrite En, mT_T|]. unfold n. rewrite !mT_mmul. rewrite !mmul_assoc, (rotation_r _ RA), mmul_I_l. rewrite <- !mmul_assoc, (rotation_l _ RB), mmul_I_r. reflexivity. }
        rewrite (closest_of_rotation svd _ (Hsvd _) (rotation_T _ Hr)), mT_T. do 2 f_equal. fold sg k. replace (sg * s1 / k) with l3 by (apply (Rmult_eq_reg_r k); [|exact Nk]; rewrite El3; field; exact Nk).
        rewrite opposite, (rotation_r _ Hr), mvec_I, <- H3. apply add_sub.
  Qed.
  Lemma pose_root r t l1 l2 l3 : rotation r -> vadd (mvec r p1) t = vscale l1 b1 -> vadd (mvec r p2) t = vscale l2 b2 -> 0 < l3 -> vadd (mvec r p3) t = vscale l3 b3 ->
    let '(c0, c1, c2, c3, c4) := p3p_quartic q in at_real c0 c1 c2 c3 c4 (dot (q_k3 q) (mvec r (q_k3_second q))) = 0.
  Proof. intros Hr H1 H2 P3 H3. exact (proj1 (pose_solution r t l1 l2 l3 Hr H1 H2 P3 H3)). Qed.
  Lemma pose_complete svd r t l1 l2 l3 : (forall m, is_svd_of m (svd m)) -> rotation r -> vadd (mvec r p1) t = vscale l1 b1 -> vadd (mvec r p2) t = vscale l2 b2 -> 0 < l3 -> vadd (mvec r p3) t = vscale l3 b3 ->
    let root := dot (q_k3 q) (mvec r (q_k3_second q)) in
    (let '(c0, c1, c2, c3, c4) := p3p_quartic q in at_real c0 c1 c2 c3 c4 root = 0) /\ (g5 q * (root * root) + g6 q * root + g7 q <> 0 -> p3p_pose svd b1 b3 p3 q root = Some (r, t)).
  Proof. intros Hsvd Hr H1 H2 P3 H3. destruct (pose_solution r t l1 l2 l3 Hr H1 H2 P3 H3) as [H H']. split; [exact H|]. intros Nd. exact (H' Nd svd Hsvd). Qed.
End core.
