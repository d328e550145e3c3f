(** Three dimensional vectors and matrices over the reals: what Eigen's Vec3d and Mat3d are in exact arithmetic. *)
From Coq Require Import Reals Lra Psatz.
Local Open Scope R_scope.

Record vec := Vec { vx : R; vy : R; vz : R }.
Record mat := Mat { m11 : R; m12 : R; m13 : R; m21 : R; m22 : R; m23 : R; m31 : R; m32 : R; m33 : R }.

Definition v0 : vec := Vec 0 0 0.
Definition vadd (u v : vec) : vec := Vec (vx u + vx v) (vy u + vy v) (vz u + vz v).
Definition vsub (u v : vec) : vec := Vec (vx u - vx v) (vy u - vy v) (vz u - vz v).
Definition vopp (u : vec) : vec := Vec (- vx u) (- vy u) (- vz u).
Definition vscale (s : R) (u : vec) : vec := Vec (s * vx u) (s * vy u) (s * vz u).
Definition dot (u v : vec) : R := vx u * vx v + vy u * vy v + vz u * vz v.
Definition cross (u v : vec) : vec :=
  Vec (vy u * vz v - vz u * vy v) (vz u * vx v - vx u * vz v) (vx u * vy v - vy u * vx v).
Definition norm (u : vec) : R := sqrt (dot u u).

Definition mI : mat := Mat 1 0 0 0 1 0 0 0 1.
Definition mvec (m : mat) (v : vec) : vec :=
  Vec (m11 m * vx v + m12 m * vy v + m13 m * vz v)
      (m21 m * vx v + m22 m * vy v + m23 m * vz v)
      (m31 m * vx v + m32 m * vy v + m33 m * vz v).
Definition mmul (a b : mat) : mat :=
  Mat (m11 a * m11 b + m12 a * m21 b + m13 a * m31 b) (m11 a * m12 b + m12 a * m22 b + m13 a * m32 b) (m11 a * m13 b + m12 a * m23 b + m13 a * m33 b)
      (m21 a * m11 b + m22 a * m21 b + m23 a * m31 b) (m21 a * m12 b + m22 a * m22 b + m23 a * m32 b) (m21 a * m13 b + m22 a * m23 b + m23 a * m33 b)
      (m31 a * m11 b + m32 a * m21 b + m33 a * m31 b) (m31 a * m12 b + m32 a * m22 b + m33 a * m32 b) (m31 a * m13 b + m32 a * m23 b + m33 a * m33 b).
Definition mT (m : mat) : mat := Mat (m11 m) (m21 m) (m31 m) (m12 m) (m22 m) (m32 m) (m13 m) (m23 m) (m33 m).
Definition mscale (s : R) (m : mat) : mat :=
  Mat (s * m11 m) (s * m12 m) (s * m13 m) (s * m21 m) (s * m22 m) (s * m23 m) (s * m31 m) (s * m32 m) (s * m33 m).
Definition madd (a b : mat) : mat :=
  Mat (m11 a + m11 b) (m12 a + m12 b) (m13 a + m13 b) (m21 a + m21 b) (m22 a + m22 b) (m23 a + m23 b) (m31 a + m31 b) (m32 a + m32 b) (m33 a + m33 b).
Definition det (m : mat) : R :=
  m11 m * (m22 m * m33 m - m23 m * m32 m) - m12 m * (m21 m * m33 m - m23 m * m31 m) + m13 m * (m21 m * m32 m - m22 m * m31 m).
Definition adj (m : mat) : mat :=
  Mat (m22 m * m33 m - m23 m * m32 m) (m13 m * m32 m - m12 m * m33 m) (m12 m * m23 m - m13 m * m22 m)
      (m23 m * m31 m - m21 m * m33 m) (m11 m * m33 m - m13 m * m31 m) (m13 m * m21 m - m11 m * m23 m)
      (m21 m * m32 m - m22 m * m31 m) (m12 m * m31 m - m11 m * m32 m) (m11 m * m22 m - m12 m * m21 m).
(** The inverse of a matrix by its cofactors; the matrices inverted by the code are rotations. *)
Definition minv (m : mat) : mat := mscale (/ det m) (adj m).

(** A rotation: orthonormal, of determinant one *)
Definition rotation (m : mat) : Prop := mmul m (mT m) = mI /\ det m = 1.

Ltac vdestruct := repeat match goal with v : vec |- _ => destruct v | m : mat |- _ => destruct m end.
Ltac vring := intros; vdestruct; cbv [vadd vsub vopp vscale mvec mmul mT mscale madd mI v0 vx vy vz m11 m12 m13 m21 m22 m23 m31 m32 m33]; f_equal; ring.

Lemma vadd_0_r v : vadd v v0 = v. Proof. vring. Qed.
Lemma vadd_0_l v : vadd v0 v = v. Proof. vring. Qed.
Lemma vadd_assoc u v w : vadd u (vadd v w) = vadd (vadd u v) w. Proof. vring. Qed.
Lemma vadd_comm u v : vadd u v = vadd v u. Proof. vring. Qed.
Lemma vadd_opp v : vadd v (vopp v) = v0. Proof. vring. Qed.
Lemma vopp_add v : vadd (vopp v) v = v0. Proof. vring. Qed.
Lemma mvec_I v : mvec mI v = v. Proof. vring. Qed.
Lemma mvec_0 m : mvec m v0 = v0. Proof. vring. Qed.
Lemma mvec_add m u v : mvec m (vadd u v) = vadd (mvec m u) (mvec m v). Proof. vring. Qed.
Lemma mvec_opp m u : mvec m (vopp u) = vopp (mvec m u). Proof. vring. Qed.
Lemma mvec_scale m s u : mvec m (vscale s u) = vscale s (mvec m u). Proof. vring. Qed.
Lemma mvec_mmul a b v : mvec (mmul a b) v = mvec a (mvec b v). Proof. vring. Qed.
Lemma mmul_assoc a b c : mmul a (mmul b c) = mmul (mmul a b) c. Proof. vring. Qed.
Lemma mmul_I_l a : mmul mI a = a. Proof. vring. Qed.
Lemma mmul_I_r a : mmul a mI = a. Proof. vring. Qed.
Lemma mT_mmul a b : mT (mmul a b) = mmul (mT b) (mT a). Proof. vring. Qed.
Lemma mT_T a : mT (mT a) = a. Proof. vring. Qed.
Lemma mT_I : mT mI = mI. Proof. vring. Qed.
Lemma vscale_vscale a b u : vscale a (vscale b u) = vscale (a * b) u. Proof. vring. Qed.
Lemma vscale_1 u : vscale 1 u = u. Proof. vring. Qed.
Lemma vscale_add s u v : vscale s (vadd u v) = vadd (vscale s u) (vscale s v). Proof. vring. Qed.
Lemma vscale_opp s u : vscale s (vopp u) = vopp (vscale s u). Proof. vring. Qed.
Lemma det_mmul a b : det (mmul a b) = det a * det b. Proof. vdestruct. cbv [det mmul m11 m12 m13 m21 m22 m23 m31 m32 m33]. ring. Qed.
Lemma det_T a : det (mT a) = det a. Proof. vdestruct. cbv [det mT m11 m12 m13 m21 m22 m23 m31 m32 m33]. ring. Qed.
Lemma adj_l a : mmul (adj a) a = mscale (det a) mI.
Proof. vdestruct. cbv [det adj mmul mscale mI m11 m12 m13 m21 m22 m23 m31 m32 m33]. f_equal; ring. Qed.
Lemma adj_r a : mmul a (adj a) = mscale (det a) mI.
Proof. vdestruct. cbv [det adj mmul mscale mI m11 m12 m13 m21 m22 m23 m31 m32 m33]. f_equal; ring. Qed.
Lemma mscale_1 a : mscale 1 a = a. Proof. vring. Qed.

(** For a rotation the cofactors are the transpose *)
Lemma rotation_adj m : rotation m -> adj m = mT m.
Proof.
  intros [H D]. rewrite <- (mmul_I_r (adj m)), <- H, mmul_assoc, adj_l, D, mscale_1, mmul_I_l. reflexivity.
Qed.
Lemma rotation_inv m : rotation m -> minv m = mT m.
Proof. intros H. unfold minv. rewrite (rotation_adj _ H). destruct H as [_ ->]. rewrite Rinv_1, mscale_1. reflexivity. Qed.
Lemma rotation_l m : rotation m -> mmul (mT m) m = mI.
Proof. intros H. rewrite <- (rotation_adj _ H), adj_l. destruct H as [_ ->]. apply mscale_1. Qed.
Lemma rotation_r m : rotation m -> mmul m (mT m) = mI.
Proof. intros [H _]. exact H. Qed.
Lemma rotation_I : rotation mI.
Proof. split; [vring|]. cbv [det mI m11 m12 m13 m21 m22 m23 m31 m32 m33]. ring. Qed.
Lemma rotation_mmul a b : rotation a -> rotation b -> rotation (mmul a b).
Proof.
  intros [Ha Da] [Hb Db]. split.
  - rewrite mT_mmul, mmul_assoc, <- (mmul_assoc a b), Hb, mmul_I_r. exact Ha.
  - rewrite det_mmul, Da, Db. ring.
Qed.
Lemma rotation_T a : rotation a -> rotation (mT a).
Proof. intros H. split; [rewrite mT_T; apply rotation_l, H|rewrite det_T; apply H]. Qed.
Lemma dot_mvec m u v : rotation m -> dot (mvec m u) (mvec m v) = dot u v.
Proof.
  intros H. assert (E : forall a b, dot (mvec m a) b = dot a (mvec (mT m) b)).
  { intros. vdestruct. cbv [dot mvec mT m11 m12 m13 m21 m22 m23 m31 m32 m33 vx vy vz]. ring. }
  rewrite E, <- mvec_mmul, (rotation_l _ H), mvec_I. reflexivity.
Qed.
Lemma vec_eq u v : vx u = vx v -> vy u = vy v -> vz u = vz v -> u = v.
Proof. destruct u, v; simpl; congruence. Qed.
Lemma dot_nonneg u : 0 <= dot u u.
Proof. unfold dot. nra. Qed.
Lemma norm_sq u : norm u * norm u = dot u u.
Proof. apply sqrt_sqrt, dot_nonneg. Qed.
Lemma norm_nonneg u : 0 <= norm u.
Proof. apply sqrt_pos. Qed.
Lemma dot_0 u : dot u u = 0 -> u = v0.
Proof. intros H. unfold dot in H. apply vec_eq; simpl; nra. Qed.
Lemma norm_0 u : norm u = 0 -> u = v0.
Proof. intros H. apply dot_0. rewrite <- norm_sq, H. ring. Qed.
Lemma norm_v0 : norm v0 = 0.
Proof. unfold norm. replace (dot v0 v0) with 0 by (cbv [dot v0 vx vy vz]; ring). apply sqrt_0. Qed.
