(** Every 3x3 matrix has a singular value decomposition, as a function: what the theorems assume of Eigen's and numpy's decompositions
    ([is_svd_of m (svd m)] for every m) can be met. Nothing in /repo is modelled here. *)
From stdpp Require Import prelude.
From Coq Require Import Reals Lra Psatz.
From Verif Require Import Lin TriangModel FitModel FitSpec PlaneProofs FitProofs P3pProofs.
From Verif Require TriangProofs.
Local Open Scope R_scope.

Lemma vec_dec (v : vec) : {v = v0} + {v <> v0}.
Proof. destruct (Req_EM_T (dot v v) 0) as [E|E]; [left; now apply dot_0|right; intros ->; apply E; vcbv; ring]. Defined.
Lemma perpendicular (v : vec) : {n | n <> v0 /\ dot n v = 0}.
Proof.
  destruct v as [a b c]. destruct (Req_EM_T a 0) as [E|E]; [exists (Vec 1 0 0); split; [intros [=]; lra|vcbv; lra]|]. exists (Vec b (- a) 0). split; [intros [=]; lra|vcbv; ring].
Defined.
Lemma dot_pos v : v <> v0 -> 0 < dot v v. Proof. intros N. pose proof (dot_nonneg v). destruct (Req_EM_T (dot v v) 0) as [E|E]; [now apply dot_0 in E|lra]. Qed.
Lemma parallel_dot u v n : cross u v = v0 -> u <> v0 -> dot n u = 0 -> dot n v = 0.
Proof.
  intros C N D. apply dot_pos in N. assert (vsub (vscale (dot u v) u) (vscale (dot u u) v) = v0) as E. { transitivity (cross u (cross u v)); [destruct u, v; vcbv; f_equal; ring|rewrite C; destruct u; vcbv; f_equal; ring]. }
  apply TriangProofs.vsub_0, (f_equal (dot n)) in E. rewrite !dot_scale_r, D, Rmult_0_r in E. symmetry in E. apply Rmult_integral in E as [E|E]; [lra|exact E].
Qed.
Definition rows (a b c : vec) : mat := Mat (vx a) (vy a) (vz a) (vx b) (vy b) (vz b) (vx c) (vy c) (vz c).
Lemma mvec_rows a b c v : mvec (rows a b c) v = Vec (dot a v) (dot b v) (dot c v). Proof. destruct a, b, c, v. reflexivity. Qed.
Lemma det_rows a b c : det (rows a b c) = dot a (cross b c). Proof. destruct a as [a1 a2 a3], b as [b1 b2 b3], c as [c1 c2 c3]. unfold det, rows, dot, cross. cbn. ring. Qed.
Lemma of_rows m : {a & {b & {c | m = rows a b c}}}.
Proof. destruct m as [a b c d e f g h i]. exists (Vec a b c), (Vec d e f), (Vec g h i). reflexivity. Defined.
Lemma kernel m : det m = 0 -> {v | v <> v0 /\ mvec m v = v0}.
Proof.
  destruct (of_rows m) as (a & b & c & ->). rewrite det_rows. intros D.
  destruct (vec_dec (cross a b)) as [C1|C1].
  2:{ exists (cross a b). split; [exact C1|]. rewrite mvec_rows. unfold v0. f_equal; [destruct a, b; vcbv; ring|destruct a, b; vcbv; ring|]. rewrite <- D. destruct a, b, c; vcbv; ring. }
  destruct (vec_dec (cross a c)) as [C2|C2].
  2:{ exists (cross a c). split; [exact C2|]. rewrite mvec_rows. unfold v0. f_equal; [destruct a, c; vcbv; ring| |destruct a, c; vcbv; ring]. transitivity (- 0); [rewrite <- D; destruct a, b, c; vcbv; ring|ring]. }
  destruct (vec_dec (cross b c)) as [C3|C3].
  2:{ exists (cross b c). split; [exact C3|]. rewrite mvec_rows. unfold v0. f_equal; [exact D|destruct b, c; vcbv; ring|destruct b, c; vcbv; ring]. }
  destruct (vec_dec a) as [->|Na].
  - destruct (vec_dec b) as [->|Nb].
    + destruct (perpendicular c) as (n & N & P). exists n. split; [exact N|]. rewrite mvec_rows, (dot_comm c n), P. unfold v0 at 3. f_equal; destruct n; vcbv; ring.
    + destruct (perpendicular b) as (n & N & P). exists n. split; [exact N|]. rewrite mvec_rows, (dot_comm c n), (dot_comm b n), P, (parallel_dot b c n C3 Nb P). unfold v0 at 2. f_equal; destruct n; vcbv; ring.
  - destruct (perpendicular a) as (n & N & P). exists n. split; [exact N|]. rewrite mvec_rows, (dot_comm a n), (dot_comm b n), (dot_comm c n), P, (parallel_dot a b n C1 Na P), (parallel_dot a c n C2 Na P). reflexivity.
Defined.
Lemma cubic_root c0 c1 c2 : {x | c0 + c1 * x + c2 * (x * x) - x * x * x = 0}.
Proof.
  set (f := fun x => c0 + c1 * x + c2 * (x * x) - x * x * x). set (B := 1 + Rabs c0 + Rabs c1 + Rabs c2).
  pose proof (Rabs_pos c0). pose proof (Rabs_pos c1). pose proof (Rabs_pos c2). assert (1 <= B) by (unfold B; lra).
  pose proof (Rle_abs c0). pose proof (Rle_abs c1). pose proof (Rle_abs c2). pose proof (Rle_abs (- c0)) as A0. pose proof (Rle_abs (- c1)) as A1. pose proof (Rle_abs (- c2)) as A2. rewrite Rabs_Ropp in A0, A1, A2.
  assert (B <= B * B) by nra. assert (1 <= B * B) by nra.
  assert (Rabs c0 + Rabs c1 * B + Rabs c2 * (B * B) <= B * B * B) as K.
  { assert (Rabs c0 <= Rabs c0 * (B * B)) by nra. assert (Rabs c1 * B <= Rabs c1 * (B * B)) by (apply Rmult_le_compat_l; lra). replace (B * B * B) with ((1 + Rabs c0 + Rabs c1 + Rabs c2) * (B * B)) by (unfold B; ring). nra. }
  assert (f B <= 0) as F1. { unfold f. assert (c1 * B <= Rabs c1 * B) by (apply Rmult_le_compat_r; lra). assert (c2 * (B * B) <= Rabs c2 * (B * B)) by (apply Rmult_le_compat_r; lra). lra. }
  assert (0 <= f (- B)) as F2. { unfold f. assert (- c2 * (B * B) <= Rabs c2 * (B * B)) by (apply Rmult_le_compat_r; lra). assert (c1 * B <= Rabs c1 * B) by (apply Rmult_le_compat_r; lra). replace (- B * - B) with (B * B) by ring. replace (B * B * - B) with (- (B * B * B)) by ring. lra. }
  destruct (IVT_cor f (- B) B) as (x & _ & E); [unfold f; reg|lra|nra|]. exists x. exact E.
Defined.
Definition unit_of (v : vec) : vec := vscale (/ norm v) v.
Lemma unit_of_unit v : v <> v0 -> dot (unit_of v) (unit_of v) = 1.
Proof. intros N. unfold unit_of. rewrite dot_scale_l, dot_scale_r, <- norm_sq. field. intros E. apply N, norm_0, E. Qed.
Lemma eigenvector m : {v & {k | dot v v = 1 /\ mvec m v = vscale k v}}.
Proof.
  destruct m as [a b c d e f g h i].
  destruct (cubic_root (det (Mat a b c d e f g h i)) (- (a * e + a * i + e * i - b * d - c * g - f * h)) (a + e + i)) as (x & E).
  destruct (kernel (Mat (a - x) b c d (e - x) f g h (i - x))) as (v & N & K). { rewrite <- E. unfold det. cbn. ring. }
  exists (unit_of v), x. split; [apply unit_of_unit; exact N|]. unfold unit_of. rewrite mvec_scale. rewrite vscale_vscale, (Rmult_comm x), <- vscale_vscale. f_equal.
  destruct v as [p q r]. vcbv. cbv [mvec vx vy vz m11 m12 m13 m21 m22 m23 m31 m32 m33 v0] in K. injection K as K1 K2 K3. f_equal; lra.
Defined.
Definition orthonormal (a b c : vec) : Prop := (dot a a = 1 /\ dot b b = 1 /\ dot c c = 1) /\ (dot a b = 0 /\ dot a c = 0 /\ dot b c = 0).
Lemma complete_one a : dot a a = 1 -> {b & {c | orthonormal a b c}}.
Proof.
  intros Ha. destruct (perpendicular a) as (n & N & P). exists (unit_of n), (cross a (unit_of n)). assert (dot (unit_of n) (unit_of n) = 1) as Hb by (apply unit_of_unit; exact N). assert (dot a (unit_of n) = 0) as Hab by (unfold unit_of; rewrite dot_scale_r, (dot_comm a n), P; ring).
  split; [split; [exact Ha|split; [exact Hb|]]|split; [exact Hab|split]].
  - rewrite lagrange, Ha, Hb, Hab. ring.
  - generalize (unit_of n). intros w. destruct a, w. vcbv. ring.
  - generalize (unit_of n). intros w. destruct a, w. vcbv. ring.
Defined.
Lemma orthonormal_rows a b c : orthonormal a b c -> mmul (rows a b c) (mT (rows a b c)) = mI.
Proof.
  intros ((A & B & C) & AB & AC & BC). transitivity (Mat (dot a a) (dot a b) (dot a c) (dot a b) (dot b b) (dot b c) (dot a c) (dot b c) (dot c c)); [destruct a as [a1 a2 a3], b as [b1 b2 b3], c as [c1 c2 c3]; unfold mmul, mT, rows, dot; cbn [m11 m12 m13 m21 m22 m23 m31 m32 m33 vx vy vz]; f_equal; ring|]. now rewrite A, B, C, AB, AC, BC.
Qed.
Lemma expand a b c v : orthonormal a b c -> v = vadd (vadd (vscale (dot a v) a) (vscale (dot b v) b)) (vscale (dot c v) c).
Proof.
  intros H. apply orthonormal_rows, orthogonal_l in H. rewrite <- (mvec_I v) at 1. rewrite <- H, mvec_mmul, mvec_rows. destruct a as [a1 a2 a3], b as [b1 b2 b3], c as [c1 c2 c3]. generalize (dot (Vec a1 a2 a3) v), (dot (Vec b1 b2 b3) v), (dot (Vec c1 c2 c3) v). intros. unfold rows, mT, mvec, vadd, vscale. cbn. f_equal; ring.
Qed.
(** A basis of orthogonal directions whose images are orthogonal *)
Definition principal (m : mat) (a b c : vec) : Prop := orthonormal a b c /\ dot (mvec m a) (mvec m b) = 0 /\ dot (mvec m a) (mvec m c) = 0 /\ dot (mvec m b) (mvec m c) = 0.
Lemma quadratic_root p q r : {x & {y | x * x + y * y <> 0 /\ (q * x + r * y) * x = (p * x + q * y) * y}}.
Proof.
  set (d := (p - r) / 2). set (s := sqrt (d * d + q * q)). assert (s * s = d * d + q * q) as S by (apply sqrt_sqrt; nra).
  destruct (Req_EM_T q 0) as [E|E]; [exists 1, 0; subst q; split; [lra|ring]|]. exists q, (s - d). pose proof (Rsqr_pos_lt q E) as Q. unfold Rsqr in Q. split; [pose proof (Rle_0_sqr (s - d)) as Q'; unfold Rsqr in Q'; lra|]. unfold d in *. nra.
Defined.
Lemma principal_exists m : {a & {b & {c | principal m a b c}}}.
Proof.
  destruct (eigenvector (mmul (mT m) m)) as (a & k & Ha & Ea). destruct (complete_one a Ha) as (u & w & O). destruct O as ((_ & Hu & Hw) & Hau & Haw & Huw).
  destruct (quadratic_root (dot (mvec m u) (mvec m u)) (dot (mvec m u) (mvec m w)) (dot (mvec m w) (mvec m w))) as (x & y & N & Q).
  assert (0 < x * x + y * y) as P by nra. set (s := / sqrt (x * x + y * y)). assert (s * s * (x * x + y * y) = 1) as S. { unfold s. rewrite <- (sqrt_sqrt (x * x + y * y)) at 3 by lra. field. intros Z. apply sqrt_eq_0 in Z; lra. }
  assert (forall v, dot (mvec m a) (mvec m v) = k * dot a v) as Ka.
  { intros v. rewrite (dot_comm (mvec m a)). rewrite <- (dot_mvec m v (mvec m a)) || idtac. transitivity (dot v (mvec (mT m) (mvec m a))); [clear; destruct m as [m1 m2 m3 m4 m5 m6 m7 m8 m9], v as [v1 v2 v3], a as [a1 a2 a3]; unfold mT, mvec, dot; cbn; ring|]. rewrite <- mvec_mmul, Ea, dot_scale_r, (dot_comm v a). reflexivity. }
  exists a, (vadd (vscale (s * x) u) (vscale (s * y) w)), (vadd (vscale (- (s * y)) u) (vscale (s * x) w)).
  assert (forall p q p' q' e f, dot (vadd (vscale p e) (vscale q f)) (vadd (vscale p' e) (vscale q' f)) = p * p' * dot e e + (p * q' + q * p') * dot e f + q * q' * dot f f) as Dd by (intros; destruct e, f; vcbv; ring).
  assert (forall p q e f, dot a (vadd (vscale p e) (vscale q f)) = p * dot a e + q * dot a f) as Da by (intros; destruct a, e, f; vcbv; ring).
  split; [split; [split; [exact Ha|split]|split; [|split]]|split; [|split]].
  - rewrite Dd, Hu, Hw, Huw. lra.
  - rewrite Dd, Hu, Hw, Huw. lra.
  - rewrite Da, Hau, Haw. ring.
  - rewrite Da, Hau, Haw. ring.
  - rewrite Dd, Hu, Hw, Huw. ring.
  - rewrite Ka, Da, Hau, Haw. ring.
  - rewrite Ka, Da, Hau, Haw. ring.
  - rewrite !mvec_add, !mvec_scale, Dd. transitivity (s * s * ((dot (mvec m u) (mvec m w) * x + dot (mvec m w) (mvec m w) * y) * x - (dot (mvec m u) (mvec m u) * x + dot (mvec m u) (mvec m w) * y) * y)); [ring|rewrite Q; ring].
Defined.
Lemma principal_swap12 m a b c : principal m a b c -> principal m b a c.
Proof. intros (((A & B & C) & AB & AC & BC) & E1 & E2 & E3). unfold principal, orthonormal. rewrite (dot_comm b a), (dot_comm (mvec m b) (mvec m a)). tauto. Qed.
Lemma principal_swap23 m a b c : principal m a b c -> principal m a c b.
Proof. intros (((A & B & C) & AB & AC & BC) & E1 & E2 & E3). unfold principal, orthonormal. rewrite (dot_comm c b), (dot_comm (mvec m c) (mvec m b)). tauto. Qed.
Lemma principal_sorted m : {a & {b & {c | principal m a b c /\ norm (mvec m a) >= norm (mvec m b) /\ norm (mvec m b) >= norm (mvec m c)}}}.
Proof.
  destruct (principal_exists m) as (a & b & c & P). pose proof (principal_swap12 _ _ _ _ P) as P1. pose proof (principal_swap23 _ _ _ _ P) as P2. pose proof (principal_swap23 _ _ _ _ P1) as P3. pose proof (principal_swap12 _ _ _ _ P2) as P4. pose proof (principal_swap23 _ _ _ _ P4) as P5.
  destruct (Rle_lt_dec (norm (mvec m a)) (norm (mvec m b))) as [L1|L1]; destruct (Rle_lt_dec (norm (mvec m b)) (norm (mvec m c))) as [L2|L2]; destruct (Rle_lt_dec (norm (mvec m a)) (norm (mvec m c))) as [L3|L3].
  - exists c, b, a. split; [now apply principal_swap12|lra].
  - exists c, b, a. split; [now apply principal_swap12|lra].
  - exists b, c, a. split; [assumption|lra].
  - exists b, a, c. split; [assumption|lra].
  - exists c, a, b. split; [assumption|lra].
  - exists a, c, b. split; [assumption|lra].
  - exists c, a, b. split; [assumption|lra].
  - exists a, b, c. split; [assumption|lra].
Defined.
(** Orthonormal directions of the images *)
Lemma images_directions x y z : dot x y = 0 -> dot x z = 0 -> dot y z = 0 -> norm x >= norm y -> norm y >= norm z ->
  {a & {b & {c | orthonormal a b c /\ x = vscale (norm x) a /\ y = vscale (norm y) b /\ z = vscale (norm z) c}}}.
Proof.
  intros Hxy Hxz Hyz L1 L2. pose proof (norm_nonneg x) as Px. pose proof (norm_nonneg y) as Py. pose proof (norm_nonneg z) as Pz.
  assert (forall v, norm v = 0 -> v = v0) as Z by (intros v E; apply norm_0; exact E).
  assert (forall v, norm v <> 0 -> dot (vscale (/ norm v) v) (vscale (/ norm v) v) = 1) as U by (intros v Nv; rewrite dot_scale_l, dot_scale_r, <- norm_sq; field; exact Nv).
  assert (forall v, norm v <> 0 -> v = vscale (norm v) (vscale (/ norm v) v)) as I by (intros v Nv; rewrite vscale_vscale, Rinv_r, vscale_1 by exact Nv; reflexivity).
  destruct (Req_EM_T (norm x) 0) as [Ex|Nx].
  { exists (Vec 1 0 0), (Vec 0 1 0), (Vec 0 0 1). assert (norm y = 0) as Ey by lra. assert (norm z = 0) as Ez by lra. rewrite Ex, Ey, Ez, (Z _ Ex), (Z _ Ey), (Z _ Ez). split; [unfold orthonormal; vcbv; repeat split; ring|]. vcbv. repeat split; f_equal; ring. }
  destruct (Req_EM_T (norm y) 0) as [Ey|Ny].
  { destruct (complete_one _ (U x Nx)) as (b & c & O). exists (vscale (/ norm x) x), b, c. assert (norm z = 0) as Ez by lra. rewrite Ey, Ez, (Z _ Ey), (Z _ Ez). split; [exact O|]. split; [now apply I|]. split; [destruct b|destruct c]; vcbv; f_equal; ring. }
  assert (dot (vscale (/ norm x) x) (vscale (/ norm y) y) = 0) as Xy by (rewrite dot_scale_l, dot_scale_r, Hxy; ring).
  destruct (Req_EM_T (norm z) 0) as [Ez|Nz].
  { exists (vscale (/ norm x) x), (vscale (/ norm y) y), (cross (vscale (/ norm x) x) (vscale (/ norm y) y)). rewrite Ez, (Z _ Ez). split; [|split; [now apply I|split; [now apply I|]]].
    - split; [split; [now apply U|split; [now apply U|]]|split; [exact Xy|]]; [rewrite lagrange, Xy, !U by assumption; ring|]. generalize (vscale (/ norm x) x), (vscale (/ norm y) y). intros e f. destruct e, f. vcbv. split; ring.
    - generalize (cross (vscale (/ norm x) x) (vscale (/ norm y) y)). intros e. destruct e. vcbv. f_equal; ring. }
  exists (vscale (/ norm x) x), (vscale (/ norm y) y), (vscale (/ norm z) z). split; [|split; [now apply I|split; now apply I]]. split; [split; [now apply U|split; now apply U]|]. split; [exact Xy|]. rewrite !dot_scale_l, !dot_scale_r, Hxz, Hyz. split; ring.
Defined.
Theorem svd_exists m : {f | is_svd_of m f}.
Proof.
  destruct (principal_sorted m) as (a & b & c & P & L1 & L2). destruct P as (O & E1 & E2 & E3). destruct (images_directions _ _ _ E1 E2 E3 L1 L2) as (u & v & w & O' & Eu & Ev & Ew).
  exists (mT (rows u v w), (norm (mvec m a), norm (mvec m b), norm (mvec m c)), rows a b c). unfold is_svd_of. pose proof (orthonormal_rows _ _ _ O) as Hr. pose proof (orthonormal_rows _ _ _ O') as Hr'.
  split; [now apply orthogonal_T|]. split; [exact Hr|]. split; [|pose proof (norm_nonneg (mvec m c)); lra].
  transitivity (mmul (mmul m (mT (rows a b c))) (rows a b c)); [rewrite <- mmul_assoc, (orthogonal_l _ Hr), mmul_I_r; reflexivity|]. rewrite mmul_assoc. f_equal.
  transitivity (mT (rows (mvec m a) (mvec m b) (mvec m c))); [destruct m as [m1 m2 m3 m4 m5 m6 m7 m8 m9], a as [a1 a2 a3], b as [b1 b2 b3], c as [c1 c2 c3]; unfold rows, mT, mmul, mvec; cbn [m11 m12 m13 m21 m22 m23 m31 m32 m33 vx vy vz]; f_equal; ring|].
  rewrite Eu, Ev, Ew at 1. generalize (norm (mvec m a)), (norm (mvec m b)), (norm (mvec m c)). intros x y z. clear. destruct u as [u1 u2 u3], v as [v1 v2 v3], w as [w1 w2 w3]. unfold rows, mT, mmul, vscale. cbn [m11 m12 m13 m21 m22 m23 m31 m32 m33 vx vy vz]. f_equal; ring.
Defined.
Definition real_svd : svd_of := fun m => proj1_sig (svd_exists m).
Theorem real_svd_right m : is_svd_of m (real_svd m).
Proof. exact (proj2_sig (svd_exists m)). Qed.
Print Assumptions real_svd_right.
