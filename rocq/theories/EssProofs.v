(** Proofs about essential matrices and relative poses *)
From stdpp Require Import prelude.
From Coq Require Import Reals Lra Psatz.
From Verif Require Import Base Lin TriangModel FitModel FitSpec PlaneProofs FitProofs P3pModel P3pProofs SvdProofs EssModel EssSpec.
From Verif Require TriangProofs TriangProps TriangSpec NposeProofs.
Local Open Scope R_scope.

Lemma skew_cross t y : mvec (skew t) y = cross t y. Proof. destruct t, y. unfold skew, mvec, cross. cbn. f_equal; ring. Qed.
Lemma essential_cross r t y : mvec (essential r t) y = cross t (mvec r y). Proof. unfold essential. now rewrite mvec_mmul, skew_cross. Qed.
Lemma skew_gram t : mmul (skew t) (mT (skew t)) = madd (mscale (dot t t) mI) (mscale (-1) (outer t t)).
Proof. destruct t as [a b c]. unfold skew, mmul, mT, madd, mscale, mI, outer, dot. cbn. f_equal; ring. Qed.
Lemma essential_gram k r t : rotation r -> dot t t = 1 -> mmul (mscale k (essential r t)) (mT (mscale k (essential r t))) = mscale (k * k) (madd mI (mscale (-1) (outer t t))).
Proof.
  intros [Hr _] Ht. transitivity (mscale (k * k) (mmul (essential r t) (mT (essential r t)))); [generalize (essential r t); clear; vring|]. f_equal. unfold essential. rewrite mT_mmul, mmul_assoc, <- (mmul_assoc (skew t)), Hr, mmul_I_r, skew_gram, Ht, mscale_1. reflexivity.
Qed.
Lemma mT_outer_vec u t : mmul (mT u) (mmul (outer t t) u) = outer (mvec (mT u) t) (mvec (mT u) t).
Proof. destruct u as [a b c d e f g h i], t as [x y z]. unfold mT, mmul, outer, mvec. cbn [m11 m12 m13 m21 m22 m23 m31 m32 m33 vx vy vz]. f_equal; ring. Qed.
Lemma orthogonal_dot u t : mmul u (mT u) = mI -> dot (mvec (mT u) t) (mvec (mT u) t) = dot t t.
Proof.
  intros H. transitivity (dot t (mvec (mmul u (mT u)) t)); [|now rewrite H, mvec_I]. clear H. destruct u as [a b c d e f g h i], t as [x y z]. unfold mT, mmul, dot, mvec. cbn [m11 m12 m13 m21 m22 m23 m31 m32 m33 vx vy vz]. ring.
Qed.
Lemma singular_values k r t u s1 s2 s3 vh : is_svd_of (mscale k (essential r t)) (u, (s1, s2, s3), vh) -> rotation r -> dot t t = 1 -> k <> 0 ->
  s1 = Rabs k /\ s2 = Rabs k /\ s3 = 0 /\ (t = last_column u \/ t = vopp (last_column u)).
Proof.
  intros (Hu & Hv & Em & S12 & S23 & S3) Hr Ht Nk. pose proof (essential_gram k r t Hr Ht) as G. rewrite Em in G. clear Em.
  set (d := Mat s1 0 0 0 s2 0 0 0 s3) in *. assert (mmul (mmul u (mmul d vh)) (mT (mmul u (mmul d vh))) = mmul u (mmul (mmul d (mT d)) (mT u))) as E1.
  { rewrite !mT_mmul, !mmul_assoc. rewrite <- (mmul_assoc (mmul u d) vh), Hv, mmul_I_r. reflexivity. }
  rewrite E1 in G. clear E1. set (w := mvec (mT u) t). assert (dot w w = 1) as Hw by (unfold w; now rewrite orthogonal_dot).
  assert (mmul d (mT d) = mscale (k * k) (madd mI (mscale (-1) (outer w w)))) as D.
  { transitivity (mmul (mT u) (mmul (mmul u (mmul (mmul d (mT d)) (mT u))) u)).
    - rewrite !mmul_assoc, (orthogonal_l u Hu), mmul_I_l. rewrite <- (mmul_assoc _ (mT u) u), (orthogonal_l u Hu), mmul_I_r. reflexivity.
    - rewrite G. transitivity (mscale (k * k) (madd (mmul (mT u) (mmul mI u)) (mscale (-1) (mmul (mT u) (mmul (outer t t) u))))); [generalize (k * k), (outer t t); clear; vring|]. rewrite mmul_I_l, (orthogonal_l u Hu), mT_outer_vec. reflexivity. }
  assert (t = mvec u w) as Et by (unfold w; rewrite <- mvec_mmul, Hu, mvec_I; reflexivity). clearbody w. clear G Hr Ht Hv. subst t.
  destruct w as [w1 w2 w3]. unfold d, mmul, mT, mscale, madd, mI, outer in D. cbn [m11 m12 m13 m21 m22 m23 m31 m32 m33 vx vy vz] in D. injection D as D11 D12 D13 _ D22 D23 _ _ D33.
  unfold dot in Hw. cbn [vx vy vz] in Hw. assert (0 < k * k) as Pk by (pose proof (Rsqr_pos_lt k Nk) as Q; exact Q). assert (w1 * w2 = 0) as P12 by nra. assert (w1 * w3 = 0) as P13 by nra. assert (w2 * w3 = 0) as P23 by nra.
  assert (s1 * s1 >= s2 * s2 /\ s2 * s2 >= s3 * s3) as [Q12 Q23] by (split; nra). assert (s1 * s1 = k * k * (1 - w1 * w1)) as F1 by lra. assert (s2 * s2 = k * k * (1 - w2 * w2)) as F2 by lra. assert (s3 * s3 = k * k * (1 - w3 * w3)) as F3 by lra. clear D11 D22 D33 D12 D13 D23.
  assert (w1 = 0) as Z1. { apply Rmult_integral in P12 as [Z|Z]; [exact Z|]. apply Rmult_integral in P13 as [Z'|Z']; [exact Z'|]. subst w2 w3. assert (w1 * w1 = 1) as U by lra. rewrite U in F1. nra. }
  assert (w2 = 0) as Z2. { apply Rmult_integral in P23 as [Z|Z]; [exact Z|]. subst w1 w3. assert (w2 * w2 = 1) as U by lra. rewrite U in F2. nra. }
  subst w1 w2. assert (w3 * w3 = 1) as U by lra. rewrite U in F3. assert (s1 * s1 = k * k) as F1' by lra. assert (s2 * s2 = k * k) as F2' by lra. clear F1 F2.
  assert (forall s, s >= 0 -> s * s = k * k -> s = Rabs k) as A. { intros s Ps Es. pose proof (Rabs_pos k). assert (Rabs k * Rabs k = k * k) by (rewrite <- Rabs_mult; apply Rabs_pos_eq; lra). nra. }
  split; [apply A; lra|]. split; [apply A; lra|]. split; [nra|]. assert (w3 = 1 \/ w3 = -1) as [-> | ->]. { assert ((w3 - 1) * (w3 + 1) = 0) as I by lra. apply Rmult_integral in I as [I|I]; [left|right]; lra. }
  - left. destruct u. unfold mvec, last_column. cbn. f_equal; ring.
  - right. destruct u. unfold mvec, last_column, vopp. cbn. f_equal; ring.
Qed.
(** *** The four decompositions *)
Definition flip : mat := Mat 1 0 0 0 1 0 0 0 (-1).
Lemma flip_orth : mmul flip (mT flip) = mI. Proof. unfold flip, mmul, mT, mI. cbn. f_equal; ring. Qed.
Lemma flip_column_rotation u : mmul u (mT u) = mI -> rotation (flip_column u) /\ (flip_column u = u \/ flip_column u = mmul u flip).
Proof.
  intros H. pose proof (orthogonal_det u H) as D. unfold flip_column. destruct (Rlt_dec (det u) 0) as [L|L].
  - assert (Mat (m11 u) (m12 u) (- m13 u) (m21 u) (m22 u) (- m23 u) (m31 u) (m32 u) (- m33 u) = mmul u flip) as E by (destruct u; unfold mmul, flip; cbn; f_equal; ring). rewrite E. split; [|now right]. apply rotation_of_orthogonal; [apply orthogonal_mmul; [exact H|apply flip_orth]|]. rewrite det_mmul. unfold flip at 1. unfold det at 2. cbn. lra.
  - split; [|now left]. apply rotation_of_orthogonal; [exact H|]. nra.
Qed.
Lemma flip_row_rotation v : mmul v (mT v) = mI -> rotation (flip_row v) /\ (flip_row v = v \/ flip_row v = mmul flip v).
Proof.
  intros H. pose proof (orthogonal_det v H) as D. unfold flip_row. destruct (Rlt_dec (det v) 0) as [L|L].
  - assert (Mat (m11 v) (m12 v) (m13 v) (m21 v) (m22 v) (m23 v) (- m31 v) (- m32 v) (- m33 v) = mmul flip v) as E by (destruct v; unfold mmul, flip; cbn; f_equal; ring). rewrite E. split; [|now right]. apply rotation_of_orthogonal; [apply orthogonal_mmul; [apply flip_orth|exact H]|]. rewrite det_mmul. unfold flip at 1. unfold det at 1. cbn. lra.
  - split; [|now left]. apply rotation_of_orthogonal; [exact H|]. nra.
Qed.
Lemma W_rotation : rotation W. Proof. unfold rotation, W, mmul, mT, mI, det. cbn. split; [f_equal; ring|ring]. Qed.
Lemma last_column_mvec u : last_column u = mvec u (Vec 0 0 1). Proof. destruct u. unfold last_column, mvec. cbn. f_equal; ring. Qed.
Lemma skew_moved u y : rotation u -> skew (mvec u y) = mmul u (mmul (skew y) (mT u)).
Proof.
  intros Hu. apply mvec_inj'. intros v. rewrite skew_cross, !mvec_mmul, skew_cross. rewrite <- cross_rotation by exact Hu. f_equal. rewrite <- mvec_mmul. destruct Hu as [-> _]. now rewrite mvec_I.
Qed.
Lemma essential_opp r t : essential r (vopp t) = mscale (-1) (essential r t).
Proof. apply mvec_inj'. intros v. rewrite TriangProofs.mvec_mscale, !essential_cross. generalize (mvec r v). intros w. destruct t, w. vcbv. f_equal; ring. Qed.
Lemma normalized_of_unit v : dot v v = 1 -> normalized v = v.
Proof. intros H. unfold normalized. destruct (Req_EM_T (dot v v) 0) as [E|_]; [lra|]. rewrite H, sqrt_1, Rinv_1. apply vscale_1. Qed.
Lemma mscale_mscale a b m : mscale a (mscale b m) = mscale (a * b) m. Proof. vring. Qed.
Lemma four svd k r t : is_svd_of (mscale k (essential r t)) (svd (mscale k (essential r t))) -> rotation r -> dot t t = 1 -> k <> 0 ->
  exists ra rb t0, decompositions svd (mscale k (essential r t)) = [(ra, t0); (rb, t0); (ra, vopp t0); (rb, vopp t0)] /\ rotation ra /\ rotation rb /\ dot t0 t0 = 1 /\
    essential ra t0 = mscale (- (k / Rabs k)) (essential r t) /\ essential rb t0 = mscale (k / Rabs k) (essential r t).
Proof.
  intros Hs Hr Ht Nk. unfold decompositions. set (E := mscale k (essential r t)) in *. destruct (svd E) as [[u [[s1 s2] s3]] vh] eqn:Es. pose proof Hs as (Hu & Hv & Em & _). destruct (singular_values k r t u s1 s2 s3 vh Hs Hr Ht Nk) as (-> & -> & -> & _).
  destruct (flip_column_rotation u Hu) as [HU EU]. destruct (flip_row_rotation vh Hv) as [HV EV]. set (U := flip_column u) in *. set (V := flip_row vh) in *. set (a := Rabs k) in *. assert (a <> 0) as Na by (unfold a; now apply Rabs_no_R0).
  assert (E = mmul U (mmul (Mat a 0 0 0 a 0 0 0 0) V)) as EE.
  { rewrite Em. assert (mmul (Mat a 0 0 0 a 0 0 0 0) V = mmul (Mat a 0 0 0 a 0 0 0 0) vh) as -> by (destruct EV as [-> | ->]; [reflexivity|]; clear; destruct vh; unfold flip, mmul; cbn; f_equal; ring). destruct EU as [-> | ->]; [reflexivity|]. rewrite <- (mmul_assoc u flip). f_equal. generalize vh. clear. intros vh. destruct vh. unfold flip, mmul; cbn; f_equal; ring. }
  assert (dot (last_column U) (last_column U) = 1) as Hl. { rewrite last_column_mvec. transitivity (dot (mvec (mT (mT U)) (Vec 0 0 1)) (mvec (mT (mT U)) (Vec 0 0 1))); [now rewrite mT_T|]. rewrite orthogonal_dot; [unfold dot; cbn; ring|]. rewrite mT_T. apply orthogonal_l, HU. }
  assert (dot (vopp (last_column U)) (vopp (last_column U)) = 1) as Hl'. { rewrite <- Hl. generalize (last_column U). intros w. destruct w. vcbv. ring. }
  exists (mmul U (mmul W V)), (mmul U (mmul (mT W) V)), (last_column U). rewrite !normalized_of_unit by assumption. split; [reflexivity|].
  split; [repeat apply rotation_mmul; auto using W_rotation|]. split; [repeat apply rotation_mmul; auto using rotation_T, W_rotation|]. split; [exact Hl|].
  assert (forall w, essential (mmul U (mmul w V)) (last_column U) = mmul U (mmul (mmul (skew (Vec 0 0 1)) w) V)) as Eg.
  { intros w. unfold essential. rewrite last_column_mvec, skew_moved by exact HU. rewrite !mmul_assoc. rewrite <- (mmul_assoc _ (mT U) U), (orthogonal_l U (proj1 HU)), mmul_I_r. reflexivity. }
  assert (mmul U (mmul (Mat 1 0 0 0 1 0 0 0 0) V) = mscale (k / a) (essential r t)) as E1.
  { transitivity (mscale (/ a) E); [rewrite EE; transitivity (mscale (/ a * a) (mmul U (mmul (Mat 1 0 0 0 1 0 0 0 0) V))); [rewrite Rinv_l, mscale_1 by exact Na; reflexivity|]|].
    - generalize (/ a) as b. clear. intros b. destruct U as [u1 u2 u3 u4 u5 u6 u7 u8 u9], V as [v1 v2 v3 v4 v5 v6 v7 v8 v9]. unfold mscale, mmul. cbn [m11 m12 m13 m21 m22 m23 m31 m32 m33]. f_equal; ring.
    - unfold E. rewrite mscale_mscale. f_equal. unfold Rdiv. ring. }
  split.
  - rewrite Eg. transitivity (mscale (-1) (mmul U (mmul (Mat 1 0 0 0 1 0 0 0 0) V))); [|rewrite E1, mscale_mscale; f_equal; unfold Rdiv; ring]. generalize U, V. clear. intros u v. destruct u as [u1 u2 u3 u4 u5 u6 u7 u8 u9], v as [v1 v2 v3 v4 v5 v6 v7 v8 v9]. unfold mscale, mmul, skew, W. cbn [m11 m12 m13 m21 m22 m23 m31 m32 m33 vx vy vz]. f_equal; ring.
  - rewrite Eg, <- E1. f_equal. f_equal. unfold mmul, skew, W, mT. cbn [m11 m12 m13 m21 m22 m23 m31 m32 m33 vx vy vz]. f_equal; ring.
Qed.
(** *** No others *)
Lemma same_null k r t r' t' : rotation r -> rotation r' -> dot t t = 1 -> dot t' t' = 1 -> essential r' t' = mscale k (essential r t) -> (k = 1 \/ k = -1) /\ (t' = t \/ t' = vopp t).
Proof.
  intros Hr Hr' Ht Ht' E. pose proof (essential_gram 1 r' t' Hr' Ht') as G'. pose proof (essential_gram k r t Hr Ht) as G. rewrite mscale_1 in G'. rewrite E, G in G'. clear G E. rewrite Rmult_1_r, mscale_1 in G'.
  assert (forall p q : vec, madd mI (mscale (-1) (outer p p)) = Mat (1 - vx p * vx p) (- (vx p * vy p)) (- (vx p * vz p)) (- (vy p * vx p)) (1 - vy p * vy p) (- (vy p * vz p)) (- (vz p * vx p)) (- (vz p * vy p)) (1 - vz p * vz p)) as Ex by (intros p _; unfold madd, mI, mscale, outer; cbn; f_equal; ring). rewrite !Ex in G' by exact t. clear Ex.
  destruct t as [x y z], t' as [x' y' z']. unfold mscale in G'. cbn [m11 m12 m13 m21 m22 m23 m31 m32 m33 vx vy vz] in G'. injection G' as A11 A12 A13 A21 A22 A23 A31 A32 A33. unfold dot in *. cbn [vx vy vz] in *.
  assert (k * k = 1) as K by nra. split; [assert ((k - 1) * (k + 1) = 0) as I by lra; apply Rmult_integral in I as [I|I]; [left|right]; lra|]. rewrite K in *.
  set (c := x * x' + y * y' + z * z'). assert (c * c = 1) as C. { unfold c. replace ((x * x' + y * y' + z * z') * (x * x' + y * y' + z * z')) with (x * x * (x' * x') + y * y * (y' * y') + z * z * (z' * z') + 2 * ((x * y) * (x' * y')) + 2 * ((x * z) * (x' * z')) + 2 * ((y * z) * (y' * z'))) by ring. replace (x' * x') with (x * x) by lra. replace (y' * y') with (y * y) by lra. replace (z' * z') with (z * z) by lra. replace (x' * y') with (x * y) by lra. replace (x' * z') with (x * z) by lra. replace (y' * z') with (y * z) by lra. transitivity ((x * x + y * y + z * z) * (x * x + y * y + z * z)); [ring|rewrite Ht; ring]. }
  assert ((c - 1) * (c + 1) = 0) as I by lra. assert ((x' - c * x) * (x' - c * x) + (y' - c * y) * (y' - c * y) + (z' - c * z) * (z' - c * z) = 0) as Q. { transitivity ((x' * x' + y' * y' + z' * z') - 2 * c * (x * x' + y * y' + z * z') + c * c * (x * x + y * y + z * z)); [ring|]. fold c. rewrite Ht, Ht'. lra. }
  assert (x' = c * x /\ y' = c * y /\ z' = c * z) as (Ex' & Ey' & Ez'). { pose proof (Rle_0_sqr (x' - c * x)) as Q1. pose proof (Rle_0_sqr (y' - c * y)) as Q2. pose proof (Rle_0_sqr (z' - c * z)) as Q3. unfold Rsqr in *. repeat split; apply Rminus_diag_uniq; apply Rsqr_0_uniq; unfold Rsqr; lra. }
  apply Rmult_integral in I as [I|I]; [left; assert (c = 1) as Ec by lra; rewrite Ec in *; f_equal; lra|right; assert (c = -1) as Ec by lra; rewrite Ec in *; unfold vopp; cbn; f_equal; lra].
Qed.
Lemma perp_zero t w : dot t t = 1 -> dot t w = 0 -> cross t w = v0 -> w = v0.
Proof. intros Ht D C. apply dot_0. assert (dot (cross t w) (cross t w) = 0) as E by (rewrite C; vcbv; ring). rewrite lagrange, Ht, D in E. lra. Qed.
Lemma essential_inj r r' t : rotation r -> rotation r' -> dot t t = 1 -> essential r t = essential r' t -> r = r'.
Proof.
  intros Hr Hr' Ht E. assert (forall x, cross t (mvec r x) = cross t (mvec r' x)) as C by (intros x; rewrite <- !essential_cross, E; reflexivity).
  assert (forall r, rotation r -> dot (mvec (mT r) t) (mvec (mT r) t) = 1) as Un by (intros q Hq; rewrite orthogonal_dot; [exact Ht|apply Hq]).
  assert (forall (r : mat) x, dot t (mvec r x) = dot (mvec (mT r) t) x) as Tr by (intros q x; destruct q as [a b c d e f g h i], x as [x y z], t as [p q s]; unfold mT, mvec, dot; cbn; ring).
  destruct (complete_one (mvec (mT r) t) (Un r Hr)) as (b & c & (_ & Hb & Hc) & Hnb & Hnc & Hbc).
  (* r' n is along t *)
  set (n := mvec (mT r) t) in *. assert (cross t (mvec r' n) = v0) as Cn. { rewrite <- C. unfold n. rewrite <- mvec_mmul. destruct Hr as [-> _]. rewrite mvec_I. destruct t. vcbv. f_equal; ring. }
  assert (n = vscale (dot t (mvec r' n)) (mvec (mT r') t)) as En.
  { assert (mvec r' n = vscale (dot t (mvec r' n)) t) as E'. { apply TriangProofs.vsub_0, (perp_zero t); [exact Ht| |]; [rewrite NposeProofs.dot_vsub, dot_scale_r, Ht; ring|]. transitivity (vsub (cross t (mvec r' n)) (vscale (dot t (mvec r' n)) (cross t t))); [generalize (mvec r' n), (dot t (mvec r' n)); clear; intros w s; destruct t, w; vcbv; f_equal; ring|]. rewrite Cn. generalize (dot t (mvec r' n)). clear. intros s. destruct t. vcbv. f_equal; ring. }
    rewrite <- mvec_scale, <- E', <- mvec_mmul, (orthogonal_l r' (proj1 Hr')), mvec_I. reflexivity. }
  set (s := dot t (mvec r' n)) in *. assert (s <> 0) as Ns. { intros Z. rewrite Z in En. pose proof (Un r Hr) as U. fold n in U. rewrite En in U. rewrite dot_scale_l in U. lra. }
  assert (forall x, dot n x = 0 -> mvec r x = mvec r' x) as Same.
  { intros x Dx. apply TriangProofs.vsub_0, (perp_zero t); [exact Ht| |].
    - rewrite NposeProofs.dot_vsub, (Tr r), (Tr r'). fold n. rewrite Dx. rewrite En, dot_scale_l in Dx. apply Rmult_integral in Dx as [Dx|Dx]; [contradiction|]. rewrite Dx. ring.
    - transitivity (vsub (cross t (mvec r x)) (cross t (mvec r' x))); [generalize (mvec r x), (mvec r' x); clear; intros p q; destruct t, p, q; vcbv; f_equal; ring|]. rewrite C. apply TriangProofs.vsub_self. }
  apply (two_directions r r' b c Hr Hr'); [now apply Same|now apply Same|]. intros Z. assert (dot (cross b c) (cross b c) = 0) as Z' by (rewrite Z; vcbv; ring). rewrite lagrange, Hb, Hc, Hbc in Z'. lra.
Qed.
Lemma sign_of k : k <> 0 -> k / Rabs k = 1 \/ k / Rabs k = -1.
Proof. intros N. destruct (Rcase_abs k) as [L|L]; [right; rewrite Rabs_left by exact L; field; exact N|left; rewrite Rabs_right by exact L; field; exact N]. Qed.
Lemma all_found svd k r t r' t' c : is_svd_of (mscale k (essential r t)) (svd (mscale k (essential r t))) -> rotation r -> dot t t = 1 -> k <> 0 -> rotation r' -> dot t' t' = 1 ->
  essential r' t' = mscale c (mscale k (essential r t)) -> (r', t') ∈ decompositions svd (mscale k (essential r t)).
Proof.
  intros Hs Hr Ht Nk Hr' Ht' E. destruct (four svd k r t Hs Hr Ht Nk) as (ra & rb & t0 & -> & Ha & Hb & H0 & Ea & Eb). rewrite mscale_mscale in E.
  destruct (sign_of k Nk) as [S|S]; rewrite S in Ea, Eb.
  - replace (- (1)) with (-1) in Ea by ring. rewrite mscale_1 in Eb. rewrite <- Eb in E, Ea. destruct (same_null _ _ _ _ _ Hb Hr' H0 Ht' E) as [Ek [-> | ->]]; (destruct Ek as [Ek|Ek]; rewrite Ek in E).
    + rewrite mscale_1 in E. apply essential_inj in E; [|assumption..]. subst. set_solver.
    + rewrite <- Ea in E. apply essential_inj in E; [|assumption..]. subst. set_solver.
    + rewrite essential_opp in E. apply (f_equal (mscale (-1))) in E. rewrite !mscale_mscale in E. replace (-1 * -1) with 1 in E by ring. rewrite mscale_1, Rmult_1_r, <- Ea in E. apply essential_inj in E; [|assumption..]. subst. set_solver.
    + rewrite essential_opp in E. apply (f_equal (mscale (-1))) in E. rewrite !mscale_mscale in E. replace (-1 * -1) with 1 in E by ring. rewrite !mscale_1 in E. apply essential_inj in E; [|assumption..]. subst. set_solver.
  - replace (- -1) with 1 in Ea by ring. rewrite mscale_1 in Ea. rewrite <- Ea in E, Eb. destruct (same_null _ _ _ _ _ Ha Hr' H0 Ht' E) as [Ek [-> | ->]]; (destruct Ek as [Ek|Ek]; rewrite Ek in E).
    + rewrite mscale_1 in E. apply essential_inj in E; [|assumption..]. subst. set_solver.
    + rewrite <- Eb in E. apply essential_inj in E; [|assumption..]. subst. set_solver.
    + rewrite essential_opp in E. apply (f_equal (mscale (-1))) in E. rewrite !mscale_mscale in E. replace (-1 * -1) with 1 in E by ring. rewrite mscale_1, Rmult_1_r, <- Eb in E. apply essential_inj in E; [|assumption..]. subst. set_solver.
    + rewrite essential_opp in E. apply (f_equal (mscale (-1))) in E. rewrite !mscale_mscale in E. replace (-1 * -1) with 1 in E by ring. rewrite !mscale_1 in E. apply essential_inj in E; [|assumption..]. subst. set_solver.
Qed.
(** *** Scores *)
Definition sg (x : R) : R := if Rlt_dec x 0 then -1 else if Req_EM_T x 0 then 0 else 1.
Lemma sg_opp x : sg (- x) = - sg x. Proof. unfold sg. destruct (Rlt_dec (- x) 0), (Rlt_dec x 0), (Req_EM_T (- x) 0), (Req_EM_T x 0); lra. Qed.
Lemma sg_pos x : 0 < x -> sg x = 1. Proof. intros H. unfold sg. destruct (Rlt_dec x 0), (Req_EM_T x 0); lra. Qed.
Lemma normalized_dot l b : dot b b = 1 -> dot (normalized (vscale l b)) b = sg l.
Proof.
  intros Hb. unfold normalized. rewrite dot_scale_l, dot_scale_r, Hb, Rmult_1_r. destruct (Req_EM_T (l * l) 0) as [E|E].
  - rewrite dot_scale_l, Hb. unfold sg. destruct (Rlt_dec l 0); [nra|]. destruct (Req_EM_T l 0); nra.
  - rewrite !dot_scale_l, Hb. replace (l * l) with (Rsqr l) by reflexivity. rewrite sqrt_Rsqr_abs. unfold sg. destruct (Rlt_dec l 0) as [L|L].
    + rewrite Rabs_left by exact L. field. lra.
    + destruct (Req_EM_T l 0) as [Z|Z]; [subst; lra|]. rewrite Rabs_right by lra. field. exact Z.
Qed.
Definition ray2 (r : mat) (t b2 : vec) : vec * vec := (vopp (mvec (mT r) t), mvec (mT r) b2).
Lemma norm_unit v : dot v v = 1 -> norm v = 1. Proof. intros E. unfold norm. rewrite E. apply sqrt_1. Qed.
Lemma mT_unit r b : rotation r -> dot b b = 1 -> dot (mvec (mT r) b) (mvec (mT r) b) = 1.
Proof. intros [H _] E. now rewrite orthogonal_dot. Qed.
(** a sample on both lines of sight *)
Lemma score_on_lines r t s l1 l2 : rotation r -> dot s.1 s.1 = 1 -> dot s.2 s.2 = 1 -> seen_by_both r t s l1 l2 ->
  sample_score (r, t) s = if Rle_dec (/ 10 ^ 10) (dot (cross s.1 (mvec (mT r) s.2)) (cross s.1 (mvec (mT r) s.2))) then (sg l1 + sg l2) * / 2 else 0.
Proof.
  intros Hr H1 H2 Hs. unfold sample_score. fold (ray2 r t s.2). destruct (Rle_dec _ _) as [L|L].
  - assert (TriangulateTwoBearingsMidpointSolve (v0, s.1) (ray2 r t s.2) = Some (vscale l1 s.1)) as ->.
    { apply (TriangProps.C48_two_views_exact _ _ l1 l2); unfold ray2; cbn [fst snd]; [apply norm_unit, H1|apply norm_unit, mT_unit; assumption|exact L|unfold TriangSpec.on_line; cbn [fst snd]; now rewrite vadd_0_l|].
      unfold TriangSpec.on_line. cbn [fst snd]. rewrite <- mvec_scale. unfold seen_by_both in Hs. rewrite <- Hs. rewrite mvec_add, <- mvec_mmul, (orthogonal_l r (proj1 Hr)), mvec_I. generalize (mvec (mT r) t), (vscale l1 s.1). clear. vring. }
    unfold seen_by_both in Hs. rewrite Hs. rewrite !normalized_dot by assumption. reflexivity.
  - destruct (TriangulateTwoBearingsMidpointSolve (v0, s.1) (ray2 r t s.2)) as [X|] eqn:E; [|reflexivity]. exfalso. apply L. apply (proj1 (TriangProps.C48_two_views_defined (v0, s.1) (ray2 r t s.2))). eauto.
Qed.
Lemma triangulate_opp b c b' : TriangulateTwoBearingsMidpointSolve (v0, b) (vopp c, b') = vopp <$> TriangulateTwoBearingsMidpointSolve (v0, b) (c, b').
Proof.
  unfold TriangulateTwoBearingsMidpointSolve. cbn [fst snd]. cbv zeta. set (d := dot b b * - dot b' b' - - dot b b' * dot b b'). assert (forall w, dot (vsub (vopp c) v0) w = - dot (vsub c v0) w) as E by (intros w; destruct c, w; vcbv; ring). rewrite !E. set (p := dot (vsub c v0) b). set (q := dot (vsub c v0) b').
  assert (forall x y, vscale (/ 2) (vadd (vadd v0 (vscale (- x) b)) (vadd (vopp c) (vscale (- y) b'))) = vopp (vscale (/ 2) (vadd (vadd v0 (vscale x b)) (vadd c (vscale y b'))))) as F by (intros x y; destruct b, b', c; vcbv; f_equal; ring).
  replace ((- dot b' b' * - p - - dot b b' * - q) / d) with (- ((- dot b' b' * p - - dot b b' * q) / d)) by (unfold Rdiv; ring). replace ((dot b b * - q - dot b b' * - p) / d) with (- ((dot b b * q - dot b b' * p) / d)) by (unfold Rdiv; ring). rewrite !F.
  destruct (Rlt_dec (- / 10 ^ 10) d); [destruct (Rlt_dec d (/ 10 ^ 10))|]; reflexivity.
Qed.
Lemma normalized_opp v : normalized (vopp v) = vopp (normalized v).
Proof. unfold normalized. assert (dot (vopp v) (vopp v) = dot v v) as -> by (destruct v; vcbv; ring). destruct (Req_EM_T (dot v v) 0); [reflexivity|]. generalize (/ sqrt (dot v v)). clear. vring. Qed.
Lemma sample_score_opp r t s : sample_score (r, vopp t) s = - sample_score (r, t) s.
Proof.
  unfold sample_score. replace (vopp (mvec (mT r) (vopp t))) with (vopp (vopp (mvec (mT r) t))) by (f_equal; clear; vring). rewrite triangulate_opp. destruct (TriangulateTwoBearingsMidpointSolve _ _) as [X|]; cbn [fmap option_fmap option_map]; [|ring].
  replace (vadd (mvec r (vopp X)) (vopp t)) with (vopp (vadd (mvec r X) t)) by (clear; vring). rewrite !normalized_opp. generalize (normalized X), (normalized (vadd (mvec r X) t)). clear. intros a b. destruct s as [s1 s2]. cbn [fst snd]. destruct a, b, s1, s2. vcbv. ring.
Qed.
Lemma score_from pose l a : foldl (fun acc s => acc + sample_score pose s) a l = a + score pose l.
Proof.
  unfold score. revert a. induction l as [|s l IH]; intros a; cbn [foldl]; [ring|]. rewrite IH, (IH (0 + _)). ring.
Qed.
Lemma score_cons pose s l : score pose (s :: l) = sample_score pose s + score pose l.
Proof. unfold score at 1. cbn [foldl]. rewrite score_from. ring. Qed.
Lemma score_opp r t l : score (r, vopp t) l = - score (r, t) l.
Proof. induction l as [|s l IH]; [unfold score; cbn; ring|]. rewrite !score_cons, sample_score_opp, IH. ring. Qed.
Lemma twisted_zero r r' t s : rotation r -> rotation r' -> dot t t = 1 -> essential r' t = mscale (-1) (essential r t) -> dot s.1 s.1 = 1 -> dot s.2 s.2 = 1 -> in_front_of_both r t s -> sample_score (r', t) s = 0.
Proof.
  intros Hr Hr' Ht E H1 H2 (d1 & d2 & P1 & P2 & Hs). unfold seen_by_both in Hs.
  assert (exists mu, mvec r' s.1 = vadd (vopp (mvec r s.1)) (vscale mu t)) as [mu Em].
  { assert (cross t (vadd (mvec r' s.1) (mvec r s.1)) = v0) as C. { transitivity (vadd (cross t (mvec r' s.1)) (cross t (mvec r s.1))); [generalize (mvec r' s.1), (mvec r s.1); clear; intros p q; destruct t, p, q; vcbv; f_equal; ring|]. rewrite <- !essential_cross, E, TriangProofs.mvec_mscale. generalize (mvec (essential r t) s.1). clear. vring. }
    set (w := vadd (mvec r' s.1) (mvec r s.1)) in *. exists (dot t w). assert (w = vscale (dot t w) t) as Ew.
    { apply TriangProofs.vsub_0, (perp_zero t); [exact Ht|rewrite NposeProofs.dot_vsub, dot_scale_r, Ht; ring|]. transitivity (vsub (cross t w) (vscale (dot t w) (cross t t))); [generalize w, (dot t w); clear; intros w k; destruct t, w; vcbv; f_equal; ring|]. rewrite C. generalize (dot t w). clear. intros k. destruct t. vcbv. f_equal; ring. }
    rewrite <- Ew. unfold w. generalize (mvec r' s.1), (mvec r s.1). clear. vring. }
  destruct (Req_EM_T (1 + d1 * mu) 0) as [Z|Z].
  - assert (mvec r' (vscale d1 s.1) = vopp (vscale d2 s.2)) as Ed. { rewrite mvec_scale, Em, <- Hs, mvec_scale. assert (d1 * mu = -1) as Z' by lra. transitivity (vadd (vopp (vscale d1 (mvec r s.1))) (vscale (d1 * mu) t)); [generalize (mvec r s.1); clear; vring|]. rewrite Z'. generalize (mvec r s.1). clear. vring. }
    assert (vscale d1 s.1 = vscale (- d2) (mvec (mT r') s.2)) as Ed'. { transitivity (mvec (mT r') (mvec r' (vscale d1 s.1))); [rewrite <- mvec_mmul, (orthogonal_l r' (proj1 Hr')), mvec_I; reflexivity|]. rewrite Ed. clear. destruct s as [s1 s2]. cbn [snd]. vring. }
    unfold sample_score. destruct (TriangulateTwoBearingsMidpointSolve _ _) as [X|] eqn:Et; [|reflexivity]. exfalso. assert (/ 10 ^ 10 <= dot (cross s.1 (mvec (mT r') s.2)) (cross s.1 (mvec (mT r') s.2))) as D by (apply (proj1 (TriangProps.C48_two_views_defined (v0, s.1) (vopp (mvec (mT r') t), mvec (mT r') s.2))); eauto).
    assert (cross s.1 (mvec (mT r') s.2) = v0) as C0. { transitivity (vscale (/ d1) (cross (vscale d1 s.1) (mvec (mT r') s.2))); [transitivity (vscale (/ d1 * d1) (cross s.1 (mvec (mT r') s.2))); [rewrite Rinv_l, vscale_1 by lra; reflexivity|]; generalize (/ d1), (mvec (mT r') s.2); clear; intros k w; destruct s as [s1 s2]; cbn [fst]; destruct s1, w; vcbv; f_equal; ring|]. rewrite Ed'. generalize (/ d1), (mvec (mT r') s.2). clear. intros k w. destruct w. vcbv. f_equal; ring. }
    rewrite C0 in D. replace (dot v0 v0) with 0 in D by (vcbv; ring). assert (0 < / 10 ^ 10) by (apply Rinv_0_lt_compat; lra). lra.
  - set (lam := / (1 + d1 * mu)). assert (lam * (1 + d1 * mu) = 1) as El by (unfold lam; field; exact Z). rewrite (score_on_lines r' t s (- (lam * d1)) (lam * d2) Hr' H1 H2).
    + destruct (Rle_dec _ _); [|reflexivity]. assert (sg (- (lam * d1)) + sg (lam * d2) = 0) as ->; [|ring]. rewrite sg_opp. assert (lam <> 0) as Nl by (intros E0; rewrite E0 in El; lra). unfold sg. destruct (Rlt_dec (lam * d1) 0), (Rlt_dec (lam * d2) 0), (Req_EM_T (lam * d1) 0), (Req_EM_T (lam * d2) 0); try lra; exfalso; nra.
    + unfold seen_by_both. rewrite mvec_scale, Em. rewrite <- vscale_vscale, <- Hs, mvec_scale. transitivity (vadd (vscale (lam * d1) (mvec r s.1)) (vscale (lam * (1 + d1 * mu) - lam * (d1 * mu)) t)); [rewrite El; generalize (mvec r s.1); clear; vring|]. generalize (mvec r s.1). clear. vring.
Qed.
(** *** The choice *)
Lemma truncated_nonneg s : 0 < s -> exists z, (0 <= z)%Z /\ truncated s = IZR z /\ IZR z <= s < IZR z + 1.
Proof.
  intros P. unfold truncated. destruct (Rlt_dec s 0); [lra|]. exists (Int_part s). pose proof (base_Int_part s) as [B1 B2]. split; [|split; [reflexivity|lra]]. assert (IZR (-1) < IZR (Int_part s)) as L by (change (IZR (-1)) with (-1); lra). apply lt_IZR in L. lia.
Qed.
Definition choice_ok (seen : list (R * (mat * vec))) (best : R * option (mat * vec)) : Prop :=
  exists z, (0 <= z)%Z /\ best.1 = IZR z /\ (forall s q, (s, q) ∈ seen -> s < IZR z + 1) /\
  match best.2 with None => z = 0%Z /\ forall s q, (s, q) ∈ seen -> s <= 0 | Some p => exists sp, (sp, p) ∈ seen /\ 0 < sp /\ IZR z <= sp end.
Lemma choice_step seen best s q : choice_ok seen best -> choice_ok (seen ++ [(s, q)]) (if Rlt_dec best.1 s then (truncated s, Some q) else best).
Proof.
  intros (z & Pz & E & B & M). destruct best as [b o]. cbn [fst snd] in *. subst b. pose proof (IZR_le 0 z Pz) as Pz'. destruct (Rlt_dec (IZR z) s) as [L|L].
  - destruct (truncated_nonneg s ltac:(lra)) as (z' & P' & E' & L1 & L2). exists z'. cbn [fst snd]. split; [exact P'|]. split; [exact E'|]. assert (z <= z')%Z as Lz. { apply Z.lt_succ_r, lt_IZR. rewrite succ_IZR. lra. } apply IZR_le in Lz. split.
    + intros s' q' Hin. apply elem_of_app in Hin as [Hin|Hin]; [pose proof (B _ _ Hin); lra|]. apply elem_of_list_singleton in Hin. injection Hin as -> ->. lra.
    + exists s. split; [set_solver|]. lra.
  - exists z. cbn [fst snd]. split; [exact Pz|]. split; [reflexivity|]. split.
    + intros s' q' Hin. apply elem_of_app in Hin as [Hin|Hin]; [now apply (B s' q')|]. apply elem_of_list_singleton in Hin. injection Hin as -> ->. lra.
    + destruct o as [p|].
      * destruct M as (sp & Hin & H). exists sp. split; [set_solver|exact H].
      * destruct M as [-> M]. split; [reflexivity|]. intros s' q' Hin. apply elem_of_app in Hin as [Hin|Hin]; [now apply (M s' q')|]. apply elem_of_list_singleton in Hin. injection Hin as -> ->. cbn in L. lra.
Qed.
Lemma choice_all l seen best : choice_ok seen best -> choice_ok (seen ++ l) (best_decomposition l best).
Proof.
  revert seen best. induction l as [|[s q] l IH]; intros seen best H; cbn [best_decomposition]; [now rewrite app_nil_r|]. replace (seen ++ (s, q) :: l) with ((seen ++ [(s, q)]) ++ l) by (now rewrite <- app_assoc). apply IH. now apply choice_step.
Qed.
Lemma choice_start : choice_ok [] (0, None). Proof. exists 0%Z. cbn. split; [lia|]. split; [reflexivity|]. split; [intros s q H; inversion H|]. split; [reflexivity|]. intros s q H. inversion H. Qed.
Lemma truncated_INR m : truncated (INR m) = INR m.
Proof. unfold truncated. destruct (Rlt_dec (INR m) 0) as [L|L]; [pose proof (pos_INR m); lra|]. rewrite INR_IZR_INZ. f_equal. pose proof (base_Int_part (IZR (Z.of_nat m))) as [B1 B2]. apply Z.le_antisymm; [now apply le_IZR|]. apply Z.lt_succ_r, lt_IZR. rewrite succ_IZR. lra. Qed.
Lemma choice_unique l p m best : (0 < m)%nat -> (forall s q, (s, q) ∈ l -> s <= 0 \/ (q = p /\ s = INR m)) -> (best = (0, None) /\ (exists s, (s, p) ∈ l /\ s = INR m) \/ best = (INR m, Some p)) -> (best_decomposition l best).2 = Some p.
Proof.
  intros Pm. assert (0 < INR m) as Pm' by now apply lt_0_INR. revert best. induction l as [|[s q] l IH]; intros best H Hb; cbn [best_decomposition].
  - destruct Hb as [[_ (s & Hin & _)]| ->]; [inversion Hin|reflexivity].
  - assert (forall s0 q0, (s0, q0) ∈ l -> s0 <= 0 \/ (q0 = p /\ s0 = INR m)) as H' by (intros; apply H; now right). destruct Hb as [[-> (s0 & Hin & E0)]| ->]; cbn [fst].
    + destruct (H s q ltac:(left)) as [L|[-> ->]].
      * destruct (Rlt_dec 0 s); [lra|]. apply IH; [exact H'|]. left. split; [reflexivity|]. exists s0. split; [|exact E0]. apply elem_of_cons in Hin as [[= -> ->]|Hin]; [lra|exact Hin].
      * destruct (Rlt_dec 0 (INR m)); [|lra]. rewrite truncated_INR. apply IH; [exact H'|now right].
    + destruct (Rlt_dec (INR m) s) as [L|L]; [|apply IH; [exact H'|now right]]. exfalso. destruct (H s q ltac:(left)) as [L'|[_ L']]; lra.
Qed.
(** *** Essential matrices closest to a matrix *)
Lemma inner_frob : inner = frob. Proof. reflexivity. Qed.
Lemma q_bounds q w : mmul q (mT q) = madd mI (mscale (-1) (outer w w)) -> dot w w = 1 -> m11 q <= 1 /\ m11 q + m22 q <= 2 /\ m11 q + m22 q + m33 q <= 2.
Proof.
  intros G Hw. destruct q as [a b c d e f g h i], w as [x y z]. unfold mmul, mT, madd, mI, mscale, outer in G. cbn [m11 m12 m13 m21 m22 m23 m31 m32 m33 vx vy vz] in G. injection G as G11 G12 G13 _ G22 G23 _ _ G33. unfold dot in Hw. cbn [vx vy vz m11 m22 m33] in *.
  pose proof (Rle_0_sqr x) as X. pose proof (Rle_0_sqr y) as Y. pose proof (Rle_0_sqr z) as Z. pose proof (Rle_0_sqr a) as A. pose proof (Rle_0_sqr b) as B. pose proof (Rle_0_sqr c) as C. pose proof (Rle_0_sqr d) as D. pose proof (Rle_0_sqr e) as E. pose proof (Rle_0_sqr f) as F. unfold Rsqr in *.
  assert (a * a <= 1) by lra. assert (e * e <= 1) by lra. assert (a <= 1) by nra. assert (e <= 1) by nra. split; [assumption|]. split; [lra|].
  set (p1 := x * a + y * d + z * g). set (p2 := x * b + y * e + z * h). set (p3 := x * c + y * f + z * i).
  assert (p1 * p1 + p2 * p2 + p3 * p3 = 0) as P.
  { transitivity (x * x * (a * a + b * b + c * c) + y * y * (d * d + e * e + f * f) + z * z * (g * g + h * h + i * i) + 2 * (x * y) * (a * d + b * e + c * f) + 2 * (x * z) * (a * g + b * h + c * i) + 2 * (y * z) * (d * g + e * h + f * i)); [unfold p1, p2, p3; ring|].
    rewrite G11, G12, G13, G22, G23, G33. transitivity ((x * x + y * y + z * z) - (x * x + y * y + z * z) * (x * x + y * y + z * z)); [ring|rewrite Hw; ring]. }
  assert (p1 = 0 /\ p2 = 0 /\ p3 = 0) as (Z1 & Z2 & Z3) by (repeat split; nra).
  assert (0 <= (1 - x * x - a) * (1 - x * x - a) + (x * y + b) * (x * y + b) + (x * z + c) * (x * z + c) + (x * y + d) * (x * y + d) + (1 - y * y - e) * (1 - y * y - e) + (y * z + f) * (y * z + f) + (x * z + g) * (x * z + g) + (y * z + h) * (y * z + h) + (1 - z * z - i) * (1 - z * z - i)) as S by (repeat apply Rplus_le_le_0_compat; apply Rle_0_sqr).
  assert ((1 - x * x - a) * (1 - x * x - a) + (x * y + b) * (x * y + b) + (x * z + c) * (x * z + c) + (x * y + d) * (x * y + d) + (1 - y * y - e) * (1 - y * y - e) + (y * z + f) * (y * z + f) + (x * z + g) * (x * z + g) + (y * z + h) * (y * z + h) + (1 - z * z - i) * (1 - z * z - i) =
    (3 - 2 * (x * x + y * y + z * z) + (x * x + y * y + z * z) * (x * x + y * y + z * z)) + ((a * a + b * b + c * c) + (d * d + e * e + f * f) + (g * g + h * h + i * i)) - 2 * (a + e + i) + 2 * (x * p1 + y * p2 + z * p3)) as S' by (unfold p1, p2, p3; ring).
  rewrite S', Z1, Z2, Z3, G11, G22, G33, Hw in S. lra.
Qed.
Lemma inner_bound r t u s1 s2 s3 vh : mmul u (mT u) = mI -> mmul vh (mT vh) = mI -> s1 >= s2 -> s2 >= s3 -> s3 >= 0 -> rotation r -> dot t t = 1 ->
  inner (essential r t) (mmul u (mmul (Mat s1 0 0 0 s2 0 0 0 s3) vh)) <= s1 + s2.
Proof.
  intros Hu Hv S12 S23 S3 Hr Ht. rewrite inner_frob, frob_svd. set (q := mmul (mT u) (mmul (essential r t) (mT vh))).
  destruct (q_bounds q (mvec (mT u) t)) as (B1 & B2 & B3).
  - unfold q. rewrite !mT_mmul, !mT_T. rewrite !mmul_assoc. rewrite <- (mmul_assoc _ (mT vh) vh), (orthogonal_l vh Hv), mmul_I_r. pose proof (essential_gram 1 r t Hr Ht) as G. rewrite mscale_1, Rmult_1_r, mscale_1 in G. rewrite <- (mmul_assoc (mT u)), G.
    transitivity (madd (mmul (mT u) u) (mscale (-1) (mmul (mT u) (mmul (outer t t) u)))); [generalize (outer t t); clear; vring|]. now rewrite (orthogonal_l u Hu), mT_outer_vec.
  - now rewrite orthogonal_dot.
  - assert ((s1 - s2) * m11 q <= (s1 - s2) * 1) by (apply Rmult_le_compat_l; lra). assert ((s2 - s3) * (m11 q + m22 q) <= (s2 - s3) * 2) by (apply Rmult_le_compat_l; lra). assert (s3 * (m11 q + m22 q + m33 q) <= s3 * 2) by (apply Rmult_le_compat_l; lra). lra.
Qed.
Lemma inner_scale k a b : inner (mscale k a) b = k * inner a b. Proof. destruct a, b. unfold inner, mscale. cbn. ring. Qed.
Lemma inner_sub a b : inner (msub a b) (msub a b) = inner a a - 2 * inner b a + inner b b. Proof. destruct a, b. unfold inner, msub, madd, mscale. cbn. ring. Qed.
Lemma inner_diag u vh a b c a' b' c' : mmul u (mT u) = mI -> mmul vh (mT vh) = mI -> inner (mmul u (mmul (Mat a 0 0 0 b 0 0 0 c) vh)) (mmul u (mmul (Mat a' 0 0 0 b' 0 0 0 c') vh)) = a * a' + b * b' + c * c'.
Proof.
  intros Hu Hv. rewrite inner_frob, frob_svd. assert (mmul (mT u) (mmul (mmul u (mmul (Mat a 0 0 0 b 0 0 0 c) vh)) (mT vh)) = Mat a 0 0 0 b 0 0 0 c) as ->; [|cbn [m11 m22 m33]; ring]. rewrite !mmul_assoc, (orthogonal_l u Hu), mmul_I_l, <- (mmul_assoc _ vh), Hv, mmul_I_r. reflexivity.
Qed.
Lemma essential_norm r t : rotation r -> dot t t = 1 -> inner (essential r t) (essential r t) = 2.
Proof.
  intros Hr Ht. pose proof (essential_gram 1 r t Hr Ht) as G. rewrite mscale_1, Rmult_1_r, mscale_1 in G. generalize dependent (essential r t). intros e G. transitivity (trace (mmul e (mT e))); [destruct e; unfold inner, trace, mmul, mT; cbn; ring|]. rewrite G. destruct t as [x y z]. unfold trace, madd, mI, mscale, outer, dot in *. cbn in *. lra.
Qed.
Lemma inner_comm a b : inner a b = inner b a. Proof. destruct a, b. unfold inner. cbn. ring. Qed.
Lemma enforce_closest svd E k r t : is_svd_of E (svd E) -> rotation r -> dot t t = 1 -> inner (msub E (enforce svd E)) (msub E (enforce svd E)) <= inner (msub E (mscale k (essential r t))) (msub E (mscale k (essential r t))).
Proof.
  intros Hs Hr Ht. unfold enforce. destruct (svd E) as [[u [[a b] c]] vh]. destruct Hs as (Hu & Hv & Em & S12 & S23 & S3). rewrite !inner_sub. 
  assert (inner (mmul u (mmul (Mat ((a + b) / 2) 0 0 0 ((a + b) / 2) 0 0 0 0) vh)) E = (a + b) / 2 * a + (a + b) / 2 * b + 0 * c) as -> by (rewrite Em; now apply inner_diag). rewrite inner_diag by assumption.
  assert (forall k', 0 <= k' -> forall t', dot t' t' = 1 -> inner (mscale k' (essential r t')) E <= k' * (a + b)) as B. { intros k' P t' Ht'. rewrite inner_scale. apply Rmult_le_compat_l; [exact P|]. rewrite Em. now apply inner_bound. }
  assert (inner (mscale k (essential r t)) (mscale k (essential r t)) = 2 * (k * k)) as -> by (rewrite inner_scale, inner_comm, inner_scale, essential_norm by assumption; ring).
  assert (inner (mscale k (essential r t)) E <= Rabs k * (a + b)) as Bk.
  { destruct (Rcase_abs k) as [L|L].
    - rewrite Rabs_left by exact L. replace (mscale k (essential r t)) with (mscale (- k) (essential r (vopp t))) by (rewrite essential_opp, mscale_mscale; f_equal; ring). apply B; [lra|]. rewrite <- Ht. destruct t. vcbv. ring.
    - rewrite Rabs_right by exact L. apply B; [lra|exact Ht]. }
  assert (Rabs k * Rabs k = k * k) as K by (rewrite <- Rabs_mult; apply Rabs_pos_eq; apply Rle_0_sqr). rewrite <- K. pose proof (Rle_0_sqr (2 * Rabs k - (a + b))) as Q. unfold Rsqr in Q. nra.
Qed.
Lemma enforce_essential svd k r t : is_svd_of (mscale k (essential r t)) (svd (mscale k (essential r t))) -> rotation r -> dot t t = 1 -> k <> 0 -> enforce svd (mscale k (essential r t)) = mscale k (essential r t).
Proof.
  intros Hs Hr Ht Nk. unfold enforce. set (E := mscale k (essential r t)) in *. destruct (svd E) as [[u [[s1 s2] s3]] vh]. destruct (singular_values k r t u s1 s2 s3 vh Hs Hr Ht Nk) as (-> & -> & -> & _). destruct Hs as (_ & _ & Em & _). rewrite Em. f_equal. f_equal. f_equal; field.
Qed.
(** enforce gives an essential matrix *)
Lemma enforce_is_essential svd E : is_svd_of E (svd E) -> exists k r t, 0 <= k /\ rotation r /\ dot t t = 1 /\ enforce svd E = mscale k (essential r t).
Proof.
  intros Hs. unfold enforce. destruct (svd E) as [[u [[a b] c]] vh]. destruct Hs as (Hu & Hv & _ & S12 & S23 & S3). destruct (flip_column_rotation u Hu) as [HU EU]. destruct (flip_row_rotation vh Hv) as [HV EV]. set (U := flip_column u) in *. set (V := flip_row vh) in *. set (k := (a + b) / 2).
  exists k, (mmul U (mmul (mT W) V)), (last_column U). split; [unfold k; lra|]. split; [repeat apply rotation_mmul; auto using rotation_T, W_rotation|].
  split. { rewrite last_column_mvec. transitivity (dot (mvec (mT (mT U)) (Vec 0 0 1)) (mvec (mT (mT U)) (Vec 0 0 1))); [now rewrite mT_T|]. rewrite orthogonal_dot; [unfold dot; cbn; ring|]. rewrite mT_T. apply orthogonal_l, HU. }
  assert (essential (mmul U (mmul (mT W) V)) (last_column U) = mmul U (mmul (mmul (skew (Vec 0 0 1)) (mT W)) V)) as ->.
  { unfold essential. rewrite last_column_mvec, skew_moved by exact HU. rewrite !mmul_assoc. rewrite <- (mmul_assoc _ (mT U) U), (orthogonal_l U (proj1 HU)), mmul_I_r. reflexivity. }
  transitivity (mmul U (mmul (Mat k 0 0 0 k 0 0 0 0) V)).
  - assert (mmul (Mat k 0 0 0 k 0 0 0 0) V = mmul (Mat k 0 0 0 k 0 0 0 0) vh) as -> by (destruct EV as [-> | ->]; [reflexivity|]; clear; destruct vh; unfold flip, mmul; cbn; f_equal; ring). destruct EU as [-> | ->]; [reflexivity|]. rewrite <- (mmul_assoc u flip). f_equal. generalize vh k. clear. intros vh k. destruct vh. unfold flip, mmul; cbn; f_equal; ring.
  - assert (mmul (skew (Vec 0 0 1)) (mT W) = Mat 1 0 0 0 1 0 0 0 0) as -> by (unfold skew, W, mT, mmul; cbn; f_equal; ring). generalize U V k. clear. intros u v k. destruct u as [u1 u2 u3 u4 u5 u6 u7 u8 u9], v as [v1 v2 v3 v4 v5 v6 v7 v8 v9]. unfold mscale, mmul. cbn [m11 m12 m13 m21 m22 m23 m31 m32 m33]. f_equal; ring.
Qed.
Lemma row_epipolar s E : inner (epipolar_row s) E = epipolar E s. Proof. destruct s as [a b]. unfold inner, epipolar_row, epipolar, outer, dot, mvec. cbn. destruct a, b, E. cbn. ring. Qed.
Lemma error_nonneg E l : 0 <= epipolar_error E l. Proof. induction l as [|s l IH]; cbn; [lra|]. pose proof (Rle_0_sqr (epipolar E s)) as Q. unfold Rsqr in Q. lra. Qed.
Lemma error_zero E l : epipolar_error E l = 0 <-> forall s, s ∈ l -> epipolar E s = 0.
Proof.
  induction l as [|x l IH]; cbn; [split; [set_solver|reflexivity]|]. pose proof (error_nonneg E l). pose proof (Rle_0_sqr (epipolar E x)) as Q. unfold Rsqr in Q. split.
  - intros H0 s Hs. apply elem_of_cons in Hs as [-> |Hs]; [apply Rsqr_0_uniq; unfold Rsqr; lra|]. apply IH; [lra|exact Hs].
  - intros H0. rewrite (H0 x) by left. rewrite (proj2 IH) by (intros s Hs; apply H0; now right). ring.
Qed.
Lemma error_scale k E l : epipolar_error (mscale k E) l = k * k * epipolar_error E l.
Proof. induction l as [|s l IH]; cbn; [ring|]. rewrite IH. unfold epipolar. rewrite TriangProofs.mvec_mscale, dot_scale_r. ring. Qed.
