From stdpp Require Import prelude.
From Coq Require Import Reals Lra.
From Verif Require Import Base Lin TriangModel FitModel FitSpec P3pModel P3pProofs PlaneProofs FitProofs SvdProofs EssModel EssSpec EssProofs FiveModel FiveSpec.
Local Open Scope R_scope.

(** ** Polynomials *)
Definition low (n : nat) (p : poly) : Prop := forall k, (k < n)%nat -> p k = 0.
Lemma value_eq p x y z : value p x y z = p 0%nat * (x * x * x) + p 1%nat * (x * x * y) + p 2%nat * (x * y * y) + p 3%nat * (y * y * y) + p 4%nat * (x * x * z) + p 5%nat * (x * y * z) + p 6%nat * (y * y * z) + p 7%nat * (x * z * z) + p 8%nat * (y * z * z) + p 9%nat * (z * z * z) + p 10%nat * (x * x) + p 11%nat * (x * y) + p 12%nat * (y * y) + p 13%nat * (x * z) + p 14%nat * (y * z) + p 15%nat * (z * z) + p 16%nat * x + p 17%nat * y + p 18%nat * z + p 19%nat.
Proof. unfold value, monomials. cbn [weighted]. ring. Qed.
Lemma value_o1 a b x y z : low 16 a -> low 16 b -> value (o1 a b) x y z = value a x y z * value b x y z.
Proof.
  intros Ha Hb. rewrite !value_eq. unfold o1, coefficients. cbn [nth]. rewrite !(Ha 0%nat), !(Ha 1%nat), !(Ha 2%nat), !(Ha 3%nat), !(Ha 4%nat), !(Ha 5%nat), !(Ha 6%nat), !(Ha 7%nat), !(Ha 8%nat), !(Ha 9%nat), !(Ha 10%nat), !(Ha 11%nat), !(Ha 12%nat), !(Ha 13%nat), !(Ha 14%nat), !(Ha 15%nat) by lia.
  rewrite !(Hb 0%nat), !(Hb 1%nat), !(Hb 2%nat), !(Hb 3%nat), !(Hb 4%nat), !(Hb 5%nat), !(Hb 6%nat), !(Hb 7%nat), !(Hb 8%nat), !(Hb 9%nat), !(Hb 10%nat), !(Hb 11%nat), !(Hb 12%nat), !(Hb 13%nat), !(Hb 14%nat), !(Hb 15%nat) by lia. ring.
Qed.
Lemma value_o2 a b x y z : low 10 a -> low 16 b -> value (o2 a b) x y z = value a x y z * value b x y z.
Proof.
  intros Ha Hb. rewrite !value_eq. unfold o2, coefficients. cbn [nth]. rewrite !(Ha 0%nat), !(Ha 1%nat), !(Ha 2%nat), !(Ha 3%nat), !(Ha 4%nat), !(Ha 5%nat), !(Ha 6%nat), !(Ha 7%nat), !(Ha 8%nat), !(Ha 9%nat) by lia.
  rewrite !(Hb 0%nat), !(Hb 1%nat), !(Hb 2%nat), !(Hb 3%nat), !(Hb 4%nat), !(Hb 5%nat), !(Hb 6%nat), !(Hb 7%nat), !(Hb 8%nat), !(Hb 9%nat), !(Hb 10%nat), !(Hb 11%nat), !(Hb 12%nat), !(Hb 13%nat), !(Hb 14%nat), !(Hb 15%nat) by lia. ring.
Qed.
Lemma value_padd a b x y z : value (padd a b) x y z = value a x y z + value b x y z. Proof. rewrite !value_eq. unfold padd. ring. Qed.
Lemma value_psub a b x y z : value (psub a b) x y z = value a x y z - value b x y z. Proof. rewrite !value_eq. unfold psub. ring. Qed.
Lemma value_half a x y z : value (fun n => / 2 * a n) x y z = value a x y z / 2. Proof. rewrite !value_eq. field. Qed.
Lemma low_o1 a b : low 10 (o1 a b). Proof. intros k Hk. unfold o1, coefficients. do 10 (destruct k as [|k]; [reflexivity|]). lia. Qed.
Lemma low_padd n a b : low n a -> low n b -> low n (padd a b). Proof. intros Ha Hb k Hk. unfold padd. rewrite Ha, Hb by exact Hk. ring. Qed.
Lemma low_psub n a b : low n a -> low n b -> low n (psub a b). Proof. intros Ha Hb k Hk. unfold psub. rewrite Ha, Hb by exact Hk. ring. Qed.
Lemma low_half n a : low n a -> low n (fun n => / 2 * a n). Proof. intros Ha k Hk. rewrite Ha by exact Hk. ring. Qed.
Lemma low_E b i j : low 16 (E_poly b i j). Proof. intros k Hk. destruct b as [[[b0 b1] b2] b3]. unfold E_poly, coefficients. do 16 (destruct k as [|k]; [reflexivity|]). lia. Qed.
Lemma low_EET b i j : low 10 (EET_poly (E_poly b) i j). Proof. unfold EET_poly. destruct (i <=? j)%nat; repeat apply low_padd; apply low_o1. Qed.
Lemma low_L b i j : low 10 (L_poly (E_poly b) i j).
Proof. unfold L_poly. destruct (i =? j)%nat; [|apply low_EET]. apply low_psub; [apply low_EET|]. apply (low_half 10 (padd (padd _ _) _)). apply low_padd; [apply low_padd|]; apply low_EET. Qed.
Lemma value_E b i j x y z : value (E_poly b i j) x y z = entry (at_point b x y z 1) i j.
Proof.
  rewrite value_eq. destruct b as [[[b0 b1] b2] b3]. unfold E_poly, coefficients, at_point. cbn [nth]. unfold entry, entries. generalize (3 * i + j)%nat. intros n. clear i j. unfold madd, mscale. cbn [m11 m12 m13 m21 m22 m23 m31 m32 m33].
  do 9 (destruct n as [|n]; [cbn [nth]; ring|]). destruct n; cbn [nth]; ring.
Qed.
Lemma value_EET b i j x y z : let E := at_point b x y z 1 in value (EET_poly (E_poly b) i j) x y z = entry E i 0 * entry E j 0 + entry E i 1 * entry E j 1 + entry E i 2 * entry E j 2.
Proof. cbv zeta. unfold EET_poly. destruct (i <=? j)%nat; rewrite !value_padd, !value_o1, !value_E by apply low_E; ring. Qed.
Definition trace_EET (E : mat) : R := inner E E.
Lemma value_L b i j x y z : let E := at_point b x y z 1 in value (L_poly (E_poly b) i j) x y z = entry E i 0 * entry E j 0 + entry E i 1 * entry E j 1 + entry E i 2 * entry E j 2 - (if (i =? j)%nat then inner E E / 2 else 0).
Proof.
  cbv zeta. unfold L_poly. destruct (i =? j)%nat; [|rewrite value_EET; ring]. rewrite value_psub, value_half, !value_padd, !value_EET. set (E := at_point b x y z 1). f_equal. unfold inner, entry, entries. cbn [nth Nat.mul Nat.add]. field.
Qed.
Lemma value_LE b i j x y z : let E := at_point b x y z 1 in value (LE_poly (E_poly b) i j) x y z = value (L_poly (E_poly b) i 0) x y z * entry E 0 j + value (L_poly (E_poly b) i 1) x y z * entry E 1 j + value (L_poly (E_poly b) i 2) x y z * entry E 2 j.
Proof. cbv zeta. unfold LE_poly. rewrite !value_padd, !value_o2 by (apply low_L || apply low_E). rewrite !value_E. ring. Qed.
Lemma value_det b x y z : value (determinant_poly (E_poly b)) x y z = det (at_point b x y z 1).
Proof.
  unfold determinant_poly. rewrite !value_padd, !value_o2 by (apply low_E || (apply low_psub; apply low_o1)). rewrite !value_psub, !value_o1, !value_E by apply low_E. set (E := at_point b x y z 1). unfold det, entry, entries. cbn [nth Nat.mul Nat.add]. ring.
Qed.
(** The cubic constraint of Nister *)
Definition cubic (E : mat) : mat := msub (mmul (mmul E (mT E)) E) (mscale (inner E E / 2) E).
Lemma value_cubic b i j x y z : (i < 3)%nat -> (j < 3)%nat -> value (LE_poly (E_poly b) i j) x y z = entry (cubic (at_point b x y z 1)) i j.
Proof.
  intros Hi Hj. rewrite value_LE, !value_L. set (E := at_point b x y z 1). unfold cubic, msub, madd, mscale, mmul, mT. cbn [m11 m12 m13 m21 m22 m23 m31 m32 m33]. set (q := inner E E).
  assert (i = 0 \/ i = 1 \/ i = 2)%nat as [-> |[-> | ->]] by lia; assert (j = 0 \/ j = 1 \/ j = 2)%nat as [-> |[-> | ->]] by lia; unfold entry, entries; cbn [nth Nat.mul Nat.add Nat.eqb m11 m12 m13 m21 m22 m23 m31 m32 m33]; field.
Qed.
Lemma rows_zero b x y z : let E := at_point b x y z 1 in (forall i, (i < 10)%nat -> value (FivePointsPolynomialConstraints b i) x y z = 0) <-> det E = 0 /\ cubic E = mscale 0 mI.
Proof.
  cbv zeta. set (E := at_point b x y z 1). unfold FivePointsPolynomialConstraints. cbn [seq mbind list_bind app].
  assert (cubic E = mscale 0 mI <-> forall i j, (i < 3)%nat -> (j < 3)%nat -> entry (cubic E) i j = 0) as ->.
  { split; [intros -> i j Hi Hj; assert (i = 0 \/ i = 1 \/ i = 2)%nat as [-> |[-> | ->]] by lia; assert (j = 0 \/ j = 1 \/ j = 2)%nat as [-> |[-> | ->]] by lia; unfold entry, entries, mscale; cbn; ring|].
    intros H. generalize (cubic E) H. clear. intros m H. pose proof (H 0 0)%nat. pose proof (H 0 1)%nat. pose proof (H 0 2)%nat. pose proof (H 1 0)%nat. pose proof (H 1 1)%nat. pose proof (H 1 2)%nat. pose proof (H 2 0)%nat. pose proof (H 2 1)%nat. pose proof (H 2 2)%nat. clear H.
    destruct m as [x1 x2 x3 x4 x5 x6 x7 x8 x9]. unfold entry, entries in *. cbn [nth Nat.mul Nat.add m11 m12 m13 m21 m22 m23 m31 m32 m33] in *. unfold mscale, mI. cbn. f_equal; rewrite ?Rmult_0_l; auto with lia. all: match goal with H : _ -> _ -> ?x = 0 |- ?x = 0 => apply H; lia end. }
  split.
  - intros H. split; [unfold E; rewrite <- value_det; apply (H 0%nat); lia|]. intros i j Hi Hj. unfold E. rewrite <- value_cubic by assumption. assert (i = 0 \/ i = 1 \/ i = 2)%nat as [-> |[-> | ->]] by lia; assert (j = 0 \/ j = 1 \/ j = 2)%nat as [-> |[-> | ->]] by lia;
      [apply (H 1%nat)|apply (H 2%nat)|apply (H 3%nat)|apply (H 4%nat)|apply (H 5%nat)|apply (H 6%nat)|apply (H 7%nat)|apply (H 8%nat)|apply (H 9%nat)]; lia.
  - intros [D C] i Hi. destruct i as [|i]; [cbn [nth]; rewrite value_det; exact D|]. do 9 (destruct i as [|i]; [cbn [nth]; rewrite value_cubic by lia; apply C; lia|]). lia.
Qed.
(** ** The constraints and essential matrices *)
Definition diag3 (a b c : R) : mat := Mat a 0 0 0 b 0 0 0 c.
Lemma mmul_msub_l a b k c : msub (mmul a c) (mscale k (mmul b c)) = mmul (msub a (mscale k b)) c.
Proof. unfold msub, madd, mscale, mmul. cbn [m11 m12 m13 m21 m22 m23 m31 m32 m33]. f_equal; ring. Qed.
Lemma mmul_msub_r a b k c : msub (mmul c a) (mscale k (mmul c b)) = mmul c (msub a (mscale k b)).
Proof. unfold msub, madd, mscale, mmul. cbn [m11 m12 m13 m21 m22 m23 m31 m32 m33]. f_equal; ring. Qed.
Lemma middle_sub u v d e k : msub (mmul u (mmul d v)) (mscale k (mmul u (mmul e v))) = mmul u (mmul (msub d (mscale k e)) v).
Proof. now rewrite mmul_msub_r, mmul_msub_l. Qed.
Lemma cubic_svd u vh a b c : mmul u (mT u) = mI -> mmul vh (mT vh) = mI ->
  let q := (a * a + b * b + c * c) / 2 in cubic (mmul u (mmul (diag3 a b c) vh)) = mmul u (mmul (diag3 (a * a * a - q * a) (b * b * b - q * b) (c * c * c - q * c)) vh).
Proof.
  intros Hu Hv q. unfold cubic. rewrite (inner_diag u vh a b c a b c Hu Hv : inner (mmul u (mmul (diag3 a b c) vh)) (mmul u (mmul (diag3 a b c) vh)) = _). fold q.
  assert (mmul (mmul (mmul u (mmul (diag3 a b c) vh)) (mT (mmul u (mmul (diag3 a b c) vh)))) (mmul u (mmul (diag3 a b c) vh)) = mmul u (mmul (diag3 (a * a * a) (b * b * b) (c * c * c)) vh)) as ->.
  { rewrite !mT_mmul. rewrite !mmul_assoc. rewrite <- (mmul_assoc _ vh (mT vh)), Hv, mmul_I_r. rewrite <- (mmul_assoc _ (mT u) u), (orthogonal_l u Hu), mmul_I_r. f_equal. rewrite <- !mmul_assoc. f_equal. unfold diag3, mmul, mT. cbn. f_equal; ring. }
  rewrite middle_sub. f_equal. f_equal. unfold diag3, msub, madd, mscale. cbn. f_equal; ring.
Qed.
Lemma mscale_0_l m : mscale 0 m = mscale 0 mI. Proof. destruct m. unfold mscale, mI. cbn. f_equal; ring. Qed.
Lemma zero_middle u d vh : mmul u (mT u) = mI -> mmul vh (mT vh) = mI -> mmul u (mmul d vh) = mscale 0 mI <-> d = mscale 0 mI.
Proof.
  intros Hu Hv. split.
  - intros H. assert (mmul (mT u) (mmul (mmul u (mmul d vh)) (mT vh)) = d) as E. { rewrite !mmul_assoc, (orthogonal_l u Hu), mmul_I_l, <- mmul_assoc, Hv, mmul_I_r. reflexivity. }
    rewrite <- E, H. generalize (mT u) (mT vh). clear. intros u v. destruct u, v. unfold mscale, mmul, mI. cbn. f_equal; ring.
  - intros ->. generalize u vh. clear. intros u v. destruct u, v. unfold mscale, mmul, mI. cbn. f_equal; ring.
Qed.
Lemma det_zero_svd u vh a b c : mmul u (mT u) = mI -> mmul vh (mT vh) = mI -> det (mmul u (mmul (diag3 a b c) vh)) = 0 <-> a * b * c = 0.
Proof.
  intros Hu Hv. rewrite !det_mmul. assert (det (diag3 a b c) = a * b * c) as -> by (unfold det, diag3; cbn; ring). pose proof (orthogonal_det u Hu) as Du. pose proof (orthogonal_det vh Hv) as Dv. split; intros H.
  - assert (det u <> 0) by nra. assert (det vh <> 0) by nra. apply Rmult_integral in H as [H|H]; [contradiction|]. apply Rmult_integral in H as [H|H]; [exact H|contradiction].
  - rewrite H. ring.
Qed.
Lemma diag3_zero a b c : diag3 a b c = mscale 0 mI <-> a = 0 /\ b = 0 /\ c = 0.
Proof.
  split; [|intros (-> & -> & ->); unfold diag3, mscale, mI; cbn; f_equal; ring]. intros H. pose proof (f_equal m11 H) as H1. pose proof (f_equal m22 H) as H2. pose proof (f_equal m33 H) as H3. unfold diag3, mscale, mI in H1, H2, H3. cbn [m11 m22 m33] in *. lra.
Qed.
Lemma essential_iff E : is_essential E <-> det E = 0 /\ cubic E = mscale 0 mI.
Proof.
  pose proof (real_svd_right E) as Hs. split.
  - intros (k & r & t & Hr & Ht & ->). destruct (Req_dec k 0) as [-> |Nk].
    { assert (mmul mI (mT mI) = mI) as HI by apply rotation_I. assert (mscale 0 (essential r t) = mmul mI (mmul (diag3 0 0 0) mI)) as ->. { rewrite mscale_0_l, mmul_I_l, mmul_I_r. symmetry. apply diag3_zero. auto. }
      split; [apply det_zero_svd; [exact HI|exact HI|ring]|]. rewrite cubic_svd by exact HI. apply zero_middle; [exact HI|exact HI|]. apply diag3_zero. repeat split; field. }
    destruct (real_svd (mscale k (essential r t))) as [[u [[a b] c]] vh]. destruct (singular_values k r t u a b c vh Hs Hr Ht Nk) as (-> & -> & -> & _). destruct Hs as (Hu & Hv & Em & _). rewrite Em. fold (diag3 (Rabs k) (Rabs k) 0).
    split; [apply det_zero_svd; [exact Hu|exact Hv|ring]|]. rewrite cubic_svd by assumption. apply zero_middle; [exact Hu|exact Hv|]. apply diag3_zero. repeat split; field.
  - intros [D C]. destruct (enforce_is_essential real_svd E Hs) as (k & r & t & _ & Hr & Ht & Ee). exists k, r, t. split; [exact Hr|]. split; [exact Ht|]. rewrite <- Ee. unfold enforce. destruct (real_svd E) as [[u [[a b] c]] vh]. destruct Hs as (Hu & Hv & Em & S1 & S2 & S3). fold (diag3 a b c) in Em. rewrite Em in C, D.
    apply det_zero_svd in D; [|assumption..]. rewrite cubic_svd in C by assumption. apply zero_middle in C; [|assumption..]. apply diag3_zero in C as (Ca & Cb & Cc).
    assert (c = 0) as ->. { destruct (Req_dec c 0) as [|N]; [assumption|]. assert (0 < c) by lra. assert (0 < a * b * c) by (repeat apply Rmult_lt_0_compat; lra). lra. }
    assert (a = b) as ->. { assert (a * ((a - b) * (a + b)) = 0) as P by lra. apply Rmult_integral in P as [-> |P]; [lra|]. apply Rmult_integral in P as [P|P]; lra. }
    rewrite Em. unfold diag3. do 3 f_equal; field.
Qed.
(** ** Elimination *)
Lemma weighted_sub p q e l : weighted (fun k => p k / e - q k) l = weighted p l / e - weighted q l.
Proof. revert p q. induction l as [|a l IH]; intros p q; cbn [weighted]; [unfold Rdiv; ring|]. rewrite (IH (fun n => p (S n)) (fun n => q (S n))). unfold Rdiv. ring. Qed.
Lemma weighted_sub_mul p q f l : weighted (fun k => p k - f * q k) l = weighted p l - f * weighted q l.
Proof. revert p q. induction l as [|a l IH]; intros p q; cbn [weighted]; [ring|]. rewrite (IH (fun n => p (S n)) (fun n => q (S n))). ring. Qed.
Lemma weighted_div p e l : weighted (fun k => p k / e) l = weighted p l / e.
Proof. revert p. induction l as [|a l IH]; intros p; cbn [weighted]; [unfold Rdiv; ring|]. rewrite (IH (fun n => p (S n))). unfold Rdiv. ring. Qed.
Definition vanishes (M : matrix) (l : list R) : Prop := forall i, (i < 10)%nat -> weighted (M i) l = 0.
Lemma set_row_same M i r : set_row M i r i = r. Proof. unfold set_row. now rewrite Nat.eqb_refl. Qed.
Lemma set_row_other M i r k : k <> i -> set_row M i r k = M k. Proof. intros N. unfold set_row. apply Nat.eqb_neq in N. now rewrite N. Qed.
Lemma vanishes_below i M j l : (i < 10)%nat -> (j < 10)%nat -> i <> j -> vanishes (eliminate_below i M j) l <-> vanishes M l.
Proof.
  intros Hi Hj N. unfold eliminate_below. destruct (Req_EM_T (M j i) 0) as [|Ne]; [reflexivity|]. split; intros H k Hk.
  - pose proof (H i Hi) as Ei. rewrite set_row_other in Ei by exact N. destruct (decide (k = j)) as [-> |Nk]; [|specialize (H k Hk); now rewrite set_row_other in H by exact Nk].
    specialize (H j Hj). rewrite set_row_same, weighted_sub, Ei in H. apply (Rmult_eq_reg_r (/ M j i)); [unfold Rdiv in H; lra|now apply Rinv_neq_0_compat].
  - destruct (decide (k = j)) as [-> |Nk]; [|rewrite set_row_other by exact Nk; now apply H]. rewrite set_row_same, weighted_sub, (H i Hi), (H j Hj). unfold Rdiv. ring.
Qed.
Lemma vanishes_below_all i js M l : (i < 10)%nat -> (forall j, j ∈ js -> (i < j < 10)%nat) -> vanishes (foldl (eliminate_below i) M js) l <-> vanishes M l.
Proof.
  intros Hi. revert M. induction js as [|j js IH]; intros M Hj; [reflexivity|]. cbn [foldl]. rewrite IH by (intros k Hk; apply Hj; now right). destruct (Hj j ltac:(left)). apply vanishes_below; lia.
Qed.
Lemma vanishes_eliminate M i M' l : (i < 10)%nat -> eliminate (Some M) i = Some M' -> vanishes M' l <-> vanishes M l.
Proof.
  intros Hi. unfold eliminate. destruct (Req_EM_T (M i i) 0) as [|Nd]; [discriminate|]. intros [= <-]. rewrite vanishes_below_all; [|exact Hi|intros j Hj; apply elem_of_seq in Hj; lia].
  split; intros H k Hk.
  - specialize (H k Hk). destruct (decide (k = i)) as [-> |N]; [|now rewrite set_row_other in H by exact N]. rewrite set_row_same, weighted_div in H. apply (Rmult_eq_reg_r (/ M i i)); [unfold Rdiv in H; lra|now apply Rinv_neq_0_compat].
  - destruct (decide (k = i)) as [-> |N]; [|rewrite set_row_other by exact N; now apply H]. rewrite set_row_same, weighted_div, (H i Hi). unfold Rdiv. ring.
Qed.
Lemma eliminate_none l : foldl eliminate None l = None. Proof. induction l as [|i l IH]; [reflexivity|exact IH]. Qed.
Lemma vanishes_forward n M M' l : (n <= 10)%nat -> foldl eliminate (Some M) (seq 0 n) = Some M' -> vanishes M' l <-> vanishes M l.
Proof.
  revert M'. induction n as [|n IH]; intros M' Hn; [intros [= <-]; reflexivity|]. rewrite seq_S, foldl_app. cbn [foldl]. destruct (foldl eliminate (Some M) (seq 0 n)) as [M1|]; [|discriminate]. intros H. rewrite (vanishes_eliminate M1 n M' l) by (lia || exact H). apply IH; [lia|reflexivity].
Qed.
Lemma vanishes_substitute M i l : (i < 10)%nat -> vanishes (substitute M i) l <-> vanishes M l.
Proof.
  intros Hi. unfold substitute. assert (forall j, j ∈ seq 0 i -> (j < i)%nat) as Hj by (intros j Hj; apply elem_of_seq in Hj; lia). revert M Hj. generalize (seq 0 i). intros js. induction js as [|j js IH]; intros M Hj; [reflexivity|]. cbn [foldl]. rewrite IH by (intros k Hk; apply Hj; now right). pose proof (Hj j ltac:(left)) as Lj. clear IH Hj.
  unfold substitute_above. split; intros H k Hk.
  - pose proof (H i Hi) as Ei. rewrite set_row_other in Ei by lia. destruct (decide (k = j)) as [-> |Nk]; [|specialize (H k Hk); now rewrite set_row_other in H by exact Nk]. specialize (H j ltac:(lia)). rewrite set_row_same, weighted_sub_mul, Ei in H. lra.
  - destruct (decide (k = j)) as [-> |Nk]; [|rewrite set_row_other by exact Nk; now apply H]. rewrite set_row_same, weighted_sub_mul, (H i Hi), (H j ltac:(lia)). ring.
Qed.
Lemma rev_seq_S n : rev (seq 0 (S n)) = n :: rev (seq 0 n). Proof. rewrite seq_S, rev_app_distr. reflexivity. Qed.
Lemma vanishes_backward n M l : (n <= 10)%nat -> vanishes (foldl substitute M (rev (seq 0 n))) l <-> vanishes M l.
Proof. revert M. induction n as [|n IH]; intros M Hn; [reflexivity|]. rewrite rev_seq_S. cbn [foldl]. rewrite IH by lia. apply vanishes_substitute. lia. Qed.
Definition delta (r c : nat) : R := if (r =? c)%nat then 1 else 0.
Definition stair (n : nat) (M : matrix) : Prop := forall r c, (c < n)%nat -> (r < 10)%nat -> (c <= r)%nat -> M r c = delta r c.
Lemma delta_same i : delta i i = 1. Proof. unfold delta. now rewrite Nat.eqb_refl. Qed.
Lemma delta_other i j : i <> j -> delta i j = 0. Proof. unfold delta. intros N. apply Nat.eqb_neq in N. now rewrite N. Qed.
Lemma stair_below i js M : (i < 10)%nat -> (forall j, j ∈ js -> (i < j < 10)%nat) -> stair i M -> M i i = 1 ->
  let M' := foldl (eliminate_below i) M js in stair i M' /\ M' i i = 1 /\ forall j, (i < j)%nat -> (j ∈ js \/ M j i = 0) -> M' j i = 0.
Proof.
  intros Hi. revert M. induction js as [|j js IH]; intros M Hj St Mi; cbn [foldl]; cbv zeta; [split; [exact St|]; split; [exact Mi|]; intros j _ [H|H]; [inversion H|exact H]|].
  destruct (Hj j ltac:(left)) as [L1 L2]. set (M1 := eliminate_below i M j).
  assert (stair i M1 /\ M1 i i = 1 /\ M1 j i = 0 /\ forall k, k <> j -> M1 k = M k) as (S1 & I1 & Z1 & O1).
  { unfold M1, eliminate_below. destruct (Req_EM_T (M j i) 0) as [E|E]; [auto|]. split; [|split; [|split; [|intros k Nk; now apply set_row_other]]].
    - intros r c Hc Hr Hcr. destruct (decide (r = j)) as [-> |N]; [|rewrite set_row_other by exact N; now apply St]. rewrite set_row_same, (St j c), (St i c), !delta_other by lia. unfold Rdiv. ring.
    - rewrite set_row_other by lia. exact Mi.
    - rewrite set_row_same, Mi. field. exact E. }
  destruct (IH M1) as (S2 & I2 & Z2); [intros k Hk; apply Hj; now right|exact S1|exact I1|]. split; [exact S2|]. split; [exact I2|]. intros k Lk Hk. apply Z2; [exact Lk|]. destruct (decide (k = j)) as [-> |N]; [right; exact Z1|]. destruct Hk as [Hk|Hk]; [apply elem_of_cons in Hk as [Hk|Hk]; [contradiction|left; exact Hk]|right; rewrite O1 by exact N; exact Hk].
Qed.
Lemma stair_eliminate M i M' : (i < 10)%nat -> stair i M -> eliminate (Some M) i = Some M' -> stair (S i) M'.
Proof.
  intros Hi St. unfold eliminate. destruct (Req_EM_T (M i i) 0) as [|Nd]; [discriminate|]. intros H. apply (inj Some) in H. subst M'. set (M1 := set_row M i (fun k => M i k / M i i)).
  destruct (stair_below i (seq (i + 1) (10 - (i + 1))) M1 Hi) as (S2 & I2 & Z2).
  - intros j Hj. apply elem_of_seq in Hj. lia.
  - intros r c Hc Hr Hcr. unfold M1. destruct (decide (r = i)) as [-> |N]; [|rewrite set_row_other by exact N; now apply St]. rewrite set_row_same, (St i c), delta_other by lia. unfold Rdiv. ring.
  - unfold M1. rewrite set_row_same. field. exact Nd.
  - intros r c Hc Hr Hcr. destruct (decide (c = i)) as [-> |N]; [|apply S2; lia]. destruct (decide (r = i)) as [-> |Nr]; [rewrite delta_same; exact I2|]. rewrite delta_other by exact Nr. apply Z2; [lia|]. left. apply elem_of_seq. lia.
Qed.
Lemma stair_forward n M M' : (n <= 10)%nat -> foldl eliminate (Some M) (seq 0 n) = Some M' -> stair n M'.
Proof.
  revert M'. induction n as [|n IH]; intros M' Hn; [intros _ r c Hc; lia|]. rewrite seq_S, foldl_app. cbn [foldl]. destruct (foldl eliminate (Some M) (seq 0 n)) as [M1|] eqn:E; [|discriminate]. intros H. apply (stair_eliminate M1 n M'); [lia| |exact H]. apply IH; [lia|reflexivity].
Qed.
Definition cleared (n : nat) (M : matrix) : Prop := stair 10 M /\ forall r c, (n <= c)%nat -> (c < 10)%nat -> (r < c)%nat -> M r c = 0.
Lemma cleared_substitute M i : (i < 10)%nat -> cleared (S i) M -> cleared i (substitute M i).
Proof.
  intros Hi [St Cl]. assert (forall c, (c < 10)%nat -> M i c = delta i c) as Ri. { intros c Hc. destruct (decide (c <= i)%nat); [apply St; lia|]. rewrite delta_other by lia. apply Cl; lia. }
  unfold substitute. assert (forall j, j ∈ seq 0 i <-> (j < i)%nat) as Hj by (intros j; rewrite elem_of_seq; lia).
  assert (forall js M1, (forall j, j ∈ js -> (j < i)%nat) -> M1 i = M i -> let M' := foldl (substitute_above i) M1 js in M' i = M i /\ (forall r c, (c < 10)%nat -> c <> i -> M' r c = M1 r c) /\ (forall r, (i < r)%nat -> M' r = M1 r) /\ forall r, (r < i)%nat -> (r ∈ js \/ M1 r i = 0) -> M' r i = 0) as F.
  { clear Hj. intros js. induction js as [|j js IH]; intros M1 Lj E1; cbn [foldl]; cbv zeta; [repeat split; auto; intros r _ [H|H]; [inversion H|exact H]|]. pose proof (Lj j ltac:(left)) as L. destruct (IH (substitute_above i M1 j)) as (A & B & C & D); [intros k Hk; apply Lj; now right|unfold substitute_above; rewrite set_row_other by lia; exact E1|].
    split; [exact A|]. split; [|split].
    - intros r c Hc N. rewrite (B r c Hc N). unfold substitute_above. destruct (decide (r = j)) as [-> |Nr]; [|now rewrite set_row_other by exact Nr]. rewrite set_row_same, E1, Ri, delta_other by (exact Hc || lia). ring.
    - intros r Hr. rewrite (C r Hr). unfold substitute_above. apply set_row_other. lia.
    - intros r Hr Hk. apply D; [exact Hr|]. unfold substitute_above. destruct (decide (r = j)) as [-> |Nr]; [right; rewrite set_row_same, E1, Ri, delta_same by lia; ring|]. rewrite set_row_other by exact Nr. destruct Hk as [Hk|Hk]; [apply elem_of_cons in Hk as [Hk|Hk]; [contradiction|auto]|auto]. }
  destruct (F (seq 0 i) M) as (A & B & C & D); [intros j; apply Hj|reflexivity|]. split.
  - intros r c Hc Hr Hcr. destruct (decide (c = i)) as [-> |N]; [|rewrite B by assumption; now apply St]. destruct (decide (r = i)) as [-> |Nr]; [rewrite A; apply St; lia|]. rewrite C by lia. apply St; lia.
  - intros r c Hc Lc Hr. destruct (decide (c = i)) as [-> |N]; [|rewrite B by assumption; apply Cl; lia]. apply D; [exact Hr|]. left. now apply Hj.
Qed.
Lemma cleared_backward n M : (n <= 10)%nat -> cleared n M -> cleared 0 (foldl substitute M (rev (seq 0 n))).
Proof. revert M. induction n as [|n IH]; intros M Hn H; [exact H|]. rewrite rev_seq_S. cbn [foldl]. apply IH; [lia|]. apply cleared_substitute; [lia|exact H]. Qed.
Lemma gauss_jordan M M' : FivePointsGaussJordan M = Some M' -> (forall l, vanishes M' l <-> vanishes M l) /\ forall r c, (r < 10)%nat -> (c < 10)%nat -> M' r c = delta r c.
Proof.
  unfold FivePointsGaussJordan. destruct (foldl eliminate (Some M) (seq 0 10)) as [M1|] eqn:E; [|discriminate]. intros H. apply (inj Some) in H. subst M'. split.
  - intros l. rewrite vanishes_backward by lia. apply (vanishes_forward 10); [lia|exact E].
  - intros r c Hr Hc. destruct (cleared_backward 10 M1) as [St Cl]; [lia|split; [apply (stair_forward 10 M); [lia|exact E]|lia]|]. destruct (decide (c <= r)%nat); [now apply St|]. rewrite delta_other by lia. apply Cl; lia.
Qed.
(** ** The action matrix *)
Definition low_monomials (x y z : R) (k : nat) : R := nth k [x * x; x * y; y * y; x * z; y * z; z * z; x; y; z; 1] 0.
Lemma weighted_ten p v : weighted p (v <$> seq 0 10) = p 0%nat * v 0%nat + p 1%nat * v 1%nat + p 2%nat * v 2%nat + p 3%nat * v 3%nat + p 4%nat * v 4%nat + p 5%nat * v 5%nat + p 6%nat * v 6%nat + p 7%nat * v 7%nat + p 8%nat * v 8%nat + p 9%nat * v 9%nat.
Proof. cbn [seq fmap list_fmap weighted]. ring. Qed.
Lemma action_eigenvector M x y z : (forall r c, (r < 10)%nat -> (c < 10)%nat -> M r c = delta r c) -> vanishes M (monomials x y z) -> eigenvector (action_matrix M) (low_monomials x y z) x.
Proof.
  intros Hd Hv. split; [exists 9%nat; split; [lia|unfold low_monomials; cbn; lra]|]. intros i Hi. rewrite weighted_ten.
  assert (forall r, (r < 10)%nat -> nth r [x * x * x; x * x * y; x * y * y; y * y * y; x * x * z; x * y * z; y * y * z; x * z * z; y * z * z; z * z * z] 0 +
    (M r 10%nat * (x * x) + M r 11%nat * (x * y) + M r 12%nat * (y * y) + M r 13%nat * (x * z) + M r 14%nat * (y * z) + M r 15%nat * (z * z) + M r 16%nat * x + M r 17%nat * y + M r 18%nat * z + M r 19%nat) = 0) as F.
  { intros r Hr. specialize (Hv r Hr). fold (value (M r) x y z) in Hv. rewrite value_eq in Hv. rewrite !(Hd r) in Hv by lia. rewrite <- Hv. unfold delta. do 10 (destruct r as [|r]; [cbn [Nat.eqb nth]; ring|]). lia. }
  unfold action_matrix, low_monomials.
  do 6 (destruct i as [|i]; [cbn [nth Nat.add]; first [pose proof (F 0%nat ltac:(lia)) as G; cbn [nth] in G; lra|pose proof (F 1%nat ltac:(lia)) as G; cbn [nth] in G; lra|pose proof (F 2%nat ltac:(lia)) as G; cbn [nth] in G; lra|pose proof (F 4%nat ltac:(lia)) as G; cbn [nth] in G; lra|pose proof (F 5%nat ltac:(lia)) as G; cbn [nth] in G; lra|pose proof (F 7%nat ltac:(lia)) as G; cbn [nth] in G; lra]|]).
  do 4 (destruct i as [|i]; [cbn [nth Nat.eqb]; ring|]). lia.
Qed.
(** ** Candidates *)
Lemma combination_at b x y z w : combination b x y z w = at_point b x y z w. Proof. reflexivity. Qed.
Lemma squares_sum a c : foldr Rplus 0 ((fun x => x * x) <$> entries a ++ entries c) = inner a a + inner c c.
Proof. unfold entries, inner. cbn [app fmap list_fmap foldr]. ring. Qed.
Lemma inner_nonneg m : 0 <= inner m m.
Proof. unfold inner. pose proof (Rle_0_sqr (m11 m)). pose proof (Rle_0_sqr (m12 m)). pose proof (Rle_0_sqr (m13 m)). pose proof (Rle_0_sqr (m21 m)). pose proof (Rle_0_sqr (m22 m)). pose proof (Rle_0_sqr (m23 m)). pose proof (Rle_0_sqr (m31 m)). pose proof (Rle_0_sqr (m32 m)). pose proof (Rle_0_sqr (m33 m)). unfold Rsqr in *. lra. Qed.
Lemma candidate_in b V E : E ∈ candidate b V -> exists x y z, (V 9%nat).1 * (V 9%nat).1 + (V 9%nat).2 * (V 9%nat).2 <> 0 /\ x = (cdiv (V 6%nat) (V 9%nat)).1 /\ y = (cdiv (V 7%nat) (V 9%nat)).1 /\ z = (cdiv (V 8%nat) (V 9%nat)).1 /\
  at_point b (cdiv (V 6%nat) (V 9%nat)).2 (cdiv (V 7%nat) (V 9%nat)).2 (cdiv (V 8%nat) (V 9%nat)).2 0 = mscale 0 mI /\ inner (at_point b x y z 1) (at_point b x y z 1) <> 0 /\ E = mscale (/ sqrt (inner (at_point b x y z 1) (at_point b x y z 1))) (at_point b x y z 1).
Proof.
  unfold candidate. destruct (Req_EM_T _ 0) as [_|N9]; [intros H; inversion H|]. cbv beta zeta. change combination with at_point. set (re := at_point b _ _ _ 1). set (im := at_point b _ _ _ 0). rewrite squares_sum. set (n := sqrt (inner re re + inner im im)).
  destruct (Req_EM_T n 0) as [_|Nn]; [intros H; inversion H|]. destruct (forallb _ (entries im)) eqn:F; [|intros H; inversion H]. intros ->%elem_of_list_singleton.
  assert (im = mscale 0 mI) as Z.
  { rewrite forallb_forall in F. assert (forall v, In v (entries im) -> v = 0) as G. { intros v Hv. specialize (F v Hv). destruct (Req_EM_T (v / n) 0) as [E|]; [|discriminate]. apply (Rmult_eq_reg_r (/ n)); [unfold Rdiv in E; lra|now apply Rinv_neq_0_compat]. }
    unfold entries in G. apply mat_eq; unfold mscale, mI; cbn [m11 m12 m13 m21 m22 m23 m31 m32 m33]; (transitivity 0; [apply G; cbn [In]; tauto|ring]). }
  assert (inner im im = 0) as Zi by (rewrite Z; unfold inner, mscale, mI; cbn [m11 m12 m13 m21 m22 m23 m31 m32 m33]; ring). exists (cdiv (V 6%nat) (V 9%nat)).1, (cdiv (V 7%nat) (V 9%nat)).1, (cdiv (V 8%nat) (V 9%nat)).1. split; [exact N9|]. do 3 (split; [reflexivity|]). split; [exact Z|].
  fold re. unfold n in *. rewrite Zi, Rplus_0_r in *. split; [|reflexivity]. intros Z0. apply Nn. rewrite Z0. apply sqrt_0.
Qed.
Lemma candidate_of b V x y z p q : p * p + q * q <> 0 -> (V 9%nat) = (p, q) -> (V 6%nat) = (p * x, q * x) -> (V 7%nat) = (p * y, q * y) -> (V 8%nat) = (p * z, q * z) -> inner (at_point b x y z 1) (at_point b x y z 1) <> 0 ->
  candidate b V = [mscale (/ sqrt (inner (at_point b x y z 1) (at_point b x y z 1))) (at_point b x y z 1)].
Proof.
  intros N E9 E6 E7 E8 Ni. assert (forall u, cdiv (p * u, q * u) (p, q) = (u, 0)) as C. { intros u. unfold cdiv. cbn [fst snd]. f_equal; field; exact N. }
  unfold candidate. rewrite E9, E6, E7, E8, !C. cbn [fst snd]. destruct (Req_EM_T _ 0) as [|_]; [contradiction|]. cbv beta zeta. change combination with at_point. set (re := at_point b x y z 1) in *. assert (at_point b 0 0 0 0 = mscale 0 mI) as ->. { destruct b as [[[b0 b1] b2] b3]. unfold at_point, madd, mscale, mI. cbn [m11 m12 m13 m21 m22 m23 m31 m32 m33]. f_equal; ring. }
  rewrite squares_sum. assert (inner (mscale 0 mI) (mscale 0 mI) = 0) as -> by (unfold inner, mscale, mI; cbn [m11 m12 m13 m21 m22 m23 m31 m32 m33]; ring). rewrite Rplus_0_r. set (n := sqrt (inner re re)).
  pose proof (inner_nonneg re) as P. destruct (Req_EM_T n 0) as [E|Nn]; [exfalso; apply Ni; apply sqrt_eq_0; assumption|]. destruct (forallb _ _) eqn:F; [reflexivity|]. exfalso. apply not_true_iff_false in F. apply F. apply forallb_forall. intros v Hv.
  assert (v = 0) as ->. { unfold entries, mscale, mI in Hv. cbn [m11 m12 m13 m21 m22 m23 m31 m32 m33 In] in Hv. intuition lra. } destruct (Req_EM_T (0 / n) 0) as [|Q]; [reflexivity|]. exfalso. apply Q. unfold Rdiv. ring.
Qed.
Lemma at_point_scale b k x y z w : mscale k (at_point b x y z w) = at_point b (k * x) (k * y) (k * z) (k * w).
Proof. destruct b as [[[b0 b1] b2] b3]. unfold at_point, madd, mscale. cbn [m11 m12 m13 m21 m22 m23 m31 m32 m33]. f_equal; ring. Qed.
Lemma inner_zero m : inner m m = 0 -> m = mscale 0 mI.
Proof.
  intros H. assert (forall x : R, x * x = 0 -> x = 0) as Q by (intros x Hx; apply Rsqr_0_uniq; exact Hx). pose proof (Rle_0_sqr (m11 m)). pose proof (Rle_0_sqr (m12 m)). pose proof (Rle_0_sqr (m13 m)). pose proof (Rle_0_sqr (m21 m)). pose proof (Rle_0_sqr (m22 m)). pose proof (Rle_0_sqr (m23 m)). pose proof (Rle_0_sqr (m31 m)). pose proof (Rle_0_sqr (m32 m)). pose proof (Rle_0_sqr (m33 m)). unfold Rsqr, inner in *.
  apply mat_eq; unfold mscale, mI; cbn [m11 m12 m13 m21 m22 m23 m31 m32 m33]; rewrite Rmult_0_l; apply Q; lra.
Qed.
