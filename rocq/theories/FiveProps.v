(** * C91: essential matrices from five points *)
From stdpp Require Import prelude.
From Coq Require Import Reals Lra.
From Verif Require Import Base Lin TriangModel FitModel FitSpec P3pModel P3pProofs PlaneProofs FitProofs SvdProofs EssModel EssSpec EssProofs FiveModel FiveSpec FiveProofs.
Local Open Scope R_scope.

Lemma inner_scale2 k m : inner (mscale k m) (mscale k m) = k * k * inner m m. Proof. unfold inner, mscale. cbn [m11 m12 m13 m21 m22 m23 m31 m32 m33]. ring. Qed.
(** The products of polynomials are products, for degrees up to 1 and 1, and up to 2 and 1 *)
Theorem C91_products a b x y z : (forall k, (k < 16)%nat -> b k = 0) ->
  ((forall k, (k < 16)%nat -> a k = 0) -> value (o1 a b) x y z = value a x y z * value b x y z) /\
  ((forall k, (k < 10)%nat -> a k = 0) -> value (o2 a b) x y z = value a x y z * value b x y z).
Proof. intros Hb. split; intros Ha; [now apply value_o1|now apply value_o2]. Qed.
(** The ten constraints hold exactly at the essential matrices *)
Theorem C91_constraints b x y z : (forall i, (i < 10)%nat -> value (FivePointsPolynomialConstraints b i) x y z = 0) <-> is_essential (at_point b x y z 1).
Proof. rewrite essential_iff. apply rows_zero. Qed.
(** Elimination keeps the solutions, and solves for the first ten unknowns *)
Theorem C91_elimination M M' : FivePointsGaussJordan M = Some M' ->
  (forall l, (forall i, (i < 10)%nat -> weighted (M' i) l = 0) <-> (forall i, (i < 10)%nat -> weighted (M i) l = 0)) /\ forall r c, (r < 10)%nat -> (c < 10)%nat -> M' r c = if (r =? c)%nat then 1 else 0.
Proof. apply gauss_jordan. Qed.
(** Every solution is an eigenvector of the action matrix, for its first coordinate *)
Theorem C91_action b M x y z : FivePointsGaussJordan (FivePointsPolynomialConstraints b) = Some M -> is_essential (at_point b x y z 1) ->
  eigenvector (action_matrix M) (fun k => nth k [x * x; x * y; y * y; x * z; y * z; z * z; x; y; z; 1] 0) x.
Proof. intros H HE. destruct (gauss_jordan _ _ H) as [V D]. apply (action_eigenvector M x y z D). apply V. intros i Hi. now apply (C91_constraints b x y z). Qed.
(** What is returned has a unit sum of squares and satisfies the equations *)
Theorem C91_sound null_space eigenvectors samples l E : basis_of_solutions samples (null_space (epipolar_row <$> samples)) -> EssentialFivePoints null_space eigenvectors samples = Some l -> E ∈ l ->
  inner E E = 1 /\ forall s, s ∈ samples -> epipolar E s = 0.
Proof.
  intros [HB _]. unfold EssentialFivePoints. destruct (9 <? length samples)%nat; [discriminate|]. set (b := null_space _) in *. destruct (FivePointsGaussJordan _) as [M|]; [|intros H; apply (inj Some) in H; subst l; intros H; inversion H]. intros H. apply (inj Some) in H. subst l. intros H. apply elem_of_list_bind in H as (V & HV & _).
  apply candidate_in in HV as (x & y & z & _ & _ & _ & _ & _ & N & ->). set (F := at_point b x y z 1) in *. pose proof (inner_nonneg F) as P. split.
  - rewrite inner_scale2. assert (sqrt (inner F F) * sqrt (inner F F) = inner F F) as S by now apply sqrt_sqrt. assert (sqrt (inner F F) <> 0) as Nz by (intros Z; rewrite Z in S; lra). rewrite <- S at 3. field. exact Nz.
  - apply HB. unfold F. rewrite at_point_scale. eauto.
Qed.
(** A column that belongs to a simple eigenvalue and to the first coordinate of a solution gives that solution *)
Lemma simple_column A V x y z : simple_eigenvalue A x -> eigenvector A (low_monomials x y z) x -> complex_eigenvector A V x -> exists p q, p * p + q * q <> 0 /\ forall i, (i < 10)%nat -> V i = (p * low_monomials x y z i, q * low_monomials x y z i).
Proof.
  intros Hs Hm [(i0 & L0 & N0) HV]. assert (forall w, (forall i, (i < 10)%nat -> weighted (A i) (w <$> seq 0 10) = x * w i) -> exists k, forall i, (i < 10)%nat -> w i = k * low_monomials x y z i) as F.
  { intros w Hw. assert (forall i, {w i = 0} + {w i <> 0}) as Dec by (intros i; apply Req_EM_T). destruct (Forall_Exists_dec (fun i => w i = 0) (fun i => w i <> 0) Dec (seq 0 10)) as [Z|N]; [exists 0; intros i Hi; rewrite Forall_forall in Z; rewrite (Z i) by (apply elem_of_seq; lia); ring|]. apply (Hs _ w Hm). split; [|exact Hw]. apply Exists_exists in N as (i & Hi & N). apply elem_of_seq in Hi. exists i. split; [lia|exact N]. }
  destruct (F (fun k => (V k).1)) as [p Hp]; [intros i Hi; now apply HV|]. destruct (F (fun k => (V k).2)) as [q Hq]; [intros i Hi; now apply HV|]. cbv beta in Hp, Hq. exists p, q. split; [|intros i Hi; rewrite <- Hp, <- Hq by exact Hi; now destruct (V i)].
  intros Z. assert (p = 0) by nra. assert (q = 0) by nra. subst p q. apply N0. specialize (Hp i0 L0). specialize (Hq i0 L0). rewrite Rmult_0_l in Hp, Hq. destruct (V i0) as [u v]. cbn [fst snd] in *. now subst.
Qed.
Theorem C91_simple b M V x y z : (forall x y z w, at_point b x y z w = mscale 0 mI -> x = 0 /\ y = 0 /\ z = 0 /\ w = 0) ->
  FivePointsGaussJordan (FivePointsPolynomialConstraints b) = Some M -> is_essential (at_point b x y z 1) -> simple_eigenvalue (action_matrix M) x -> complex_eigenvector (action_matrix M) V x ->
  exists k, k * k * inner (at_point b x y z 1) (at_point b x y z 1) = 1 /\ candidate b V = [mscale k (at_point b x y z 1)].
Proof.
  intros HB HM HE Hs HV. pose proof (C91_action b M x y z HM HE) as Hv. destruct (simple_column _ V x y z Hs Hv HV) as (p & q & N & E).
  assert (inner (at_point b x y z 1) (at_point b x y z 1) <> 0) as Ni. { intros Z. apply inner_zero in Z. apply HB in Z as (_ & _ & _ & Z). lra. }
  set (F := at_point b x y z 1) in *. pose proof (inner_nonneg F) as P. exists (/ sqrt (inner F F)). assert (sqrt (inner F F) * sqrt (inner F F) = inner F F) as S by now apply sqrt_sqrt. assert (sqrt (inner F F) <> 0) as Nz by (intros Z; rewrite Z in S; lra). split; [rewrite <- S at 3; field; exact Nz|].
  apply (candidate_of b V x y z p q); [exact N| | | | |exact Ni]; rewrite E by lia; unfold low_monomials; cbn [nth]; f_equal; ring.
Qed.
(** The motion behind the samples is found if elimination succeeds, its fourth coordinate is not 0 and its eigenvalue is simple *)
Theorem C91_complete null_space eigenvectors samples r t M : let b := null_space (epipolar_row <$> samples) in
  basis_of_solutions samples b -> (length samples <= 9)%nat -> rotation r -> dot t t = 1 -> (forall s, s ∈ samples -> epipolar (essential r t) s = 0) ->
  FivePointsGaussJordan (FivePointsPolynomialConstraints b) = Some M -> 
  (forall x y z, essential r t <> at_point b x y z 0) -> (forall k x y z, mscale k (essential r t) = at_point b x y z 1 -> simple_eigenvalue (action_matrix M) x /\ finds_eigenvalue (action_matrix M) (eigenvectors (action_matrix M)) x) ->
  exists l c, EssentialFivePoints null_space eigenvectors samples = Some l /\ c * c = / 2 /\ mscale c (essential r t) ∈ l.
Proof.
  intros b [HB HI] HL Hr Ht Hs HM Hw Hsim. destruct (proj1 (HB (essential r t)) Hs) as (x & y & z & w & E). assert (w <> 0) as Nw by (intros ->; now apply (Hw x y z)). assert (mscale (/ w) (essential r t) = at_point b (/ w * x) (/ w * y) (/ w * z) 1) as E1. { rewrite E, at_point_scale. f_equal. field. exact Nw. }
  set (x' := / w * x) in *. set (y' := / w * y) in *. set (z' := / w * z) in *. assert (is_essential (at_point b x' y' z' 1)) as HE by (rewrite <- E1; exists (/ w), r, t; auto). destruct (Hsim _ _ _ _ E1) as (Sx & V & InV & HV).
  destruct (C91_simple b M V x' y' z' HI HM HE Sx HV) as (k & Ek & Ec). rewrite <- E1 in Ek, Ec. rewrite inner_scale2, (essential_norm r t Hr Ht) in Ek. rewrite mscale_mscale in Ec.
  eexists _, (k * / w). unfold EssentialFivePoints. assert ((9 <? length samples)%nat = false) as -> by (apply Nat.ltb_ge; lia). cbv zeta. fold b. rewrite HM. split; [reflexivity|]. split; [lra|]. apply elem_of_list_bind. exists V. split; [rewrite Ec; left|exact InV].
Qed.
(** Elimination swaps no rows: where the first matrix of the basis is singular nothing is found *)
Theorem C91_pivot null_space eigenvectors samples b0 b1 b2 b3 : null_space (epipolar_row <$> samples) = (b0, b1, b2, b3) -> det b0 = 0 -> (length samples <= 9)%nat -> EssentialFivePoints null_space eigenvectors samples = Some [].
Proof.
  intros Eb D HL. unfold EssentialFivePoints. assert ((9 <? length samples)%nat = false) as -> by (apply Nat.ltb_ge; lia). cbv zeta. rewrite Eb. set (M := FivePointsPolynomialConstraints (b0, b1, b2, b3)). assert (M 0%nat 0%nat = 0) as Z.
  { rewrite <- D. unfold M, FivePointsPolynomialConstraints. cbn [nth]. unfold determinant_poly, padd, psub, o2, o1, E_poly, coefficients, entry, entries, det. cbn [nth Nat.mul Nat.add]. ring. }
  unfold FivePointsGaussJordan. cbn [seq foldl]. unfold eliminate at 10. destruct (Req_EM_T (M 0%nat 0%nat) 0) as [_|N]; [|contradiction]. reflexivity.
Qed.
(** More than nine samples are written outside the matrix *)
Theorem C91_many null_space eigenvectors samples : EssentialFivePoints null_space eigenvectors samples = None <-> (9 < length samples)%nat.
Proof. unfold EssentialFivePoints. destruct (Nat.ltb_spec 9 (length samples)); [tauto|]. cbv zeta. destruct (FivePointsGaussJordan _); split; intros H'; (discriminate || lia). Qed.
(** Lists of different lengths are refused *)
Theorem C91_lengths null_space eigenvectors x1 x2 : length x1 <> length x2 -> essential_five_points null_space eigenvectors x1 x2 = Err RuntimeError.
Proof. intros H. unfold essential_five_points. apply Nat.eqb_neq in H. now rewrite H. Qed.
Print Assumptions C91_products. Print Assumptions C91_constraints. Print Assumptions C91_elimination. Print Assumptions C91_action. Print Assumptions C91_sound. Print Assumptions C91_simple. Print Assumptions C91_complete. Print Assumptions C91_pivot. Print Assumptions C91_many. Print Assumptions C91_lengths.
