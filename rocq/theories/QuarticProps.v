(** C87: the roots of a quartic equation *)
From stdpp Require Import prelude.
From Coq Require Import Reals Lra Psatz.
From Verif Require Import Lin TriangModel FitModel Cpx P3pModel P3pSpec QuarticProofs.
Local Open Scope R_scope.

(** The four numbers returned are the real parts of numbers z1, ..., z4 that are the roots, with multiplicity, of the polynomial *)
Theorem C87_factors c0 c1 c2 c3 c4 roots : epsilon < Rabs c4 -> SolveQuartic (c0, c1, c2, c3, c4) = Some (Some roots) ->
  exists z1 z2 z3 z4, roots = [re z1; re z2; re z3; re z4] /\
    forall x, at_complex c0 c1 c2 c3 c4 x = cmul (cr c4) (cmul (cmul (csub x z1) (csub x z2)) (cmul (csub x z3) (csub x z4))).
Proof.
  intros N. unfold SolveQuartic. destruct (Rlt_dec epsilon (Rabs c4)) as [_|]; [|contradiction]. destruct (_ && _) in |- *; [discriminate|].
  assert (c4 <> 0) as N4. { intros ->. rewrite Rabs_R0 in N. pose proof epsilon_pos. lra. }
  destruct (ferrari _ _ _ _) as [[[[z1 z2] z3] z4]|] eqn:F; [|discriminate]. intros H. injection H as <-. exists z1, z2, z3, z4. split; [reflexivity|]. intros x.
  rewrite (ferrari_roots _ _ _ _ _ _ _ _ x F). rewrite !cr_div by exact N4. unfold at_complex, cpow. simpl. field. apply cr_neq, N4.
Qed.
(** In particular every real root is returned *)
Theorem C87_every_real_root c0 c1 c2 c3 c4 roots x : epsilon < Rabs c4 -> SolveQuartic (c0, c1, c2, c3, c4) = Some (Some roots) -> at_real c0 c1 c2 c3 c4 x = 0 -> x ∈ roots.
Proof.
  intros N H E. destruct (C87_factors _ _ _ _ _ _ N H) as (z1 & z2 & z3 & z4 & -> & F). specialize (F (cr x)).
  assert (at_complex c0 c1 c2 c3 c4 (cr x) = cr 0) as E'. { rewrite <- E. unfold at_complex, at_real, cpow. simpl. rewrite !cr_add, !cr_mul. ring. }
  rewrite E' in F. symmetry in F. assert (c4 <> 0) as N4. { intros ->. rewrite Rabs_R0 in N. pose proof epsilon_pos. lra. }
  assert (forall z, csub (cr x) z = cr 0 -> x = re z) as D. { intros z Hz. injection Hz. intros. lra. }
  apply cmul_0 in F as [F|F]; [now apply cr_inj in F|]. apply cmul_0 in F as [F|F]; apply cmul_0 in F as [F|F]; apply D in F as ->; set_solver.
Qed.
(** and every number returned is the real part of a root *)
Theorem C87_returned_are_real_parts c0 c1 c2 c3 c4 roots : epsilon < Rabs c4 -> SolveQuartic (c0, c1, c2, c3, c4) = Some (Some roots) ->
  forall i x, roots !! i = Some x -> exists y, at_complex c0 c1 c2 c3 c4 (Cpx x y) = cr 0.
Proof.
  intros N H i x L. destruct (C87_factors _ _ _ _ _ _ N H) as (z1 & z2 & z3 & z4 & -> & F). assert (exists z, x = re z /\ at_complex c0 c1 c2 c3 c4 z = cr 0) as (z & -> & Hz).
  { destruct i as [|[|[|[|i]]]]; simpl in L; [injection L as <-..|]; [exists z1|exists z2|exists z3|exists z4|now rewrite lookup_nil in L]; (split; [reflexivity|]); rewrite F; ring. }
  exists (im z). destruct z. exact Hz.
Qed.
(** The equation is solved when none of two resolvents is 0: with b, c, d, e the coefficients over the first one *)
Theorem C87_solved c0 c1 c2 c3 c4 : epsilon < Rabs c4 ->
  let b := c3 / c4 in let c := c2 / c4 in let d := c1 / c4 in let e := c0 / c4 in
  epsilon <= Rabs (c * c - 3 * b * d + 12 * e) -> 8 * b * c - 16 * d - 2 * b * b * b <> 0 ->
  exists roots, SolveQuartic (c0, c1, c2, c3, c4) = Some (Some roots) /\ length roots = 4%nat.
Proof.
  intros N b c d e H1 H3. unfold SolveQuartic. destruct (Rlt_dec epsilon (Rabs c4)) as [_|]; [|contradiction]. fold b c d e.
  destruct (Rlt_dec (Rabs (c * c - 3 * b * d + 12 * e)) epsilon) as [|_]; [lra|]. simpl.
  destruct (ferrari_some b c d e) as [[[[z1 z2] z3] z4] ->]; [|exact H3|eexists; split; reflexivity]. intros E. rewrite E, Rabs_R0 in H1. pose proof epsilon_pos. lra.
Qed.
(** Refinement leaves a simple root where it is, so every simple real root of the equation is among the refined ones *)
Theorem C87_refinement_keeps_roots c0 c1 c2 c3 c4 roots i x : roots !! i = Some x -> simple_root c0 c1 c2 c3 c4 x -> RefineQuarticRoots (c0, c1, c2, c3, c4) roots !! i = Some (Some x).
Proof.
  intros L [E D]. unfold RefineQuarticRoots. rewrite list_lookup_fmap, L.
  assert (newton (quartic_value (c0, c1, c2, c3, c4)) (quartic_derivative (c0, c1, c2, c3, c4)) 5 (/ 10 ^ 20) x = Some x) as R; [|exact (f_equal Some R)]. apply newton_root; [exact newton_tol| |].
  - rewrite <- E. unfold quartic_value, at_real. ring.
  - intros E0. apply D. rewrite <- E0. unfold quartic_derivative. ring.
Qed.
Theorem C87_simple_roots_found c0 c1 c2 c3 c4 roots x : epsilon < Rabs c4 -> SolveQuartic (c0, c1, c2, c3, c4) = Some (Some roots) -> simple_root c0 c1 c2 c3 c4 x ->
  Some x ∈ RefineQuarticRoots (c0, c1, c2, c3, c4) roots.
Proof.
  intros N H S. pose proof (C87_every_real_root _ _ _ _ _ _ x N H (proj1 S)) as [i L]%elem_of_list_lookup. apply elem_of_list_lookup. exists i. now apply C87_refinement_keeps_roots.
Qed.
(** Each refined number is a step of Newton's method away from the last one tried, or the last of five steps *)
Theorem C87_refined_is_near c0 c1 c2 c3 c4 roots i x y : roots !! i = Some x -> RefineQuarticRoots (c0, c1, c2, c3, c4) roots !! i = Some (Some y) ->
  let f := at_real c0 c1 c2 c3 c4 in let df x := 4 * c4 * x ^ 3 + 3 * c3 * x ^ 2 + 2 * c2 * x + c1 in
  let step x := x - f x / df x in
  exists n, (n <= 5)%nat /\ y = Nat.iter n step x /\ (forall k, (k < n)%nat -> df (Nat.iter k step x) <> 0) /\ (n = 5%nat \/ df y <> 0 /\ Rabs (f y / df y) < / 10 ^ 20).
Proof.
  intros L H f df step. unfold RefineQuarticRoots in H. set (tol := / 10 ^ 20) in *. clearbody tol. rewrite list_lookup_fmap, L in H. apply (inj Some) in H.
  assert (forall x, quartic_value (c0, c1, c2, c3, c4) x = f x) as EF by (intros; unfold quartic_value, f, at_real; ring). assert (forall x, quartic_derivative (c0, c1, c2, c3, c4) x = df x) as ED by (intros; unfold quartic_derivative, df; ring).
  clear L. revert x H. generalize 5%nat. induction n as [|n IH]; intros x H; cbn [newton] in H.
  - injection H as <-. exists 0%nat. split; [lia|]. split; [reflexivity|]. split; [lia|]. now left.
  - rewrite ED, EF in H. destruct (Req_EM_T (df x) 0) as [|Nz]; [discriminate|]. destruct (Rlt_dec (Rabs (f x / df x)) tol) as [T|T].
    + injection H as <-. exists 0%nat. split; [lia|]. split; [reflexivity|]. split; [lia|]. right. now split.
    + fold (step x) in H. destruct (IH _ H) as (k & Hk & -> & Hd & He). exists (S k). split; [lia|]. rewrite Nat.iter_succ_r. split; [reflexivity|]. split; [|destruct He as [-> |He]; [now left|now right]].
      intros [|j] Hj; [exact Nz|]. rewrite Nat.iter_succ_r. apply Hd. lia.
Qed.
(** "Every quartic with real roots is solved" is false. A fourfold root is refused, *)
Theorem C87_fourfold_root_refuted : at_real 0 0 0 0 1 0 = 0 /\ SolveQuartic (0, 0, 0, 0, 1) = None.
Proof.
  split; [unfold at_real; ring|]. unfold SolveQuartic. pose proof epsilon_pos as P. pose proof epsilon_small as Q. destruct (Rlt_dec epsilon (Rabs 1)) as [_|H]; [|rewrite Rabs_R1 in H; lra].
  replace (0 / 1) with 0 by field. repeat match goal with |- context [Rlt_dec (Rabs ?x) epsilon] => replace x with 0 by ring; destruct (Rlt_dec (Rabs 0) epsilon) as [_|H]; [|rewrite Rabs_R0 in H; lra] end. reflexivity.
Qed.
(** and x^4 - 6 x^2 - 3, which has two simple real roots, gives no numbers: c^2 - 3 b d + 12 e is 0, and the cube root cancels to 0 *)
Theorem C87_solved_refuted : simple_root (-3) 0 (-6) 0 1 (sqrt (3 + sqrt 12)) /\ SolveQuartic (-3, 0, -6, 0, 1) = Some None.
Proof.
  split.
  - assert (0 <= sqrt 12) as P by apply sqrt_pos. assert (sqrt 12 * sqrt 12 = 12) as S by (apply sqrt_sqrt; lra). assert (sqrt (3 + sqrt 12) * sqrt (3 + sqrt 12) = 3 + sqrt 12) as T by (apply sqrt_sqrt; lra).
    set (x := sqrt (3 + sqrt 12)) in *. assert (0 < x) as Px by (apply sqrt_lt_R0; lra). split.
    + unfold at_real. replace (1 * x ^ 4 + 0 * x ^ 3 + -6 * x ^ 2 + 0 * x + -3) with ((x * x) * (x * x) - 6 * (x * x) - 3) by ring. rewrite T. nra.
    + replace (4 * 1 * x ^ 3 + 3 * 0 * x ^ 2 + 2 * -6 * x + 0) with (4 * x * (x * x - 3)) by ring. rewrite T. assert (0 < sqrt 12) by (apply sqrt_lt_R0; lra). nra.
  - unfold SolveQuartic. pose proof epsilon_pos as P. pose proof epsilon_small as Q. destruct (Rlt_dec epsilon (Rabs 1)) as [_|H]; [|rewrite Rabs_R1 in H; lra].
    replace (0 / 1) with 0 by field. replace (-6 / 1) with (-6) by field. replace (-3 / 1) with (-3) by field. replace (3 * 0 * 0 - 8 * -6) with 48 by ring. rewrite (Rabs_pos_eq 48) by lra.
    destruct (Rlt_dec 48 epsilon) as [H|_]; [lra|]. rewrite andb_false_r. unfold ferrari. cbv zeta.
    replace (-6 * -6 - 3 * 0 * 0 + 12 * -3) with 0 by ring. replace (2 * -6 * -6 * -6 - 9 * 0 * -6 * 0 + 27 * 0 * 0 + 27 * 0 * 0 * -3 - 72 * -6 * -3) with (-1728) by ring.
    replace (-1728 * -1728 / 4 - 0 * 0 * 0) with (864 * 864) by field. replace (-1728 / 2) with (-864) by field.
    assert (csqrt (cr (864 * 864)) = cr 864) as E.
    { assert (cabs (cr (864 * 864)) = 864 * 864) as A. { unfold cabs. simpl. replace (864 * 864 * (864 * 864) + 0 * 0) with ((864 * 864) * (864 * 864)) by ring. apply sqrt_square. lra. }
      unfold csqrt. rewrite A. assert (carg (cr (864 * 864)) = 0) as B. { unfold carg. rewrite A. simpl. destruct (Rle_dec 0 0) as [_|H]; [|lra]. replace (864 * 864 / (864 * 864)) with 1 by field. apply acos_1. }
      rewrite B. replace (0 / 2) with 0 by field. rewrite cos_0, sin_0, sqrt_square by lra. apply cpx_eq; simpl; ring. }
    rewrite E. assert (ccbrt (cadd (cr (-864)) (cr 864)) = cr 0) as ->.
    { assert (cadd (cr (-864)) (cr 864) = cr 0) as -> by (apply cpx_eq; simpl; ring). unfold ccbrt. assert (cabs (cr 0) = 0) as ->. { unfold cabs. simpl. replace (0 * 0 + 0 * 0) with 0 by ring. apply sqrt_0. }
      unfold rcbrt. destruct (Rlt_dec 0 0) as [H|_]; [lra|]. apply cpx_eq; simpl; ring. }
    destruct (Req_EM_T (cabs (cr 0)) 0) as [_|H]; [reflexivity|]. exfalso. apply H. unfold cabs. simpl. replace (0 * 0 + 0 * 0) with 0 by ring. apply sqrt_0.
Qed.
(** A coefficient of x^4 of at most the machine epsilon, even 0, is taken as the machine epsilon: another equation is solved *)
Theorem C87_small_leading_coefficient c0 c1 c2 c3 c4 : Rabs c4 <= epsilon -> SolveQuartic (c0, c1, c2, c3, c4) = SolveQuartic (c0, c1, c2, c3, epsilon).
Proof.
  intros H. unfold SolveQuartic. pose proof epsilon_pos as P. destruct (Rlt_dec epsilon (Rabs c4)) as [|_]; [lra|]. destruct (Rlt_dec epsilon (Rabs epsilon)) as [_|_]; reflexivity.
Qed.

(** (x - 1) (x + 1) (x - 2) (x + 3) = x^4 + x^3 - 7 x^2 - x + 6 *)
Example quartic_example : exists roots, SolveQuartic (6, -1, -7, 1, 1) = Some (Some roots) /\
  (forall x, x ∈ [1; -1; 2; -3] -> x ∈ roots /\ Some x ∈ RefineQuarticRoots (6, -1, -7, 1, 1) roots).
Proof.
  pose proof epsilon_pos as P. pose proof epsilon_small as Q. assert (epsilon < Rabs 1) as N by (rewrite Rabs_R1; exact Q).
  destruct (C87_solved 6 (-1) (-7) 1 1 N) as (roots & H & _).
  - rewrite Rabs_pos_eq; lra.
  - lra.
  - exists roots. split; [exact H|]. intros x Hx. assert (simple_root 6 (-1) (-7) 1 1 x) as S; [|split; [apply (C87_every_real_root _ _ _ _ _ _ _ N H), S|apply (C87_simple_roots_found _ _ _ _ _ _ _ N H), S]].
    rewrite !elem_of_cons, elem_of_nil in Hx. unfold simple_root, at_real. destruct Hx as [-> |[-> |[-> |[-> |[]]]]]; (split; [ring|lra]).
Qed.
Print Assumptions C87_factors.
Print Assumptions C87_every_real_root.
Print Assumptions C87_solved.
Print Assumptions C87_simple_roots_found.
Print Assumptions C87_refined_is_near.
Print Assumptions C87_solved_refuted.
