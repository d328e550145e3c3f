(** Complex numbers in exact arithmetic: what std::complex<double> stands for, with the principal square and cube roots of std::pow *)
From Coq Require Import Reals Lra Psatz Field.
Local Open Scope R_scope.

Record cpx := Cpx { re : R; im : R }.
Definition cr (x : R) : cpx := Cpx x 0.
Definition cadd (a b : cpx) : cpx := Cpx (re a + re b) (im a + im b).
Definition copp (a : cpx) : cpx := Cpx (- re a) (- im a).
Definition csub (a b : cpx) : cpx := Cpx (re a - re b) (im a - im b).
Definition cmul (a b : cpx) : cpx := Cpx (re a * re b - im a * im b) (re a * im b + im a * re b).
Definition cinv (a : cpx) : cpx := Cpx (re a / (re a * re a + im a * im a)) (- im a / (re a * re a + im a * im a)).
Definition cdiv (a b : cpx) : cpx := cmul a (cinv b).
Lemma cpx_eq a b : re a = re b -> im a = im b -> a = b. Proof. destruct a, b; simpl; congruence. Qed.
Lemma cpx_nonzero a : a <> cr 0 -> re a * re a + im a * im a <> 0.
Proof. intros H E. apply H. apply cpx_eq; simpl; nra. Qed.
Lemma cpx_ring : ring_theory (cr 0) (cr 1) cadd cmul csub copp eq.
Proof. constructor; intros; apply cpx_eq; simpl; ring. Qed.
Lemma cpx_field : field_theory (cr 0) (cr 1) cadd cmul csub copp cdiv cinv eq.
Proof.
  constructor; [apply cpx_ring| |reflexivity|].
  - intros H. injection H. lra.
  - intros a H. apply cpx_nonzero in H. apply cpx_eq; simpl; field; exact H.
Qed.
Lemma cr_morph : ring_morph (cr 0) (cr 1) cadd cmul csub copp eq 0%Z 1%Z Z.add Z.mul Z.sub Z.opp Z.eqb (fun z => cr (IZR z)).
Proof.
  constructor; intros; try reflexivity; try (apply cpx_eq; simpl; rewrite ?plus_IZR, ?minus_IZR, ?mult_IZR, ?opp_IZR; ring).
  apply Z.eqb_eq in H. now subst.
Qed.
(** numerals: IZR under cr *)
Ltac cpx_cst t := match t with cr (IZR ?z) => match isZcst z with true => z | _ => constr:(InitialRing.NotConstant) end | cr R0 => constr:(0%Z) | cr R1 => constr:(1%Z) | _ => constr:(InitialRing.NotConstant) end.
Add Field cpx_field : cpx_field (morphism cr_morph, constants [cpx_cst]).
Definition cabs (a : cpx) : R := sqrt (re a * re a + im a * im a).
(** the argument in (-pi, pi] *)
Definition carg (a : cpx) : R := if Rle_dec 0 (im a) then acos (re a / cabs a) else - acos (re a / cabs a).
(** std::pow(z, 1./2.) and std::pow(z, 1./3.), which are 0 for 0 *)
Definition csqrt (a : cpx) : cpx := Cpx (sqrt (cabs a) * cos (carg a / 2)) (sqrt (cabs a) * sin (carg a / 2)).
Definition rcbrt (r : R) : R := if Rlt_dec 0 r then exp (ln r / 3) else 0.
Definition ccbrt (a : cpx) : cpx := Cpx (rcbrt (cabs a) * cos (carg a / 3)) (rcbrt (cabs a) * sin (carg a / 3)).

Lemma cabs_nonneg a : 0 <= cabs a. Proof. apply sqrt_pos. Qed.
Lemma cabs_sq a : cabs a * cabs a = re a * re a + im a * im a. Proof. apply sqrt_sqrt. nra. Qed.
Lemma polar a : a = Cpx (cabs a * cos (carg a)) (cabs a * sin (carg a)).
Proof.
  pose proof (cabs_nonneg a) as P. pose proof (cabs_sq a) as S. destruct (Req_EM_T (cabs a) 0) as [E|E].
  - rewrite E in *. apply cpx_eq; simpl; nra.
  - assert (0 < cabs a) as P' by lra. set (q := re a / cabs a). assert (q * cabs a = re a) as Eq by (unfold q; field; exact E). assert (-1 <= q <= 1) as B.
    { assert (re a * re a <= cabs a * cabs a) as L by nra. split; apply (Rmult_le_reg_r (cabs a)); try exact P'; rewrite Eq; nra. }
    assert (cos (acos q) = q) as C by now apply cos_acos. assert (sin (acos q) = sqrt (1 - q * q)) as Sn by (rewrite sin_acos by exact B; reflexivity).
    assert (Hs : cabs a * sqrt (1 - q * q) = Rabs (im a)).
    { rewrite <- (sqrt_square (cabs a)) at 1 by exact P. rewrite <- sqrt_mult; [|nra|nra]. rewrite <- sqrt_Rsqr_abs. f_equal. unfold Rsqr. nra. }
    unfold carg. fold q. destruct (Rle_dec 0 (im a)) as [H|H]; apply cpx_eq; simpl; rewrite ?cos_neg, ?sin_neg, ?C, ?Sn.
    + lra.
    + rewrite Hs. symmetry. apply Rabs_pos_eq. exact H.
    + lra.
    + rewrite Ropp_mult_distr_r_reverse, Hs. rewrite Rabs_left by lra. ring.
Qed.
Lemma csqrt_sq a : cmul (csqrt a) (csqrt a) = a.
Proof.
  rewrite (polar a) at 3. pose proof (sqrt_sqrt (cabs a) (cabs_nonneg a)) as S. unfold csqrt. set (t := carg a / 2). replace (carg a) with (2 * t) by (unfold t; field). rewrite cos_2a, sin_2a. set (m := sqrt (cabs a)) in *. rewrite <- S. apply cpx_eq; simpl; ring.
Qed.
Lemma rcbrt_cube r : 0 <= r -> rcbrt r * rcbrt r * rcbrt r = r.
Proof.
  intros H. unfold rcbrt. destruct (Rlt_dec 0 r) as [P|P]; [|lra]. rewrite <- !exp_plus. replace (ln r / 3 + ln r / 3 + ln r / 3) with (ln r) by field. apply exp_ln, P.
Qed.
Lemma ccbrt_cube a : cmul (cmul (ccbrt a) (ccbrt a)) (ccbrt a) = a.
Proof.
  rewrite (polar a) at 4. pose proof (rcbrt_cube (cabs a) (cabs_nonneg a)) as S. set (t := carg a / 3). replace (carg a) with (t + t + t) by (unfold t; field).
  assert (cos (t + t + t) = cos t * cos t * cos t - 3 * cos t * sin t * sin t) as C by (rewrite !cos_plus, !sin_plus; ring). assert (sin (t + t + t) = 3 * cos t * cos t * sin t - sin t * sin t * sin t) as D by (rewrite !sin_plus, !cos_plus; ring).
  rewrite C, D. unfold ccbrt. fold t. set (m := rcbrt (cabs a)) in *. rewrite <- S. apply cpx_eq; simpl; ring.
Qed.
Lemma cr_mul x y : cr (x * y) = cmul (cr x) (cr y). Proof. apply cpx_eq; simpl; ring. Qed.
Lemma cr_add x y : cr (x + y) = cadd (cr x) (cr y). Proof. apply cpx_eq; simpl; ring. Qed.
Lemma cr_sub x y : cr (x - y) = csub (cr x) (cr y). Proof. apply cpx_eq; simpl; ring. Qed.
Lemma cr_opp x : cr (- x) = copp (cr x). Proof. apply cpx_eq; simpl; ring. Qed.
Lemma cr_inv x : x <> 0 -> cr (/ x) = cinv (cr x). Proof. intros H. apply cpx_eq; simpl; field; exact H. Qed.
Lemma cr_div x y : y <> 0 -> cr (x / y) = cdiv (cr x) (cr y). Proof. intros H. apply cpx_eq; simpl; field; exact H. Qed.
Lemma cr_inj x y : cr x = cr y -> x = y. Proof. intros H. now injection H. Qed.
Lemma cmul_0 a b : cmul a b = cr 0 -> a = cr 0 \/ b = cr 0.
Proof.
  intros H. destruct (Req_EM_T (re a * re a + im a * im a) 0) as [E|E]; [left; apply cpx_eq; simpl; nra|]. right.
  assert (b = cmul (cinv a) (cmul a b)) as ->; [|rewrite H; ring]. apply cpx_eq; simpl; field; exact E.
Qed.
Example cpx_test (a b : cpx) : b <> cr 0 -> cadd (cdiv a b) (cr 2) = cdiv (cadd a (cmul (cr 2) b)) b. Proof. intros H. field. exact H. Qed.
