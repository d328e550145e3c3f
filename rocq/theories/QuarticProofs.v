(** Proofs about quartic equations *)
From stdpp Require Import prelude.
From Coq Require Import Reals Lra Psatz.
From Verif Require Import Lin TriangModel FitModel Cpx P3pModel.
Local Open Scope R_scope.

Lemma cr_neq x : x <> 0 -> cr x <> cr 0. Proof. intros H E. apply H. now apply cr_inj. Qed.
Lemma cabs_neq z : cabs z <> 0 -> z <> cr 0.
Proof. intros H ->. apply H. unfold cabs. simpl. replace (0 * 0 + 0 * 0) with 0 by ring. apply sqrt_0. Qed.

(** the resolvent *)
Lemma resolvent (q1 q2 s q5 q6 : cpx) : q5 <> cr 0 -> cmul s s = csub (cdiv (cmul q2 q2) (cr 4)) (cmul (cmul q1 q1) q1) ->
  cmul (cmul q5 q5) q5 = cadd (cdiv q2 (cr 2)) s -> q6 = cdiv (cadd (cdiv q1 q5) q5) (cr 3) ->
  cmul (cr 27) (cmul (cmul q6 q6) q6) = cadd q2 (cmul (cr 9) (cmul q1 q6)).
Proof.
  intros N Hs H5 ->. assert (cr 3 <> cr 0) as N3 by (apply cr_neq; lra). assert (cr 2 <> cr 0) as N2 by (apply cr_neq; lra). assert (cr 4 <> cr 0) as N4 by (apply cr_neq; lra).
  set (w := cmul (cmul q5 q5) q5) in *. assert (w <> cr 0) as Nw. { unfold w. intros E. apply cmul_0 in E as [E|E]; [apply cmul_0 in E as [E|E]|]; contradiction. }
  assert (cmul w (csub q2 w) = cmul (cmul q1 q1) q1) as Hw.
  { rewrite H5. transitivity (csub (cdiv (cmul q2 q2) (cr 4)) (cmul s s)); [field; split; assumption|]. rewrite Hs. field. assumption. }
  transitivity (cadd (cadd w (cdiv (cmul (cmul q1 q1) q1) w)) (cmul (cr 9) (cmul q1 (cdiv (cadd (cdiv q1 q5) q5) (cr 3))))).
  - unfold w. field. split; assumption.
  - rewrite <- Hw. unfold w. field. split; assumption.
Qed.
Lemma resolvent_square (b c d e q1 q2 q3 q4 q6 q7 : cpx) :
  q1 = cadd (csub (cmul c c) (cmul (cr 3) (cmul b d))) (cmul (cr 12) e) ->
  q2 = csub (cadd (cadd (csub (cmul (cr 2) (cmul c (cmul c c))) (cmul (cr 9) (cmul b (cmul c d)))) (cmul (cr 27) (cmul d d))) (cmul (cr 27) (cmul b (cmul b e)))) (cmul (cr 72) (cmul c e)) ->
  q3 = csub (csub (cmul (cr 8) (cmul b c)) (cmul (cr 16) d)) (cmul (cr 2) (cmul b (cmul b b))) ->
  q4 = csub (cmul (cr 3) (cmul b b)) (cmul (cr 8) c) ->
  cmul (cr 27) (cmul (cmul q6 q6) q6) = cadd q2 (cmul (cr 9) (cmul q1 q6)) ->
  cmul q7 q7 = cmul (cr 4) (cadd (cdiv q4 (cr 12)) q6) ->
  let a := csub (cdiv q6 (cr 2)) (cdiv q4 (cr 48)) in
  let r := csub (cadd (csub e (cdiv (cmul b d) (cr 4))) (cdiv (cmul (cmul b b) c) (cr 16))) (cdiv (cmul (cr 3) (cmul (cmul b b) (cmul b b))) (cr 256)) in
  cmul q3 q3 = cmul (cmul (cr 256) (cmul q7 q7)) (csub (cmul a a) r).
Proof.
  intros E1 E2 E3 E4 R E7 a r. assert (cr 12 <> cr 0) as N12 by (apply cr_neq; lra). assert (cr 27 <> cr 0) as N27 by (apply cr_neq; lra). assert (cr 2 <> cr 0) as N2 by (apply cr_neq; lra). assert (cr 4 <> cr 0) as N4 by (apply cr_neq; lra).
  assert (cr 16 <> cr 0) as N16 by (apply cr_neq; lra). assert (cr 48 <> cr 0) as N48 by (apply cr_neq; lra). assert (cr 256 <> cr 0) as N256 by (apply cr_neq; lra).
  rewrite E7. assert (cmul (cmul q6 q6) q6 = cdiv (cadd q2 (cmul (cr 9) (cmul q1 q6))) (cr 27)) as R3. { rewrite <- R. field. assumption. }
  transitivity (cadd (cmul (cr 256) (cmul (cmul q6 q6) q6)) (csub (cmul (cmul (cr 1024) (cadd (cdiv q4 (cr 12)) q6)) (csub (cmul a a) r)) (cmul (cr 256) (cmul (cmul q6 q6) q6)))).
  - rewrite R3 at 1. unfold a, r. subst q1 q2 q3 q4. field. repeat split; assumption.
  - ring.
Qed.
Lemma ferrari_identity (b c d e x q1 q2 q3 q4 q6 q7 s1 s2 : cpx) : q7 <> cr 0 ->
  q1 = cadd (csub (cmul c c) (cmul (cr 3) (cmul b d))) (cmul (cr 12) e) ->
  q2 = csub (cadd (cadd (csub (cmul (cr 2) (cmul c (cmul c c))) (cmul (cr 9) (cmul b (cmul c d)))) (cmul (cr 27) (cmul d d))) (cmul (cr 27) (cmul b (cmul b e)))) (cmul (cr 72) (cmul c e)) ->
  q3 = csub (csub (cmul (cr 8) (cmul b c)) (cmul (cr 16) d)) (cmul (cr 2) (cmul b (cmul b b))) ->
  q4 = csub (cmul (cr 3) (cmul b b)) (cmul (cr 8) c) ->
  cmul (cr 27) (cmul (cmul q6 q6) q6) = cadd q2 (cmul (cr 9) (cmul q1 q6)) ->
  cmul q7 q7 = cmul (cr 4) (cadd (cdiv q4 (cr 12)) q6) ->
  cmul s1 s1 = csub (csub (cdiv (cmul (cr 4) q4) (cr 6)) (cmul (cr 4) q6)) (cdiv q3 q7) ->
  cmul s2 s2 = cadd (csub (cdiv (cmul (cr 4) q4) (cr 6)) (cmul (cr 4) q6)) (cdiv q3 q7) ->
  cmul (cmul (csub x (cdiv (csub (csub (copp b) q7) s1) (cr 4))) (csub x (cdiv (cadd (csub (copp b) q7) s1) (cr 4))))
       (cmul (csub x (cdiv (csub (cadd (copp b) q7) s2) (cr 4))) (csub x (cdiv (cadd (cadd (copp b) q7) s2) (cr 4)))) =
  cadd (cmul (cadd (cmul (cadd (cmul (cadd x b) x) c) x) d) x) e.
Proof.
  intros N E1 E2 E3 E4 R E7 S1 S2. assert (cr 3 <> cr 0) as N3 by (apply cr_neq; lra). assert (cr 2 <> cr 0) as N2 by (apply cr_neq; lra). assert (cr 4 <> cr 0) as N4 by (apply cr_neq; lra).
  assert (cr 12 <> cr 0) as N12 by (apply cr_neq; lra). assert (cr 6 <> cr 0) as N6 by (apply cr_neq; lra). assert (cr 16 <> cr 0) as N16 by (apply cr_neq; lra). assert (cr 48 <> cr 0) as N48 by (apply cr_neq; lra).
  assert (cr 256 <> cr 0) as N256 by (apply cr_neq; lra). assert (cr 8 <> cr 0) as N8 by (apply cr_neq; lra). assert (cr 1024 <> cr 0) as N1024 by (apply cr_neq; lra). assert (cr 27 <> cr 0) as N27 by (apply cr_neq; lra).
  set (y := cadd x (cdiv b (cr 4))). set (a := csub (cdiv q6 (cr 2)) (cdiv q4 (cr 48))). set (l := cadd (cdiv (cmul y q7) (cr 2)) (cdiv q3 (cmul (cr 16) q7))).
  assert (cmul (csub x (cdiv (csub (csub (copp b) q7) s1) (cr 4))) (csub x (cdiv (cadd (csub (copp b) q7) s1) (cr 4))) = cadd (cadd (cmul y y) a) l) as ->.
  { transitivity (csub (cmul (cadd y (cdiv q7 (cr 4))) (cadd y (cdiv q7 (cr 4)))) (cdiv (cmul s1 s1) (cr 16))); [unfold y; field; split; assumption|]. rewrite S1.
    transitivity (cadd (cadd (cadd (cmul y y) (cdiv (cmul y q7) (cr 2))) (cdiv (cmul q7 q7) (cr 16))) (copp (cdiv (csub (csub (cdiv (cmul (cr 4) q4) (cr 6)) (cmul (cr 4) q6)) (cdiv q3 q7)) (cr 16)))); [field; repeat split; assumption|].
    rewrite E7. unfold a, l. field. repeat split; assumption. }
  assert (cmul (csub x (cdiv (csub (cadd (copp b) q7) s2) (cr 4))) (csub x (cdiv (cadd (cadd (copp b) q7) s2) (cr 4))) = csub (cadd (cmul y y) a) l) as ->.
  { transitivity (csub (cmul (csub y (cdiv q7 (cr 4))) (csub y (cdiv q7 (cr 4)))) (cdiv (cmul s2 s2) (cr 16))); [unfold y; field; split; assumption|]. rewrite S2.
    transitivity (cadd (cadd (csub (cmul y y) (cdiv (cmul y q7) (cr 2))) (cdiv (cmul q7 q7) (cr 16))) (copp (cdiv (cadd (csub (cdiv (cmul (cr 4) q4) (cr 6)) (cmul (cr 4) q6)) (cdiv q3 q7)) (cr 16)))); [field; repeat split; assumption|].
    rewrite E7. unfold a, l. field. repeat split; assumption. }
  transitivity (csub (csub (csub (cadd (cmul (cmul y y) (cmul y y)) (cadd (cmul (cr 2) (cmul a (cmul y y))) (cmul a a))) (cdiv (cmul (cmul y y) (cmul q7 q7)) (cr 4))) (cdiv (cmul y q3) (cr 16))) (cdiv (cmul q3 q3) (cmul (cr 256) (cmul q7 q7)))).
  { unfold l. field. repeat split; assumption. }
  set (r := csub (cadd (csub e (cdiv (cmul b d) (cr 4))) (cdiv (cmul (cmul b b) c) (cr 16))) (cdiv (cmul (cr 3) (cmul (cmul b b) (cmul b b))) (cr 256))).
  assert (cdiv (cmul q3 q3) (cmul (cr 256) (cmul q7 q7)) = csub (cmul a a) r) as Hr.
  { pose proof (resolvent_square b c d e q1 q2 q3 q4 q6 q7 E1 E2 E3 E4 R E7) as H. cbv zeta in H. fold a r in H.
    rewrite H. field. repeat split; assumption. }
  rewrite Hr, E7. unfold a, r, y. subst q3 q4. field. repeat split; assumption.
Qed.

Lemma ferrari_roots b c d e z1 z2 z3 z4 x : ferrari b c d e = Some (z1, z2, z3, z4) ->
  cmul (cmul (csub x z1) (csub x z2)) (cmul (csub x z3) (csub x z4)) = cadd (cmul (cadd (cmul (cadd (cmul (cadd x (cr b)) x) (cr c)) x) (cr d)) x) (cr e).
Proof.
  unfold ferrari. cbv zeta.
  set (Q1 := c * c - 3 * b * d + 12 * e). set (Q2 := 2 * c * c * c - 9 * b * c * d + 27 * d * d + 27 * b * b * e - 72 * c * e). set (Q3 := 8 * b * c - 16 * d - 2 * b * b * b). set (Q4 := 3 * b * b - 8 * c).
  set (S := csqrt (cr (Q2 * Q2 / 4 - Q1 * Q1 * Q1))). set (Q5 := ccbrt (cadd (cr (Q2 / 2)) S)). set (Q6 := cdiv (cadd (cdiv (cr Q1) Q5) Q5) (cr 3)). set (Q7 := cmul (cr 2) (csqrt (cadd (cr (Q4 / 12)) Q6))).
  set (S1 := csqrt (csub (csub (cr (4 * Q4 / 6)) (cmul (cr 4) Q6)) (cdiv (cr Q3) Q7))). set (S2 := csqrt (cadd (csub (cr (4 * Q4 / 6)) (cmul (cr 4) Q6)) (cdiv (cr Q3) Q7))).
  destruct (Req_EM_T (cabs Q5) 0) as [|N5]; [discriminate|]. destruct (Req_EM_T (cabs Q7) 0) as [|N7]; [discriminate|]. apply cabs_neq in N5, N7.
  intros H. injection H as <- <- <- <-. rewrite !cr_opp. apply (ferrari_identity (cr b) (cr c) (cr d) (cr e) x (cr Q1) (cr Q2) (cr Q3) (cr Q4) Q6 Q7 S1 S2); try exact N7.
  - unfold Q1. rewrite !cr_add, !cr_sub, !cr_mul. ring.
  - unfold Q2. rewrite !cr_sub, !cr_add, !cr_sub, !cr_mul. ring.
  - unfold Q3. rewrite !cr_sub, !cr_mul. ring.
  - unfold Q4. rewrite !cr_sub, !cr_mul. ring.
  - apply (resolvent (cr Q1) (cr Q2) S Q5 Q6); [exact N5| | |reflexivity].
    + unfold S. rewrite csqrt_sq, cr_sub, cr_div by lra. rewrite !cr_mul. ring.
    + unfold Q5. rewrite ccbrt_cube, cr_div by lra. reflexivity.
  - unfold Q7. transitivity (cmul (cr 4) (cmul (csqrt (cadd (cr (Q4 / 12)) Q6)) (csqrt (cadd (cr (Q4 / 12)) Q6)))); [ring|]. rewrite csqrt_sq, cr_div by lra. reflexivity.
  - unfold S1. rewrite csqrt_sq, cr_div by lra. rewrite cr_mul. reflexivity.
  - unfold S2. rewrite csqrt_sq, cr_div by lra. rewrite cr_mul. reflexivity.
Qed.

Lemma ferrari_some b c d e : c * c - 3 * b * d + 12 * e <> 0 -> 8 * b * c - 16 * d - 2 * b * b * b <> 0 -> exists zs, ferrari b c d e = Some zs.
Proof.
  unfold ferrari. cbv zeta.
  set (Q1 := c * c - 3 * b * d + 12 * e). set (Q2 := 2 * c * c * c - 9 * b * c * d + 27 * d * d + 27 * b * b * e - 72 * c * e). set (Q3 := 8 * b * c - 16 * d - 2 * b * b * b). set (Q4 := 3 * b * b - 8 * c).
  set (S := csqrt (cr (Q2 * Q2 / 4 - Q1 * Q1 * Q1))). set (Q5 := ccbrt (cadd (cr (Q2 / 2)) S)). set (Q6 := cdiv (cadd (cdiv (cr Q1) Q5) Q5) (cr 3)). set (Q7 := cmul (cr 2) (csqrt (cadd (cr (Q4 / 12)) Q6))).
  intros N1 N3. assert (cmul S S = csub (cdiv (cmul (cr Q2) (cr Q2)) (cr 4)) (cmul (cmul (cr Q1) (cr Q1)) (cr Q1))) as HS.
  { unfold S. rewrite csqrt_sq, cr_sub, cr_div by lra. rewrite !cr_mul. ring. }
  assert (cmul (cmul Q5 Q5) Q5 = cadd (cdiv (cr Q2) (cr 2)) S) as HW. { unfold Q5. rewrite ccbrt_cube, cr_div by lra. reflexivity. }
  assert (Q5 <> cr 0) as N5.
  { intros E. rewrite E in HW. assert (cr 2 <> cr 0) as N2 by (apply cr_neq; lra). assert (cr 4 <> cr 0) as N4 by (apply cr_neq; lra).
    assert (S = copp (cdiv (cr Q2) (cr 2))) as HS'. { transitivity (csub (cadd (cdiv (cr Q2) (cr 2)) S) (cdiv (cr Q2) (cr 2))); [ring|]. rewrite <- HW. ring. }
    assert (cmul (cmul (cr Q1) (cr Q1)) (cr Q1) = cr 0) as H0.
    { transitivity (csub (cdiv (cmul (cr Q2) (cr Q2)) (cr 4)) (cmul S S)); [rewrite HS; ring|]. rewrite HS'. field. split; assumption. }
    apply cmul_0 in H0 as [H0|H0]; [apply cmul_0 in H0 as [H0|H0]|]; apply cr_inj in H0; contradiction. }
  assert (Q7 <> cr 0) as N7.
  { intros E. assert (cmul Q7 Q7 = cmul (cr 4) (cadd (cdiv (cr Q4) (cr 12)) Q6)) as E7.
    { unfold Q7. transitivity (cmul (cr 4) (cmul (csqrt (cadd (cr (Q4 / 12)) Q6)) (csqrt (cadd (cr (Q4 / 12)) Q6)))); [ring|]. rewrite csqrt_sq, cr_div by lra. reflexivity. }
    assert (cmul (cr Q3) (cr Q3) = cr 0) as H0.
    { rewrite (resolvent_square (cr b) (cr c) (cr d) (cr e) (cr Q1) (cr Q2) (cr Q3) (cr Q4) Q6 Q7); [rewrite E; ring| | | | | |exact E7].
      - unfold Q1. rewrite !cr_add, !cr_sub, !cr_mul. ring.
      - unfold Q2. rewrite !cr_sub, !cr_add, !cr_sub, !cr_mul. ring.
      - unfold Q3. rewrite !cr_sub, !cr_mul. ring.
      - unfold Q4. rewrite !cr_sub, !cr_mul. ring.
      - apply (resolvent (cr Q1) (cr Q2) S Q5 Q6); [exact N5|exact HS|exact HW|reflexivity]. }
    apply cmul_0 in H0 as [H0|H0]; apply cr_inj in H0; contradiction. }
  assert (forall z, z <> cr 0 -> cabs z <> 0) as HA. { intros z Nz E. apply Nz. pose proof (cabs_sq z) as H. rewrite E in H. apply cpx_eq; simpl; nra. }
  destruct (Req_EM_T (cabs Q5) 0) as [E|]; [now apply HA in E|]. destruct (Req_EM_T (cabs Q7) 0) as [E|]; [now apply HA in E|]. eauto.
Qed.
Lemma newton_root f df n tol x : 0 < tol -> f x = 0 -> df x <> 0 -> newton f df n tol x = Some x.
Proof.
  intros T F D. destruct n as [|n]; [reflexivity|]. simpl. destruct (Req_EM_T (df x) 0) as [E|_]; [contradiction|]. rewrite F. replace (0 / df x) with 0 by (field; exact D). rewrite Rabs_R0. destruct (Rlt_dec 0 tol); [reflexivity|contradiction].
Qed.
Lemma newton_tol : 0 < / 10 ^ 20. Proof. apply Rinv_0_lt_compat, pow_lt. lra. Qed.
Lemma epsilon_pos : 0 < epsilon. Proof. apply Rinv_0_lt_compat, pow_lt. lra. Qed.
Lemma epsilon_small : epsilon < 1. Proof. unfold epsilon. rewrite <- Rinv_1. apply Rinv_lt_contravar; [|apply Rlt_pow_R1; [lra|lia]]. rewrite Rmult_1_l. apply pow_lt. lra. Qed.
