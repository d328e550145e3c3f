From stdpp Require Import prelude.
From Coq Require Import Reals Lra Lia.
From Verif Require Import Base Lin RotProofs CamModel CamSpec CamProofs GeoModel GeoProofs FunctorModel ProjModel CameraSpec CameraProofs UndistortSpec.
Local Open Scope R_scope.

Lemma abs_between x a : Rabs x <= a -> - a <= x <= a.
Proof. unfold Rabs. destruct (Rcase_abs x); lra. Qed.
(** ** Newton's iterations with an approximate derivative *)
Lemma newton_contracts (f D F : R -> R) (I : R -> Prop) s q :
  0 <= q < 1 ->
  (forall x, I x -> f x = (x - s) * F x /\ 0 < D x /\ Rabs (D x - F x) <= q * D x /\ I (x - f x / D x)) ->
  forall n i x, I x -> let y := NewtonRaphson1 (fun _ => f) (fun _ => D) i n x in
  I y /\ Rabs (y - s) <= Rmax (tol / (1 - q)) (q ^ n * Rabs (x - s)).
Proof.
  intros Hq H. induction n as [|n IH]; intros i x Hx; cbn [NewtonRaphson1].
  - split; [assumption|]. rewrite pow_O, Rmult_1_l. apply Rmax_r.
  - destruct (H x Hx) as (Ef & HD & HF & Hn). unfold SolveDecr1. destruct (Req_EM_T (D x) 0) as [E|_]; [lra|].
    assert (Hstep : x - f x / D x - s = (x - s) * ((D x - F x) / D x)) by (rewrite Ef; field; lra).
    assert (Hr : Rabs ((D x - F x) / D x) <= q).
    { unfold Rdiv. rewrite Rabs_mult, (Rabs_right (/ D x)) by (apply Rle_ge, Rlt_le, Rinv_0_lt_compat; assumption).
      apply Rmult_le_reg_r with (D x); [assumption|]. rewrite Rmult_assoc, Rinv_l by lra. lra. }
    destruct (Rlt_dec _ _) as [L|N].
    + split; [assumption|]. eapply Rle_trans; [|apply Rmax_l].
      assert (HFD : 1 - q <= F x / D x).
      { apply abs_between in Hr. replace (F x / D x) with (1 - (D x - F x) / D x) by (field; lra). lra. }
      assert (L' : Rabs (x - s) * (F x / D x) < tol).
      { rewrite <- (Rabs_right (F x / D x)) by lra. rewrite <- Rabs_mult. replace ((x - s) * (F x / D x)) with (f x / D x) by (rewrite Ef; field; lra). exact L. }
      apply Rmult_le_reg_r with (1 - q); [lra|]. unfold Rdiv. rewrite Rmult_assoc, Rinv_l, Rmult_1_r by lra.
      apply Rle_trans with (Rabs (x - s) * (F x / D x)); [|lra]. apply Rmult_le_compat_l; [apply Rabs_pos|assumption].
    + destruct (IH (S i) _ Hn) as [Hy Hb]. split; [exact Hy|]. eapply Rle_trans; [exact Hb|]. apply Rle_max_compat_l.
      rewrite Hstep, Rabs_mult. cbn [pow]. rewrite <- Rmult_assoc. rewrite (Rmult_comm q), !Rmult_assoc.
      apply Rmult_le_compat_l; [apply pow_le; lra|]. rewrite Rmult_comm. apply Rmult_le_compat_r; [apply Rabs_pos|assumption].
Qed.

(** ** The radial Backward, given the point whose distortion is asked to be removed *)
Lemma sqrt_scaled k q : sqrt (SquaredNorm [k * q.1; k * q.2]) = Rabs k * radius q.
Proof.
  unfold SquaredNorm. cbn [nth]. replace (k * q.1 * (k * q.1) + k * q.2 * (k * q.2)) with (Rsqr k * radius2 q) by (unfold Rsqr, radius2; ring).
  rewrite sqrt_mult by (try apply Rle_0_sqr; apply radius2_nonneg). now rewrite sqrt_Rsqr_abs.
Qed.
Lemma radial_backward (d D F : R -> R) (I : R -> Prop) q0 a m :
  let s := radius q0 in let rd := s * d (s * s) in
  0 <= a < 1 -> 0 < m -> 0 < d (s * s) -> (0 < s -> I rd) ->
  (forall x, 0 < s -> I x -> x * d (x * x) - rd = (x - s) * F x /\ 0 < D (x * x) /\ Rabs (D (x * x) - F x) <= a * D (x * x) /\ I (x - (x * d (x * x) - rd) / D (x * x))) ->
  (forall x, 0 < s -> I x -> 0 < d (x * x) /\ s * Rabs (d (s * s) - d (x * x)) <= m * Rabs (x - s) * d (x * x)) ->
  (rd < epsilon -> Rabs (rd - s) <= m * tol) ->
  exists mu, radial_Backward d D [d (s * s) * q0.1; d (s * s) * q0.2] = [mu * q0.1; mu * q0.2] /\ 0 < mu /\
  Rabs (mu * s - s) <= m * Rmax (tol / (1 - a)) (a ^ 10 * Rabs (rd - s)) /\
  (mu = d (s * s) \/ exists x, I x /\ Rabs (mu * s - s) <= m * Rabs (x - s)).
Proof.
  intros s rd Ha Hm Hd HI H H2 Heps. assert (Hs : 0 <= s) by apply sqrt_pos. pose proof tol_pos.
  assert (Ht : tol <= tol / (1 - a)).
  { unfold Rdiv. rewrite <- (Rmult_1_r tol) at 1. apply Rmult_le_compat_l; [lra|]. rewrite <- Rinv_1 at 1. apply Rinv_le_contravar; lra. }
  unfold radial_Backward. cbn [nth]. rewrite sqrt_scaled, (Rabs_right (d (s * s))) by lra. fold s. rewrite (Rmult_comm (d (s * s)) s). fold rd.
  destruct (Rlt_dec rd epsilon) as [L|N].
  - exists (d (s * s)). split; [reflexivity|]. split; [assumption|]. split; [|now left]. rewrite (Rmult_comm _ s). fold rd.
    eapply Rle_trans; [apply Heps, L|]. apply Rmult_le_compat_l; [lra|]. eapply Rle_trans; [exact Ht|apply Rmax_l].
  - assert (Hs0 : 0 < s). { pose proof eps_pos. destruct Hs as [|E]; [assumption|]. exfalso. apply N. unfold rd. rewrite <- E. lra. }
    destruct (newton_contracts (fun x => x * d (x * x) - rd) (fun x => D (x * x)) F I s a Ha (fun x => H x Hs0) 10 0 rd (HI Hs0)) as [Hy Hb].
    set (y := NewtonRaphson1 _ _ 0 10 rd) in *. destruct (H2 y Hs0 Hy) as [Hdy Hm2].
    exists (d (s * s) / d (y * y)). split; [list_eq; field; lra|]. split; [now apply Rdiv_lt_0_compat|].
    assert (Hmu : Rabs (d (s * s) / d (y * y) * s - s) <= m * Rabs (y - s)).
    { replace (d (s * s) / d (y * y) * s - s) with (s * (d (s * s) - d (y * y)) / d (y * y)) by (field; lra).
      unfold Rdiv. rewrite !Rabs_mult, (Rabs_right s), (Rabs_right (/ d (y * y))) by (try lra; apply Rle_ge, Rlt_le, Rinv_0_lt_compat; assumption).
      apply Rmult_le_reg_r with (d (y * y)); [assumption|]. rewrite Rmult_assoc, Rinv_l by lra. lra. }
    split; [|right; exists y; auto]. eapply Rle_trans; [exact Hmu|]. apply Rmult_le_compat_l; [lra|exact Hb].
Qed.

(** ** Small distortions *)
Lemma abs_term t z Z : Rabs z <= Z -> - (Rabs t * Z) <= t * z <= Rabs t * Z.
Proof. intros H. apply abs_between. rewrite Rabs_mult. apply Rmult_le_compat_l; [apply Rabs_pos|assumption]. Qed.
Lemma pow_bounds lo hi y n : 0 <= lo -> lo <= y <= hi -> lo ^ n <= y ^ n <= hi ^ n.
Proof. intros H0 [H1 H2]. split; apply pow_incr; lra. Qed.
Definition near (delta s x : R) : Prop := Rabs (x - s) <= delta * s.
Lemma near_step delta s q x f D F : 0 < s -> 0 <= q <= 1 -> near delta s x -> f = (x - s) * F -> 0 < D -> Rabs (D - F) <= q * D -> near delta s (x - f / D).
Proof.
  unfold near. intros Hs Hq Hx -> HD HF. replace (x - (x - s) * F / D - s) with ((x - s) * ((D - F) / D)) by (field; lra). rewrite Rabs_mult.
  apply Rle_trans with (Rabs (x - s) * 1); [|lra]. apply Rmult_le_compat_l; [apply Rabs_pos|].
  unfold Rdiv. rewrite Rabs_mult, (Rabs_right (/ D)) by (apply Rle_ge, Rlt_le, Rinv_0_lt_compat; assumption).
  apply Rmult_le_reg_r with D; [assumption|]. rewrite Rmult_assoc, Rinv_l by lra. apply Rle_trans with (q * D); [lra|]. apply Rmult_le_compat_r; lra.
Qed.
Lemma near_ratio delta s x : 0 < s -> near delta s x -> exists y, x = s * y /\ 1 - delta <= y <= 1 + delta.
Proof.
  intros Hs Hn. exists (x / s). split; [field; lra|]. apply abs_between in Hn.
  split; apply Rmult_le_reg_r with s; try lra; unfold Rdiv; rewrite ?Rmult_assoc, ?Rinv_l by lra; lra.
Qed.
(** What [radial_backward] asks, for points near s *)
Definition tame (d D F : R -> R) (delta a s u : R) : Prop :=
  Rabs (d (s * s) - 1) <= u /\
  forall x, near delta s x ->
    x * d (x * x) - s * d (s * s) = (x - s) * F x /\ 0 < D (x * x) /\ Rabs (D (x * x) - F x) <= a * D (x * x) /\
    0 < d (x * x) /\ s * Rabs (d (s * s) - d (x * x)) <= Rabs (x - s) * d (x * x).
Lemma tame24 k1 k2 s : 0 < s -> let u := Rabs k1 * s ^ 2 + Rabs k2 * s ^ 4 in u <= / 10 ->
  tame (fun r2 => Disto24_Distortion r2 k1 k2) (fun r2 => Disto24_DistortionDerivative r2 k1 k2)
       (fun x => 1 + k1 * (x ^ 2 + x * s + s ^ 2) + k2 * (x ^ 4 + x ^ 3 * s + x ^ 2 * s ^ 2 + x * s ^ 3 + s ^ 4)) (/ 10) (5 * u) s u.
Proof.
  intros Hs u Hu. unfold Disto24_Distortion, Disto24_DistortionDerivative.
  set (t1 := k1 * s ^ 2). set (t2 := k2 * s ^ 4).
  assert (Hu' : u = Rabs t1 + Rabs t2). { unfold u, t1, t2. rewrite !Rabs_mult, (Rabs_right (s ^ 2)), (Rabs_right (s ^ 4)) by (apply Rle_ge, pow_le; lra). reflexivity. }
  pose proof (Rabs_pos t1) as A1. pose proof (Rabs_pos t2) as A2. set (a1 := Rabs t1) in *. set (a2 := Rabs t2) in *. 
  assert (E1 : k1 = t1 / s ^ 2) by (unfold t1; field; lra). assert (E2 : k2 = t2 / s ^ 4) by (unfold t2; field; lra).
  split.
  - replace (1 + s * s * (k1 + k2 * (s * s)) - 1) with (t1 + t2) by (unfold t1, t2; ring). rewrite Hu'. apply Rabs_triang.
  - intros x Hx. destruct (near_ratio _ _ _ Hs Hx) as (y & -> & Hy). clear Hx. split; [ring|].
    replace (1 + s * y * (s * y) * 2 * (k1 + 2 * k2 * (s * y * (s * y)))) with (1 + t1 * (2 * y ^ 2) + t2 * (4 * y ^ 4)) by (unfold t1, t2; ring).
    replace (1 + k1 * ((s * y) ^ 2 + s * y * s + s ^ 2) + k2 * ((s * y) ^ 4 + (s * y) ^ 3 * s + (s * y) ^ 2 * s ^ 2 + s * y * s ^ 3 + s ^ 4))
       with (1 + t1 * (y ^ 2 + y + 1) + t2 * (y ^ 4 + y ^ 3 + y ^ 2 + y + 1)) by (unfold t1, t2; ring).
    replace (1 + s * y * (s * y) * (k1 + k2 * (s * y * (s * y)))) with (1 + t1 * y ^ 2 + t2 * y ^ 4) by (unfold t1, t2; ring).
    replace (1 + s * s * (k1 + k2 * (s * s))) with (1 + t1 + t2) by (unfold t1, t2; ring).
    pose proof (pow_bounds 0.9 1.1 y 2 ltac:(lra) ltac:(lra)) as P2. pose proof (pow_bounds 0.9 1.1 y 4 ltac:(lra) ltac:(lra)) as P4. pose proof (pow_bounds 0.9 1.1 y 3 ltac:(lra) ltac:(lra)) as P3.
    assert (Q2 : 0.81 <= y ^ 2 <= 1.21) by lra. assert (Q4 : 0.6561 <= y ^ 4 <= 1.4641) by lra. clear P2 P4.
    pose proof (abs_term t1 (2 * y ^ 2) 2.42 ltac:(apply Rabs_le; lra)) as B1. pose proof (abs_term t2 (4 * y ^ 4) 5.8564 ltac:(apply Rabs_le; lra)) as B2.
    pose proof (abs_term t1 (y ^ 2) 1.21 ltac:(apply Rabs_le; lra)) as B3. pose proof (abs_term t2 (y ^ 4) 1.4641 ltac:(apply Rabs_le; lra)) as B4.
    pose proof (abs_term t1 (y ^ 2 - y - 1) 1.3 ltac:(apply Rabs_le; lra)) as B5.
    pose proof (abs_term t2 (3 * y ^ 4 - y ^ 3 - y ^ 2 - y - 1) 2 ltac:(apply Rabs_le; split; [|lra]; nra)) as B6.
    pose proof (abs_term t1 (1 + y) 2.1 ltac:(apply Rabs_le; lra)) as B7. pose proof (abs_term t2 (1 + y + y ^ 2 + y ^ 3) 4.7 ltac:(apply Rabs_le; lra)) as B8.
    fold a1 in B1, B3, B5, B7. fold a2 in B2, B4, B6, B8. rewrite Hu' in Hu |- *. clear u Hu' E1 E2. clearbody t1 t2 a1 a2.
    split; [lra|]. split; [|split; [lra|]].
    + replace (1 + t1 * (2 * y ^ 2) + t2 * (4 * y ^ 4) - (1 + t1 * (y ^ 2 + y + 1) + t2 * (y ^ 4 + y ^ 3 + y ^ 2 + y + 1)))
        with (t1 * (y ^ 2 - y - 1) + t2 * (3 * y ^ 4 - y ^ 3 - y ^ 2 - y - 1)) by ring.
      apply Rle_trans with (5 * (a1 + a2) * 0.41); [apply Rabs_le; lra|]. apply Rmult_le_compat_l; lra.
    + replace (1 + t1 + t2 - (1 + t1 * y ^ 2 + t2 * y ^ 4)) with ((1 - y) * (t1 * (1 + y) + t2 * (1 + y + y ^ 2 + y ^ 3))) by ring.
      rewrite Rabs_mult, <- Rmult_assoc. replace (s * y - s) with (s * (y - 1)) by ring. rewrite Rabs_mult, (Rabs_right s) by lra. rewrite (Rabs_minus_sym y 1).
      apply Rmult_le_compat_l; [apply Rmult_le_pos; [lra|apply Rabs_pos]|]. apply Rle_trans with 0.5; [apply Rabs_le|]; lra.
Qed.
Lemma tame_ext d D d' D' F delta a s u : (forall r, d r = d' r) -> (forall r, D r = D' r) -> tame d D F delta a s u -> tame d' D' F delta a s u.
Proof. intros E1 E2 [H1 H2]. split; [now rewrite <- E1|]. intros x Hx. rewrite <- !E1, <- !E2. auto. Qed.
Lemma tame2 k1 s : 0 < s -> let u := Rabs k1 * s ^ 2 in u <= / 10 ->
  tame (fun r2 => Disto2_Distortion r2 k1) (fun r2 => Disto2_DistortionDerivative r2 k1)
       (fun x => 1 + k1 * (x ^ 2 + x * s + s ^ 2) + 0 * (x ^ 4 + x ^ 3 * s + x ^ 2 * s ^ 2 + x * s ^ 3 + s ^ 4)) (/ 10) (5 * u) s u.
Proof.
  intros Hs u Hu. assert (E : u = Rabs k1 * s ^ 2 + Rabs 0 * s ^ 4) by (rewrite Rabs_R0; unfold u; ring).
  eapply tame_ext; [| |rewrite E; apply tame24; [assumption|rewrite <- E; assumption]]; intros r; unfold Disto24_Distortion, Disto24_DistortionDerivative, Disto2_Distortion, Disto2_DistortionDerivative; ring.
Qed.
Lemma tame2468 k1 k2 k3 k4 s : 0 < s -> let u := Rabs k1 * s ^ 2 + Rabs k2 * s ^ 4 + Rabs k3 * s ^ 6 + Rabs k4 * s ^ 8 in u <= / 30 ->
  tame (fun r2 => Disto2468_Distortion r2 k1 k2 k3 k4) (fun r2 => Disto2468_DistortionDerivative r2 k1 k2 k3 k4)
       (fun x => let y := x / s in 1 + k1 * s ^ 2 * (y ^ 2 + y + 1) + k2 * s ^ 4 * (y ^ 4 + y ^ 3 + y ^ 2 + y + 1)
                 + k3 * s ^ 6 * (y ^ 6 + y ^ 5 + y ^ 4 + y ^ 3 + y ^ 2 + y + 1) + k4 * s ^ 8 * (y ^ 8 + y ^ 7 + y ^ 6 + y ^ 5 + y ^ 4 + y ^ 3 + y ^ 2 + y + 1)) (/ 30) (8 * u) s u.
Proof.
  intros Hs u Hu. unfold Disto2468_Distortion, Disto2468_DistortionDerivative.
  set (t1 := k1 * s ^ 2). set (t2 := k2 * s ^ 4). set (t3 := k3 * s ^ 6). set (t4 := k4 * s ^ 8).
  assert (Hu' : u = Rabs t1 + Rabs t2 + Rabs t3 + Rabs t4).
  { unfold u, t1, t2, t3, t4. rewrite !Rabs_mult, (Rabs_right (s ^ 2)), (Rabs_right (s ^ 4)), (Rabs_right (s ^ 6)), (Rabs_right (s ^ 8)) by (apply Rle_ge, pow_le; lra). reflexivity. }
  pose proof (Rabs_pos t1) as A1. pose proof (Rabs_pos t2) as A2. pose proof (Rabs_pos t3) as A3. pose proof (Rabs_pos t4) as A4.
  set (a1 := Rabs t1) in *. set (a2 := Rabs t2) in *. set (a3 := Rabs t3) in *. set (a4 := Rabs t4) in *. 
  split.
  - replace (1 + s * s * (k1 + s * s * (k2 + s * s * (k3 + s * s * k4))) - 1) with (t1 + t2 + t3 + t4) by (unfold t1, t2, t3, t4; ring). rewrite Hu'.
    eapply Rle_trans; [apply Rabs_triang|]. apply Rplus_le_compat_r. eapply Rle_trans; [apply Rabs_triang|]. apply Rplus_le_compat_r. apply Rabs_triang.
  - intros x Hx. destruct (near_ratio _ _ _ Hs Hx) as (y & -> & Hy). clear Hx. cbn zeta. replace (s * y / s) with y by (field; lra).
    split; [unfold t1, t2, t3, t4; ring|].
    replace (1 + s * y * (s * y) * (3 * k1 + s * y * (s * y) * (5 * k2 + s * y * (s * y) * (7 * k3 + s * y * (s * y) * 9 * k4)))) with (1 + t1 * (3 * y ^ 2) + t2 * (5 * y ^ 4) + t3 * (7 * y ^ 6) + t4 * (9 * y ^ 8)) by (unfold t1, t2, t3, t4; ring).
    replace (1 + s * y * (s * y) * (k1 + s * y * (s * y) * (k2 + s * y * (s * y) * (k3 + s * y * (s * y) * k4)))) with (1 + t1 * y ^ 2 + t2 * y ^ 4 + t3 * y ^ 6 + t4 * y ^ 8) by (unfold t1, t2, t3, t4; ring).
    replace (1 + s * s * (k1 + s * s * (k2 + s * s * (k3 + s * s * k4)))) with (1 + t1 + t2 + t3 + t4) by (unfold t1, t2, t3, t4; ring).
    assert (HP : forall n, (29 / 30) ^ n <= y ^ n <= (31 / 30) ^ n) by (intros n; apply pow_bounds; lra).
    pose proof (HP 8%nat) as P8. pose proof (HP 6%nat) as P6. pose proof (HP 4%nat) as P4. pose proof (HP 2%nat) as P2.
    pose proof (HP 7%nat) as P7. pose proof (HP 5%nat) as P5. pose proof (HP 3%nat) as P3. clear HP.
    assert (Q8 : 0.762 <= y ^ 8 <= 1.3) by lra. assert (Q6 : 0.81 <= y ^ 6 <= 1.22) by lra. assert (Q4 : 0.87 <= y ^ 4 <= 1.15) by lra. assert (Q2 : 0.93 <= y ^ 2 <= 1.07) by lra.
    assert (Q7 : 0.78 <= y ^ 7 <= 1.26) by lra. assert (Q5 : 0.84 <= y ^ 5 <= 1.18) by lra. assert (Q3 : 0.9 <= y ^ 3 <= 1.11) by lra. clear P8 P6 P4 P2 P7 P5 P3.
    pose proof (abs_term t1 (3 * y ^ 2) 11.7 ltac:(apply Rabs_le; lra)) as B1. pose proof (abs_term t2 (5 * y ^ 4) 11.7 ltac:(apply Rabs_le; lra)) as B2.
    pose proof (abs_term t3 (7 * y ^ 6) 11.7 ltac:(apply Rabs_le; lra)) as B3. pose proof (abs_term t4 (9 * y ^ 8) 11.7 ltac:(apply Rabs_le; lra)) as B4.
    pose proof (abs_term t1 (y ^ 2) 1.3 ltac:(apply Rabs_le; lra)) as C1. pose proof (abs_term t2 (y ^ 4) 1.3 ltac:(apply Rabs_le; lra)) as C2.
    pose proof (abs_term t3 (y ^ 6) 1.3 ltac:(apply Rabs_le; lra)) as C3. pose proof (abs_term t4 (y ^ 8) 1.3 ltac:(apply Rabs_le; lra)) as C4.
    pose proof (abs_term t1 (2 * y ^ 2 - y - 1) 4.8 ltac:(apply Rabs_le; lra)) as D1. pose proof (abs_term t2 (4 * y ^ 4 - y ^ 3 - y ^ 2 - y - 1) 4.8 ltac:(apply Rabs_le; lra)) as D2.
    pose proof (abs_term t3 (6 * y ^ 6 - y ^ 5 - y ^ 4 - y ^ 3 - y ^ 2 - y - 1) 4.8 ltac:(apply Rabs_le; lra)) as D3.
    pose proof (abs_term t4 (8 * y ^ 8 - y ^ 7 - y ^ 6 - y ^ 5 - y ^ 4 - y ^ 3 - y ^ 2 - y - 1) 4.8 ltac:(apply Rabs_le; lra)) as D4.
    pose proof (abs_term t1 (1 + y) 10 ltac:(apply Rabs_le; lra)) as E1. pose proof (abs_term t2 (1 + y + y ^ 2 + y ^ 3) 10 ltac:(apply Rabs_le; lra)) as E2.
    pose proof (abs_term t3 (1 + y + y ^ 2 + y ^ 3 + y ^ 4 + y ^ 5) 10 ltac:(apply Rabs_le; lra)) as E3. pose proof (abs_term t4 (1 + y + y ^ 2 + y ^ 3 + y ^ 4 + y ^ 5 + y ^ 6 + y ^ 7) 10 ltac:(apply Rabs_le; lra)) as E4.
    fold a1 in B1, C1, D1, E1. fold a2 in B2, C2, D2, E2. fold a3 in B3, C3, D3, E3. fold a4 in B4, C4, D4, E4. rewrite Hu' in Hu |- *. clear u Hu'. clearbody t1 t2 t3 t4 a1 a2 a3 a4.
    split; [lra|]. split; [|split; [lra|]].
    + match goal with |- Rabs ?e <= _ => replace e with (t1 * (2 * y ^ 2 - y - 1) + t2 * (4 * y ^ 4 - y ^ 3 - y ^ 2 - y - 1) + t3 * (6 * y ^ 6 - y ^ 5 - y ^ 4 - y ^ 3 - y ^ 2 - y - 1)
        + t4 * (8 * y ^ 8 - y ^ 7 - y ^ 6 - y ^ 5 - y ^ 4 - y ^ 3 - y ^ 2 - y - 1)) by ring end.
      apply Rle_trans with (8 * (a1 + a2 + a3 + a4) * 0.6); [apply Rabs_le; lra|]. apply Rmult_le_compat_l; lra.
    + match goal with |- s * Rabs ?e <= _ => replace e with ((1 - y) * (t1 * (1 + y) + t2 * (1 + y + y ^ 2 + y ^ 3) + t3 * (1 + y + y ^ 2 + y ^ 3 + y ^ 4 + y ^ 5) + t4 * (1 + y + y ^ 2 + y ^ 3 + y ^ 4 + y ^ 5 + y ^ 6 + y ^ 7))) by ring end.
      rewrite Rabs_mult, <- Rmult_assoc. replace (s * y - s) with (s * (y - 1)) by ring. rewrite Rabs_mult, (Rabs_right s) by lra. rewrite (Rabs_minus_sym y 1).
      apply Rmult_le_compat_l; [apply Rmult_le_pos; [lra|apply Rabs_pos]|]. apply Rle_trans with 0.5; [apply Rabs_le|]; lra.
Qed.

Lemma eps_tol : epsilon <= tol.
Proof.
  unfold epsilon, tol. apply Rinv_le_contravar; [apply pow_lt; lra|]. apply Rle_trans with (10 ^ 15); [apply Rle_pow; [lra|lia]|].
  replace (10 ^ 15) with (1000 ^ 5) by ring. replace (2 ^ 52) with (2 ^ 2 * (2 ^ 10) ^ 5) by ring. replace (2 ^ 10) with 1024 by ring.
  assert (1000 ^ 5 <= 1024 ^ 5) by (apply pow_incr; lra). assert (0 <= 1024 ^ 5) by (apply pow_le; lra). lra.
Qed.
Lemma tame_backward d D F delta a q0 u : let s := radius q0 in
  0 <= a <= / 2 -> 0 <= u <= delta -> delta <= / 10 -> (0 < s -> tame d D F delta a s u) -> (s = 0 -> 0 < d (s * s)) ->
  exists mu, radial_Backward d D [d (s * s) * q0.1; d (s * s) * q0.2] = [mu * q0.1; mu * q0.2] /\ 0 < mu /\
  Rabs (mu * s - s) <= Rmax (2 * tol) (a ^ 10 * (u * s)) /\ Rabs (mu * s - s) <= delta * s.
Proof.
  intros s Ha Hu Hdl HT H0. assert (Hs : 0 <= s) by apply sqrt_pos. pose proof tol_pos. destruct Hs as [Hs|Hs].
  - destruct (HT Hs) as [T1 T2]. clear HT H0. assert (Hd : 0 < d (s * s)) by (apply abs_between in T1; lra).
    assert (Hrd : Rabs (s * d (s * s) - s) <= u * s).
    { replace (s * d (s * s) - s) with (s * (d (s * s) - 1)) by ring. rewrite Rabs_mult, (Rabs_right s), Rmult_comm by lra. apply Rmult_le_compat_r; lra. }
    assert (Hn : near delta s (s * d (s * s))). { unfold near. eapply Rle_trans; [exact Hrd|]. apply Rmult_le_compat_r; lra. }
    destruct (radial_backward d D F (near delta s) q0 a 1 ltac:(lra) ltac:(lra) Hd) as (mu & E & Hmu & B1 & B2).
    + intros _. exact Hn.
    + intros x _ Hx. destruct (T2 x Hx) as (F1 & F2 & F3 & _). split; [exact F1|]. split; [exact F2|]. split; [exact F3|].
      eapply near_step; [exact Hs| |exact Hx|exact F1|exact F2|exact F3]. lra.
    + intros x _ Hx. destruct (T2 x Hx) as (_ & _ & _ & F4 & F5). split; [exact F4|]. rewrite Rmult_1_l. exact F5.
    + intros L. change (radius q0) with s in L |- *. rewrite Rmult_1_l. eapply Rle_trans; [exact Hrd|].
      assert (s * (9 / 10) <= s * d (s * s)). { apply Rmult_le_compat_l; [lra|]. apply abs_between in T1. lra. }
      pose proof eps_tol.
      assert (u * s <= / 10 * s) by (apply Rmult_le_compat_r; lra). lra.
    + change (radius q0) with s in E, B1, B2 |- *. exists mu. split; [exact E|]. split; [exact Hmu|]. rewrite Rmult_1_l in B1. split.
      * eapply Rle_trans; [exact B1|]. apply Rmax_lub.
        -- eapply Rle_trans; [|apply Rmax_l]. unfold Rdiv. rewrite (Rmult_comm 2). apply Rmult_le_compat_l; [lra|]. replace 2 with (/ / 2) by lra. apply Rinv_le_contravar; lra.
        -- eapply Rle_trans; [|apply Rmax_r]. apply Rmult_le_compat_l; [apply pow_le; lra|exact Hrd].
      * destruct B2 as [->|(x & Hx & Hb)]; [rewrite (Rmult_comm _ s); exact Hn|]. rewrite Rmult_1_l in Hb. eapply Rle_trans; [exact Hb|exact Hx].
  - exists 1. specialize (H0 (eq_sym Hs)).
    assert (Hq : q0.1 = 0 /\ q0.2 = 0).
    { assert (E : radius2 q0 = 0) by (apply sqrt_eq_0; [apply radius2_nonneg|symmetry; exact Hs]). unfold radius2 in E. pose proof (pow2_ge_0 q0.1). pose proof (pow2_ge_0 q0.2). split; apply Rsqr_0_uniq; unfold Rsqr; lra. }
    destruct Hq as [-> ->]. rewrite !Rmult_0_r. unfold radial_Backward. cbn [nth]. unfold SquaredNorm. cbn [nth]. rewrite Rmult_0_l, Rplus_0_l, sqrt_0.
    destruct (Rlt_dec 0 epsilon) as [_|N]; [|exfalso; apply N, eps_pos]. split; [reflexivity|]. split; [lra|]. rewrite <- Hs.
    replace (1 * 0 - 0) with 0 by ring. rewrite Rabs_R0, !Rmult_0_r. split; [eapply Rle_trans; [|apply Rmax_l]; lra|lra].
Qed.

(** ** From the plane to directions *)
Lemma norm_le v e : 0 <= e -> dot v v <= e * e -> norm v <= e.
Proof. intros He H. unfold norm. rewrite <- (sqrt_square e He). now apply sqrt_le_1_alt. Qed.
Lemma persp_lipschitz x y x' y' k : norm (vsub (vec_of_list (Perspective_Backward [x'; y'] k)) (vec_of_list (Perspective_Backward [x; y] k))) <= sqrt ((x' - x) ^ 2 + (y' - y) ^ 2).
Proof.
  apply norm_le; [apply sqrt_pos|]. rewrite sqrt_sqrt by (pose proof (pow2_ge_0 (x' - x)); pose proof (pow2_ge_0 (y' - y)); lra).
  unfold Perspective_Backward, SquaredNorm, vec_of_list, vsub, dot. cbn [nth vx vy vz].
  assert (P : 1 <= x * x + y * y + 1) by nra. assert (P' : 1 <= x' * x' + y' * y' + 1) by nra.
  set (A := sqrt (x' * x' + y' * y' + 1)). set (B := sqrt (x * x + y * y + 1)).
  assert (HA : 1 <= A) by (unfold A; rewrite <- sqrt_1 at 1; apply sqrt_le_1_alt; assumption). assert (HB : 1 <= B) by (unfold B; rewrite <- sqrt_1 at 1; apply sqrt_le_1_alt; assumption).
  assert (A2 : A * A = x' * x' + y' * y' + 1) by (apply sqrt_sqrt; lra). assert (B2 : B * B = x * x + y * y + 1) by (apply sqrt_sqrt; lra). clearbody A B.
  set (e := x' * x + y' * y + 1).
  assert (He : e <= A * B).
  { destruct (Rle_dec e 0); [nra|]. apply Rsqr_incr_0; [|lra|nra]. unfold Rsqr. replace (A * B * (A * B)) with ((A * A) * (B * B)) by ring. rewrite A2, B2. unfold e.
    assert (0 <= (x' * y - y' * x) ^ 2 + (x' - x) ^ 2 + (y' - y) ^ 2) by (pose proof (pow2_ge_0 (x' * y - y' * x)); pose proof (pow2_ge_0 (x' - x)); pose proof (pow2_ge_0 (y' - y)); lra). lra. }
  apply Rle_trans with ((A * A) / (A * A) + (B * B) / (B * B) - 2 * e / (A * B)).
  { apply Req_le. rewrite A2 at 1. rewrite B2 at 1. unfold e. field. lra. }
  replace ((x' - x) ^ 2 + (y' - y) ^ 2) with (A * A + B * B - 2 * e) by (rewrite A2, B2; unfold e; ring).
  replace (A * A / (A * A)) with 1 by (field; lra). replace (B * B / (B * B)) with 1 by (field; lra).
  assert (HAB : 1 <= A * B) by nra. assert (Hi : / (A * B) <= 1) by (rewrite <- Rinv_1; apply Rinv_le_contravar; lra).
  assert (0 < / (A * B)) by (apply Rinv_0_lt_compat; lra). unfold Rdiv.
  assert (e * (1 - / (A * B)) <= A * B - 1). { apply Rle_trans with (A * B * (1 - / (A * B))); [apply Rmult_le_compat_r; lra|]. apply Req_le. field. lra. }
  assert (0 <= (A - B) ^ 2) by apply pow2_ge_0. lra.
Qed.
Lemma sin_le_abs x : Rabs (sin x) <= Rabs x.
Proof.
  destruct (Rtotal_order x 0) as [H|[->|H]].
  - destruct (Rlt_dec (-1) x) as [L|N].
    + pose proof (sin_lt_x (- x) ltac:(lra)) as S. rewrite sin_neg in S. assert (0 <= sin (- x)) by (apply sin_ge_0; pose proof PI2_1; lra). rewrite sin_neg in *. rewrite !Rabs_left1 by lra. lra.
    + rewrite (Rabs_left1 x) by lra. pose proof (SIN_bound x). apply Rabs_le. lra.
  - rewrite sin_0. lra.
  - destruct (Rlt_dec x 1) as [L|N].
    + pose proof (sin_lt_x x H). assert (0 <= sin x) by (apply sin_ge_0; pose proof PI2_1; lra). rewrite !Rabs_right by lra. lra.
    + rewrite (Rabs_right x) by lra. pose proof (SIN_bound x). apply Rabs_le. lra.
Qed.
Lemma chord x : 2 - 2 * cos x <= x * x.
Proof.
  replace (cos x) with (1 - 2 * (sin (x / 2) * sin (x / 2))). 2:{ replace x with (2 * (x / 2)) at 3 by field. rewrite cos_2a_sin. ring. }
  assert (sin (x / 2) * sin (x / 2) <= x / 2 * (x / 2)); [|lra]. apply Rsqr_le_abs_1. apply sin_le_abs.
Qed.
Lemma fish_lipschitz q mu k : 0 < mu -> small < radius q -> small < mu * radius q ->
  norm (vsub (vec_of_list (Fisheye_Backward [mu * q.1; mu * q.2] k)) (vec_of_list (Fisheye_Backward (pair_list q) k))) <= Rabs (mu * radius q - radius q).
Proof.
  intros Hmu Hs Hs'. pose proof small_pos. rewrite (fish_backward_far q k Hs). 
  assert (E : sqrt (radius2 (mu * q.1, mu * q.2)) = mu * radius q).
  { replace (radius2 (mu * q.1, mu * q.2)) with (SquaredNorm [mu * q.1; mu * q.2]) by (unfold SquaredNorm, radius2; cbn; ring). rewrite sqrt_scaled, Rabs_right by lra. reflexivity. }
  pose proof (fish_backward_far (mu * q.1, mu * q.2) k ltac:(rewrite E; exact Hs')) as HF. cbn zeta in HF. rewrite E in HF. unfold pair_list in HF at 1. cbn [fst snd] in HF. rewrite HF.
  fold (radius q). set (s := radius q) in *. assert (Hs2 : s * s = q.1 ^ 2 + q.2 ^ 2) by (apply sqrt_sqrt, radius2_nonneg).
  apply norm_le; [apply Rabs_pos|]. rewrite <- Rabs_mult, Rabs_right by (apply Rle_ge, (Rle_0_sqr (mu * s - s))).
  eapply Rle_trans; [|apply chord]. apply Req_le. unfold vsub, dot. cbn [vx vy vz]. rewrite cos_minus.
  transitivity ((q.1 ^ 2 + q.2 ^ 2) / (s * s) * (sin (mu * s) - sin s) ^ 2 + (cos (mu * s) - cos s) ^ 2); [field; lra|]. rewrite <- Hs2.
  replace (s * s / (s * s)) with 1 by (field; lra). pose proof (sc2 (mu * s)). pose proof (sc2 s). lra.
Qed.
