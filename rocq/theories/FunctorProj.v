From stdpp Require Import prelude.
From Coq Require Import Reals Lra.
From Coquelicot Require Import Coquelicot.
From Verif Require Import Base GeoModel GeoProofs FunctorModel FunctorSpec FunctorProofs FunctorLeaves.
Local Open Scope R_scope.
Set Bullet Behavior "Strict Subproofs".

Lemma good_Perspective d x p : x.[2] <> 0 -> good PerspectiveProjection d x p.
Proof.
  intros Hz. start; subst; cbn in Hz; (destruct j as [|[|j]]; [| |lia]); unfold PerspectiveProjection, Perspective_Forward; evalf; derives; auto; field; auto.
Qed.
Lemma norm2_pos x y z : (x <> 0 \/ y <> 0 \/ z <> 0) -> 0 < x * x + y * y + z * z.
Proof. intros H. pose proof (Rle_0_sqr x). pose proof (Rle_0_sqr y). pose proof (Rle_0_sqr z). unfold Rsqr in *.
  destruct H as [H|[H|H]]; pose proof (Rsqr_pos_lt _ H) as K; unfold Rsqr in K; lra. Qed.
Lemma derive_sqrt (Q : R -> R) t dq : is_derive Q t dq -> 0 < Q t -> is_derive (fun s => sqrt (Q s)) t (dq / (2 * sqrt (Q t))).
Proof.
  intros H Hq. pose proof (sqrt_lt_R0 _ Hq). derives; auto. field. lra.
Qed.
Lemma derive_over (X S : R -> R) t dx ds : is_derive X t dx -> is_derive S t ds -> S t <> 0 ->
  is_derive (fun s => X s * (1 / S s)) t (dx / S t - X t * ds / (S t * S t)).
Proof. intros HX HS H. derives; [auto|]. field. auto. Qed.
Lemma derive_over_sqrt (X Q : R -> R) t dx dq : is_derive X t dx -> is_derive Q t dq -> 0 < Q t ->
  is_derive (fun s => X s * (1 / sqrt (Q s))) t (dx / sqrt (Q t) - X t * dq / (2 * sqrt (Q t) * Q t)).
Proof.
  intros HX HQ Hq. pose proof (sqrt_lt_R0 _ Hq) as Hn. pose proof (sqrt_sqrt _ (Rlt_le _ _ Hq)) as Hs.
  pose proof (derive_over _ _ _ _ _ HX (derive_sqrt _ _ _ HQ Hq) ltac:(lra)) as D.
  eapply (eq_rect _ (is_derive _ _)); [exact D|]. match goal with |- ?a = ?b => change (@eq R a b) end. cbn beta. rewrite Hs. field. lra.
Qed.
Lemma good_Normalize d x p : x.[0] <> 0 \/ x.[1] <> 0 \/ x.[2] <> 0 -> good Normalize d x p.
Proof.
  intros Hz. start; subst; cbn in Hz; apply norm2_pos in Hz; pose proof (sqrt_lt_R0 _ Hz) as Hn;
  (destruct j as [|[|[|j]]]; [| | |lia]); unfold Normalize, Normalize_Forward; evalf.
  all: eapply (eq_rect _ (is_derive _ _)); [apply (derive_over_sqrt _ (fun s => r s * r s + r0 s * r0 s + r1 s * r1 s)); [eassumption|derives; reflexivity|exact Hz]|].
  all: match goal with |- ?a = ?b => change (@eq R a b) end; cbn beta; field; split; lra.
Qed.

(** atan2 is smooth off the negative x axis *)
Lemma atan2_up y x : 0 < y -> atan2 y x = PI / 2 - atan (x / y).
Proof.
  intros Hy. unfold atan2. destruct (Rlt_dec 0 x) as [H|H].
  - replace (y / x) with (/ (x / y)) by (field; lra). rewrite atan_inv by (apply Rdiv_lt_0_compat; lra). reflexivity.
  - destruct (Rlt_dec x 0) as [H'|H'].
    + destruct (Rle_dec 0 y); [|lra].
      replace (y / x) with (- / ((- x) / y)) by (field; lra). rewrite atan_opp, atan_inv by (apply Rdiv_lt_0_compat; lra).
      replace (- x / y) with (- (x / y)) by (field; lra). rewrite atan_opp. lra.
    + replace x with 0 by lra. destruct (Rlt_dec 0 y); [|lra]. unfold Rdiv at 3. rewrite Rmult_0_l, atan_0. lra.
Qed.
Lemma atan2_down y x : y < 0 -> atan2 y x = - (PI / 2) - atan (x / y).
Proof.
  intros Hy. unfold atan2. destruct (Rlt_dec 0 x) as [H|H].
  - replace (y / x) with (- / (x / (- y))) by (field; lra). rewrite atan_opp, atan_inv by (apply Rdiv_lt_0_compat; lra).
    replace (x / - y) with (- (x / y)) by (field; lra). rewrite atan_opp. lra.
  - destruct (Rlt_dec x 0) as [H'|H'].
    + destruct (Rle_dec 0 y); [lra|].
      replace (y / x) with (/ (x / y)) by (field; lra).
      rewrite atan_inv by (replace (x / y) with (- x / - y) by (field; lra); apply Rdiv_lt_0_compat; lra). lra.
    + replace x with 0 by lra. destruct (Rlt_dec 0 y); [lra|]. destruct (Rlt_dec y 0); [|lra]. unfold Rdiv at 3. rewrite Rmult_0_l, atan_0. lra.
Qed.
Lemma locally_gt (f : R -> R) (t d c : R) : is_derive f t d -> c < f t -> locally t (fun s => c < f s).
Proof.
  intros H Hc. assert (C : continuous f t) by (apply (@ex_derive_continuous R_AbsRing R_NormedModule); now exists d).
  exact (C (fun u => c < u) (open_gt c (f t) Hc)).
Qed.
Lemma locally_lt (f : R -> R) (t d c : R) : is_derive f t d -> f t < c -> locally t (fun s => f s < c).
Proof.
  intros H Hc. assert (C : continuous f t) by (apply (@ex_derive_continuous R_AbsRing R_NormedModule); now exists d).
  exact (C (fun u => u < c) (open_lt c (f t) Hc)).
Qed.
Lemma derive_atan2 (Y X : R -> R) t dy dx : is_derive Y t dy -> is_derive X t dx -> 0 < X t \/ Y t <> 0 ->
  is_derive (fun s => atan2 (Y s) (X s)) t ((X t * dy - Y t * dx) / (X t * X t + Y t * Y t)).
Proof.
  intros HY HX H.
  assert (Hcase : 0 < X t \/ 0 < Y t \/ Y t < 0) by (destruct H; [lra|]; destruct (Rtotal_order 0 (Y t)) as [?|[?|?]]; [lra|congruence|lra]).
  clear H. pose proof (Rle_0_sqr (X t)) as SX. pose proof (Rle_0_sqr (Y t)) as SY. unfold Rsqr in SX, SY.
  destruct Hcase as [H|[H|H]].
  - apply (is_derive_ext_loc (fun s => atan (Y s / X s))).
    + eapply filter_imp; [|exact (locally_gt _ _ _ _ HX H)]. cbn. intros s Hs. unfold atan2. destruct (Rlt_dec 0 (X s)); [reflexivity|lra].
    + assert (0 < X t * X t) by (apply Rmult_lt_0_compat; lra). derives; [lra|]. unfold Rsqr. field. split; [|lra]. nra.
  - apply (is_derive_ext_loc (fun s => PI / 2 - atan (X s / Y s))).
    + eapply filter_imp; [|exact (locally_gt _ _ _ _ HY H)]. cbn. intros s Hs. symmetry. now apply atan2_up.
    + assert (0 < Y t * Y t) by (apply Rmult_lt_0_compat; lra). derives; [lra|]. unfold Rsqr. field. repeat split; try lra; nra.
  - apply (is_derive_ext_loc (fun s => - (PI / 2) - atan (X s / Y s))).
    + eapply filter_imp; [|exact (locally_lt _ _ _ _ HY H)]. cbn. intros s Hs. symmetry. now apply atan2_down.
    + assert (0 < Y t * Y t) by nra. derives; [lra|]. unfold Rsqr. field. repeat split; try lra; nra.
Qed.

(** Spherical: off the half plane x = 0, z <= 0 *)
Ltac by_value := eapply (eq_rect _ (is_derive _ _)); [|match goal with |- ?a = ?b => change (@eq R a b) end].
Lemma derive_scale (F : R -> R) t d k : is_derive F t d -> is_derive (fun s => F s * k) t (d * k).
Proof. intros H. derives. ring. Qed.
Lemma derive_neg_scale (F : R -> R) t d k : is_derive F t d -> is_derive (fun s => - F s * k) t (- d * k).
Proof. intros H. derives. ring. Qed.
Lemma derive_lat (X Y Z : R -> R) t dx dy dz : is_derive X t dx -> is_derive Y t dy -> is_derive Z t dz -> 0 < X t * X t + Z t * Z t ->
  is_derive (fun s => atan2 (- Y s) (sqrt (X s * X s + Z s * Z s))) t
    ((- dy * (X t * X t + Z t * Z t) + Y t * (X t * dx + Z t * dz)) / (sqrt (X t * X t + Z t * Z t) * (X t * X t + Y t * Y t + Z t * Z t))).
Proof.
  intros HX HY HZ Hq. pose proof (sqrt_lt_R0 _ Hq) as Hn. pose proof (sqrt_sqrt _ (Rlt_le _ _ Hq)) as Hs.
  by_value.
  - apply (derive_atan2 (fun s => - Y s) (fun s => sqrt (X s * X s + Z s * Z s))); [derives; reflexivity| |left; exact Hn].
    apply (derive_sqrt (fun s => X s * X s + Z s * Z s)); [derives; reflexivity|exact Hq].
  - cbn beta. rewrite Hs. pose proof (Rle_0_sqr (Y t)) as SY. unfold Rsqr in SY. set (n := sqrt _) in *.
    replace (n * (- (1 * dy)) - - Y t * ((1 * dx * X t + X t * (1 * dx) + (1 * dz * Z t + Z t * (1 * dz))) / (2 * n)))
      with ((- dy * (n * n) + Y t * (X t * dx + Z t * dz)) / n) by (field; lra).
    rewrite Hs. field. repeat split; lra.
Qed.
Lemma good_Spherical d x p : x.[0] <> 0 \/ 0 < x.[2] -> good SphericalProjection d x p.
Proof.
  intros Hz. pose proof PI_RGT_0 as HPI. start; subst; cbn in Hz.
  all: assert (Hrt : 0 < r t * r t + r1 t * r1 t) by (destruct Hz as [Hz|Hz]; [pose proof (Rsqr_pos_lt _ Hz) as K; unfold Rsqr in K; nra|nra]).
  all: pose proof (sqrt_lt_R0 _ Hrt) as Hn; pose proof (sqrt_sqrt _ (Rlt_le _ _ Hrt)) as Hs; pose proof (Rle_0_sqr (r0 t)) as SY; unfold Rsqr in SY.
  all: (destruct j as [|[|j]]; [| |lia]); unfold SphericalProjection, Spherical_Forward, SquaredNorm; evalf.
  1,3: by_value; [apply (derive_scale (fun s => atan2 (r s) (r1 s))); apply (derive_atan2 r r1); [eassumption|eassumption|tauto]|field; repeat split; lra].
  all: by_value; [apply (derive_neg_scale (fun s => atan2 (- r0 s) (sqrt (r s * r s + r1 s * r1 s)))); apply (derive_lat r r0 r1); eassumption|].
  all: set (n := sqrt _) in *; set (q := r t * r t + r1 t * r1 t) in *;
       replace (r t * r t + r0 t * r0 t + r1 t * r1 t) with (q + r0 t * r0 t) by (unfold q; ring).
  all: replace (r0 t * r0 t) with (r0 t * r0 t + 0) by ring; rewrite <- Hs; field_simplify_eq; [ring|repeat split; lra].
Qed.

(** Fisheye *)
Lemma derive_fish (X Y Z S T : R -> R) t dx dy dz : is_derive X t dx ->
  is_derive S t ((X t * dx + Y t * dy) / S t) -> is_derive T t ((Z t * ((X t * dx + Y t * dy) / S t) - S t * dz) / (Z t * Z t + S t * S t)) ->
  0 < S t -> S t * S t = X t * X t + Y t * Y t ->
  is_derive (fun s => T s / S s * X s) t
    (((Y t * Y t * T t * (S t * S t + Z t * Z t) + X t * X t * Z t * S t) * dx + X t * Y t * (Z t * S t - T t * (S t * S t + Z t * Z t)) * dy)
       / (S t * S t * (S t * S t + Z t * Z t) * S t) - X t / (S t * S t + Z t * Z t) * dz).
Proof.
  intros HX HS HT Hn Hs. derives; [lra|].
  pose proof (Rle_0_sqr (Z t)) as SZ; unfold Rsqr in SZ. assert (Hnn : 0 < S t * S t) by (apply Rmult_lt_0_compat; lra).
  clear HX HS HT. generalize (T t). intros th. revert Hn Hs Hnn. generalize (S t). intros n Hn Hs Hnn.
  transitivity (((Z t * ((X t * dx + Y t * dy) / n) - n * dz) / (Z t * Z t + n * n) / n - th * ((X t * dx + Y t * dy) / n) / (n * n)) * X t + th * (n * n) / (n * n * n) * dx).
  - field. repeat split; lra.
  - replace (th * (n * n) / (n * n * n) * dx) with (th * (X t * X t + Y t * Y t) / (n * n * n) * dx) by (rewrite Hs; reflexivity).
    field. repeat split; lra.
Qed.
Lemma sq2_pos x y : 0 < sqrt (x * x + y * y) -> 0 < x * x + y * y.
Proof. intros H. destruct (Rlt_dec 0 (x * x + y * y)) as [|K]; [auto|]. rewrite sqrt_neg_0 in H by lra. lra. Qed.
Lemma small_pos : 0 < small. Proof. unfold small. apply Rinv_0_lt_compat. lra. Qed.
Definition fisheye_domain (x : list R) : Prop := small < sqrt (SquaredNorm x) \/ (sqrt (SquaredNorm x) < small /\ x.[2] <> 0).
Lemma fisheye_far (X Y Z : R -> R) t dx dy dz : is_derive X t dx -> is_derive Y t dy -> is_derive Z t dz -> small < sqrt (X t * X t + Y t * Y t) ->
  let n := sqrt (X t * X t + Y t * Y t) in let th := atan2 n (Z t) in
  (forall j, (j < 2)%nat ->
   is_derive (fun s => (Fisheye_Forward [X s; Y s; Z s] []).[j]) t
     (let a := if decide (j = 0%nat) then X t else Y t in let b := if decide (j = 0%nat) then Y t else X t in
      let da := if decide (j = 0%nat) then dx else dy in let db := if decide (j = 0%nat) then dy else dx in
      ((b * b * th * (n * n + Z t * Z t) + a * a * Z t * n) * da + a * b * (Z t * n - th * (n * n + Z t * Z t)) * db)
       / (n * n * (n * n + Z t * Z t) * n) - a / (n * n + Z t * Z t) * dz)) .
Proof.
  intros HX HY HZ Hr n th j Hj. pose proof small_pos as Hsm. fold n in Hr. assert (Hn : 0 < n) by lra.
  assert (Hq : 0 < X t * X t + Y t * Y t) by (apply sq2_pos; fold n; lra).
  assert (Hs : n * n = X t * X t + Y t * Y t) by (apply sqrt_sqrt; lra).
  set (S := fun s => sqrt (X s * X s + Y s * Y s)).
  assert (HS : is_derive S t ((X t * dx + Y t * dy) / n)).
  { by_value; [apply (derive_sqrt (fun s => X s * X s + Y s * Y s)); [derives; reflexivity|exact Hq]|]. fold n. field. lra. }
  set (T := fun s => atan2 (S s) (Z s)).
  assert (HT : is_derive T t ((Z t * ((X t * dx + Y t * dy) / n) - n * dz) / (Z t * Z t + n * n))).
  { by_value; [apply (derive_atan2 S Z); [exact HS|exact HZ|right; change (n <> 0); lra]|]. reflexivity. }
  assert (L : locally t (fun s => small < S s)) by (apply (locally_gt S t _ small HS); exact Hr).
  apply (is_derive_ext_loc (fun s => T s / S s * (if decide (j = 0%nat) then X s else Y s))).
  - eapply filter_imp; [|exact L]. cbn beta. intros s Hss. unfold Fisheye_Forward, SquaredNorm. cbn [nth]. fold (S s). fold (T s).
    destruct (Rlt_dec (S s) small); [lra|]. destruct j as [|[|j]]; [reflexivity|reflexivity|lia].
  - destruct (decide (j = 0%nat)).
    + apply (derive_fish X Y Z S T); auto.
    + apply (derive_fish Y X Z S T); auto; change (S t) with n.
      * by_value; [exact HS|]. field. lra.
      * by_value; [exact HT|]. pose proof (Rle_0_sqr (Z t)) as SZ; unfold Rsqr in SZ. pose proof (Rmult_lt_0_compat _ _ Hn Hn). field. repeat split; lra.
      * rewrite Hs. ring.
Qed.
Lemma good_Fisheye d x p : fisheye_domain x -> good FisheyeProjection d x p.
Proof.
  intros Hz. pose proof small_pos as Hsm.
  split; [reflexivity|unfold FisheyeProjection; cbn; destruct (Rlt_dec _ _), d; reflexivity|].
  intros xs ps t dxs dps Hl Hlp Hx Hp Hm Hmp Hd j Hj. cbn in Hl, Hlp, Hj. components. 
  destruct Hz as [Hr|[Hr Hz]]; unfold SquaredNorm in Hr; subst; cbn [at_time map nth] in Hr.
  - pose proof (fisheye_far r r0 r1 t _ _ _ H H0 H1 Hr j Hj) as D. cbn zeta in D.
    pose proof (sqrt_sqrt _ (Rlt_le _ _ (sq2_pos _ _ (Rlt_trans _ _ _ Hsm Hr)))) as Hs.
    assert (HS : Stride FisheyeProjection d = 3%nat) by (destruct d; reflexivity). rewrite HS.
    unfold FisheyeProjection, SquaredNorm. cbn [ForwardDerivatives Forward snd at_time map nth].
    destruct (Rlt_dec _ small) as [?|_]; [lra|].
    by_value; [exact D|].
    set (n := sqrt _) in *. pose proof (Rle_0_sqr (r1 t)) as SZ; unfold Rsqr in SZ. assert (Hn : 0 < n) by lra. assert (Hnn : 0 < n * n) by (apply Rmult_lt_0_compat; lra).
    generalize (atan2 n (r1 t)). intros th.
    destruct j as [|[|j]]; [| |lia]; cbv [sum_n foldr map seq nth app Nat.add Nat.mul]; rewrite ?decide_True, ?decide_False by lia; rewrite <- Hs.
    all: field_simplify_eq; [|repeat split; lra]; replace (n ^ 2) with (r t * r t + r0 t * r0 t) by (rewrite <- Hs; ring); ring.
  - cbn [at_time map nth] in Hz.
    assert (HS : Stride FisheyeProjection d = 3%nat) by (destruct d; reflexivity). rewrite HS.
    assert (Hq : r t * r t + r0 t * r0 t < small * small).
    { destruct (Rlt_dec (r t * r t + r0 t * r0 t) (small * small)) as [|K]; [auto|exfalso].
      apply Rnot_lt_le in K. apply sqrt_le_1_alt in K. rewrite sqrt_square in K by lra. lra. }
    assert (L : locally t (fun s => r s * r s + r0 s * r0 s < small * small)).
    { apply (locally_lt (fun s => r s * r s + r0 s * r0 s) t (2 * r t * x0 + 2 * r0 t * x2)); [derives; ring|exact Hq]. }
    apply (is_derive_ext_loc (fun s => (Perspective_Forward [r s; r0 s; r1 s] []).[j])).
    + eapply filter_imp; [|exact L]. cbn beta. intros s Hss. unfold FisheyeProjection, Fisheye_Forward, SquaredNorm. cbn [Forward at_time map nth].
      destruct (Rlt_dec _ small) as [_|K]; [reflexivity|exfalso]. apply K.
      rewrite <- (sqrt_square small) by lra. apply sqrt_lt_1_alt. split; [|lra]. nra.
    + unfold FisheyeProjection, SquaredNorm. cbn [ForwardDerivatives snd at_time map nth]. destruct (Rlt_dec _ small) as [_|K]; [|lra].
      destruct j as [|[|j]]; [| |lia]; unfold Perspective_Forward; cbv [sum_n foldr map seq nth app Nat.add Nat.mul]; derives; auto; field; auto.
Qed.
Lemma derive_mix (T P F : R -> R) (t dT a b : R) : is_derive T t dT -> is_derive P t a -> is_derive F t b ->
  is_derive (fun s => T s * P s + (1 - T s) * F s) t (dT * P t + T t * a - dT * F t + (1 - T t) * b).
Proof. intros. derives. ring. Qed.
Lemma good_Dual d x p : x.[2] <> 0 -> sqrt (SquaredNorm x) <> small -> good DualProjection d x p.
Proof.
  intros Hz Hr. assert (HF : fisheye_domain x) by (destruct (Rtotal_order (sqrt (SquaredNorm x)) small) as [?|[?|?]]; [right; auto|contradiction|left; auto]).
  split; [reflexivity|destruct d; reflexivity|].
  intros xs ps t dxs dps Hl Hlp Hx Hp Hm Hmp Hd j Hj. cbn in Hl, Hlp, Hj.
  pose proof (good_derive _ _ _ _ (good_Perspective false x [] Hz) xs [] t dxs [] Hl ltac:(cbn; lia) Hx eq_refl Hm ltac:(constructor) ltac:(constructor) j Hj) as DP.
  pose proof (good_derive _ _ _ _ (good_Fisheye false x [] HF) xs [] t dxs [] Hl ltac:(cbn; lia) Hx eq_refl Hm ltac:(constructor) ltac:(constructor) j Hj) as DF.
  change (Stride PerspectiveProjection false) with 3%nat in DP. change (Stride FisheyeProjection false) with 3%nat in DF.
  cbn [ForwardDerivatives PerspectiveProjection Forward] in DP.
  change (Forward FisheyeProjection) with Fisheye_Forward in DF.
  assert (HJP : (ForwardDerivatives PerspectiveProjection false x p).2 = (ForwardDerivatives PerspectiveProjection false x []).2) by reflexivity.
  assert (HJF : (ForwardDerivatives FisheyeProjection false x p).2 = (ForwardDerivatives FisheyeProjection false x []).2) by reflexivity.
  set (PF := fun s => (Perspective_Forward (at_time xs s) (at_time [] s)).[j]) in *.
  set (FF := fun s => (Fisheye_Forward (at_time xs s) (at_time [] s)).[j]) in *.
  destruct ps as [|T ps]; [cbn in Hlp; exfalso; lia|]. apply moving_cons in Hmp as (dT & dps' & HT & Hmp & ->).
  assert (HD : is_derive (fun s => T s * PF s + (1 - T s) * FF s) t
    (dT * PF t + T t * (sum_n 3 (fun c => (ForwardDerivatives PerspectiveProjection false x []).2.[j * 3 + c] * (dxs ++ []).[c])) - dT * FF t +
     (1 - T t) * (sum_n 3 (fun c => (ForwardDerivatives FisheyeProjection false x []).2.[j * 3 + c] * (dxs ++ []).[c])))) .
  { exact (derive_mix T PF FF t _ _ _ HT DP DF). }
  by_value.
  - eapply is_derive_ext; [|exact HD]. intros s. cbn beta. unfold PF, FF, DualProjection, Dual_Forward. cbn [Forward at_time map nth].
    change (map (fun f => f s) xs) with (at_time xs s).
    destruct j as [|[|j]]; [reflexivity|reflexivity|lia].
  - rewrite app_nil_r. assert (HTp : p.[0] = T t) by (rewrite <- Hp; reflexivity).
    assert (HPF : PF t = (Perspective_Forward x p).[j]) by (unfold PF; rewrite Hx; reflexivity).
    assert (HFF : FF t = (Fisheye_Forward x p).[j]) by (unfold FF; rewrite Hx; reflexivity).
    pose proof (moving_length _ _ _ Hm) as HL. rewrite Hl in HL.
    destruct dxs as [|dx [|dy [|dz [|? ?]]]]; cbn in HL; try lia.
    change (ForwardDerivatives DualProjection d x p).2 with
      (let row i := map (fun j => p.[0] * (ForwardDerivatives PerspectiveProjection false x p).2.[i * 3 + j] + (1 - p.[0]) * (ForwardDerivatives FisheyeProjection false x p).2.[i * 3 + j]) (seq 0 3) in
       row 0%nat ++ (if d then (((Perspective_Forward x p).[0] - (Fisheye_Forward x p).[0]) :: nil) else []) ++ row 1%nat ++ (if d then (((Perspective_Forward x p).[1] - (Fisheye_Forward x p).[1]) :: nil) else [])).
    rewrite HJP, HJF. cbn zeta. rewrite HTp.
    set (JP := (ForwardDerivatives PerspectiveProjection false x []).2). set (JF := (ForwardDerivatives FisheyeProjection false x []).2).
    rewrite HPF, HFF.
    destruct d; [|specialize (Hd eq_refl); apply zeros_cons in Hd as [<- Hd]].
    all: destruct j as [|[|j]]; [| |lia]; cbv [sum_n foldr map seq app Nat.add Nat.mul Stride ParamSize InSize DualProjection]; cbn [nth]; ring.
Qed.
