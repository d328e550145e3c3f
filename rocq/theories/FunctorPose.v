From stdpp Require Import prelude.
From Coq Require Import Reals Lra.
From Coquelicot Require Import Coquelicot.
From Verif Require Import Base FunctorModel FunctorSpec FunctorProofs FunctorLeaves FunctorProj.
Local Open Scope R_scope.
Set Bullet Behavior "Strict Subproofs".

(** ** Dual numbers compute derivatives *)
Section dual.
  Context (t a b c : R).
  Definition rep (F : R -> R) (D : dual) : Prop := F t = dv D /\ is_derive F t (d0 D * a + d1 D * b + d2 D * c).
  Lemma rep_of k : rep (fun _ => k) (s_of dual_scalar k).
  Proof. split; [reflexivity|]. cbn. by_value; [apply is_derive_const'|]. ring. Qed.
  Lemma rep_add F G D E : rep F D -> rep G E -> rep (fun s => F s + G s) (s_add dual_scalar D E).
  Proof. intros [H1 H2] [K1 K2]. split; [cbn; congruence|]. cbn [s_add dual_scalar dv d0 d1 d2]. derives. ring. Qed.
  Lemma rep_sub F G D E : rep F D -> rep G E -> rep (fun s => F s - G s) (s_sub dual_scalar D E).
  Proof. intros [H1 H2] [K1 K2]. split; [cbn; congruence|]. cbn [s_sub dual_scalar dv d0 d1 d2]. derives. ring. Qed.
  Lemma rep_mul F G D E : rep F D -> rep G E -> rep (fun s => F s * G s) (s_mul dual_scalar D E).
  Proof. intros [H1 H2] [K1 K2]. split; [cbn; congruence|]. cbn [s_mul dual_scalar dv d0 d1 d2]. derives. rewrite H1, K1. ring. Qed.
  Lemma rep_div F G D E : rep F D -> rep G E -> dv E <> 0 -> rep (fun s => F s / G s) (s_div dual_scalar D E).
  Proof. intros [H1 H2] [K1 K2] Hn. split; [cbn; congruence|]. cbn [s_div dual_scalar dv d0 d1 d2]. derives; [congruence|]. rewrite H1, K1. field. auto. Qed.
  Lemma rep_opp F D : rep F D -> rep (fun s => - F s) (s_opp dual_scalar D).
  Proof. intros [H1 H2]. split; [cbn; congruence|]. cbn [s_opp dual_scalar dual_lift dv d0 d1 d2]. derives. ring. Qed.
  Lemma rep_sqrt F D : rep F D -> 0 < dv D -> rep (fun s => sqrt (F s)) (s_sqrt dual_scalar D).
  Proof.
    intros [H1 H2] Hp. pose proof (sqrt_lt_R0 _ Hp). split; [cbn; congruence|]. cbn [s_sqrt dual_scalar dual_lift dv d0 d1 d2].
    derives; [congruence|]. rewrite H1. field. lra.
  Qed.
  Lemma rep_cos F D : rep F D -> rep (fun s => cos (F s)) (s_cos dual_scalar D).
  Proof. intros [H1 H2]. split; [cbn; congruence|]. cbn [s_cos dual_scalar dual_lift dv d0 d1 d2]. derives. rewrite H1. ring. Qed.
  Lemma rep_sin F D : rep F D -> rep (fun s => sin (F s)) (s_sin dual_scalar D).
  Proof. intros [H1 H2]. split; [cbn; congruence|]. cbn [s_sin dual_scalar dual_lift dv d0 d1 d2]. derives. rewrite H1. ring. Qed.
End dual.

(** The regular branch of AngleAxisToRotation *)
Definition rodrigues {T} (S : scalar T) (u v w : T) : list T :=
  let add := s_add S in let sub := s_sub S in let mul := s_mul S in
  let theta2 := add (add (mul u u) (mul v v)) (mul w w) in
    let theta := s_sqrt S theta2 in
    let c := s_cos S theta in let s := s_sin S theta in let t := sub (s_of S 1) c in
    let inv_theta2 := s_div S (s_of S 1) theta2 in let inv_theta := s_div S (s_of S 1) theta in
    let xx := mul (mul u u) inv_theta2 in let xy := mul (mul u v) inv_theta2 in let xz := mul (mul u w) inv_theta2 in
    let yy := mul (mul v v) inv_theta2 in let yz := mul (mul v w) inv_theta2 in let zz := mul (mul w w) inv_theta2 in
    let xs := mul (mul u inv_theta) s in let ys := mul (mul v inv_theta) s in let zs := mul (mul w inv_theta) s in
    [add (mul t xx) c; sub (mul t xy) zs; add (mul t xz) ys;
     add (mul t xy) zs; add (mul t yy) c; sub (mul t yz) xs;
     sub (mul t xz) ys; add (mul t yz) xs; add (mul t zz) c].
Lemma AngleAxis_regular {T} (S : scalar T) u v w :
  epsilon <= s_value S (s_add S (s_add S (s_mul S u u) (s_mul S v v)) (s_mul S w w)) -> AngleAxisToRotation S u v w = rodrigues S u v w.
Proof. intros H. unfold AngleAxisToRotation. destruct (Rlt_dec _ _); [lra|reflexivity]. Qed.

Lemma Forall2_nth {A B} (P : A -> B -> Prop) l k i a b : Forall2 P l k -> (i < length l)%nat -> P (nth i l a) (nth i k b).
Proof. intros H. revert i. induction H; intros [|i] Hi; cbn in *; try lia; auto. apply IHForall2. lia. Qed.
Lemma epsilon_pos : 0 < epsilon. Proof. unfold epsilon. apply Rinv_0_lt_compat. lra. Qed.

Ltac reps := repeat first [ assumption | apply rep_add | apply rep_sub | apply rep_mul | apply rep_of | apply rep_cos | apply rep_sin | apply rep_opp
  | apply rep_sqrt | apply rep_div ].
Lemma rodrigues_rep t a b c U V W DU DV DW i : rep t a b c U DU -> rep t a b c V DV -> rep t a b c W DW ->
  0 < dv (s_add dual_scalar (s_add dual_scalar (s_mul dual_scalar DU DU) (s_mul dual_scalar DV DV)) (s_mul dual_scalar DW DW)) -> (i < 9)%nat ->
  rep t a b c (fun s => (rodrigues real_scalar (U s) (V s) (W s)).[i]) (nth i (rodrigues dual_scalar DU DV DW) (Dual 0 0 0 0)).
Proof.
  intros HU HV HW Hp Hi. unfold rodrigues. pose proof (sqrt_lt_R0 _ Hp) as Hsq.
  cbn [s_add s_sub s_mul s_div s_opp s_sqrt s_cos s_sin s_of real_scalar].
  do 9 (destruct i as [|i]; [cbn [nth]; reps; cbn [s_sqrt dual_scalar dual_lift dv] in *; lra|]). lia.
Qed.

(** Pose_Forward applies that matrix *)
Definition theta2_of (rt : list R) : R := rt.[0] * rt.[0] + rt.[1] * rt.[1] + rt.[2] * rt.[2].
Lemma Pose_Forward_matrix point rt i : epsilon < theta2_of rt -> (i < 3)%nat ->
  (Pose_Forward point rt).[i] =
  (rodrigues real_scalar (- rt.[0]) (- rt.[1]) (- rt.[2])).[i * 3] * (point.[0] - rt.[3]) +
  (rodrigues real_scalar (- rt.[0]) (- rt.[1]) (- rt.[2])).[i * 3 + 1] * (point.[1] - rt.[4]) +
  (rodrigues real_scalar (- rt.[0]) (- rt.[1]) (- rt.[2])).[i * 3 + 2] * (point.[2] - rt.[5]).
Proof.
  intros He Hi. unfold theta2_of in He. pose proof epsilon_pos as Hep. unfold Pose_Forward.
  set (a := - rt.[0]). set (b := - rt.[1]). set (c := - rt.[2]).
  assert (E : rt.[0] * rt.[0] + rt.[1] * rt.[1] + rt.[2] * rt.[2] = a * a + b * b + c * c) by (unfold a, b, c; ring). rewrite E in He.
  destruct (Rlt_dec epsilon (a * a + b * b + c * c)) as [_|N]; [|lra].
  assert (Hp : 0 < a * a + b * b + c * c) by lra. pose proof (sqrt_lt_R0 _ Hp) as Hn. pose proof (sqrt_sqrt _ (Rlt_le _ _ Hp)) as Hs.
  unfold rodrigues. cbn [s_add s_sub s_mul s_div s_opp s_sqrt s_cos s_sin s_of real_scalar].
  set (th := sqrt _) in *.
  destruct i as [|[|[|i]]]; [| | |lia]; cbn [nth Nat.mul Nat.add]; field; split; lra.
Qed.
Definition pose_duals (rt : list R) : list dual :=
  rodrigues dual_scalar (Dual (- rt.[0]) (-1) 0 0) (Dual (- rt.[1]) 0 (-1) 0) (Dual (- rt.[2]) 0 0 (-1)).
Definition dnth (l : list dual) i := nth i l (Dual 0 0 0 0).
Definition moves_by (D : dual) (a b c : R) : R := d0 D * a + d1 D * b + d2 D * c.
Lemma derive_row (M0 M1 M2 P0 P1 P2 Q0 Q1 Q2 : R -> R) (t m0 m1 m2 p0 p1 p2 q0 q1 q2 : R) :
  is_derive M0 t m0 -> is_derive M1 t m1 -> is_derive M2 t m2 -> is_derive P0 t p0 -> is_derive P1 t p1 -> is_derive P2 t p2 ->
  is_derive Q0 t q0 -> is_derive Q1 t q1 -> is_derive Q2 t q2 ->
  is_derive (fun s => M0 s * (P0 s - Q0 s) + M1 s * (P1 s - Q1 s) + M2 s * (P2 s - Q2 s)) t
    (m0 * (P0 t - Q0 t) + m1 * (P1 t - Q1 t) + m2 * (P2 t - Q2 t) + M0 t * (p0 - q0) + M1 t * (p1 - q1) + M2 t * (p2 - q2)).
Proof. intros. derives. ring. Qed.
Lemma pose_derive (X Y Z A B C T0 T1 T2 : R -> R) (ps : list (R -> R)) (t dx dy dz da db dc e0 e1 e2 : R) i :
  is_derive X t dx -> is_derive Y t dy -> is_derive Z t dz -> is_derive A t da -> is_derive B t db -> is_derive C t dc ->
  is_derive T0 t e0 -> is_derive T1 t e1 -> is_derive T2 t e2 ->
  epsilon < A t * A t + B t * B t + C t * C t -> (i < 3)%nat ->
  is_derive (fun s => (Pose_Forward [X s; Y s; Z s] (at_time (A :: B :: C :: T0 :: T1 :: T2 :: ps) s)).[i]) t
    (let D := fun j => dnth (pose_duals [A t; B t; C t]) (i * 3 + j) in
     moves_by (D 0%nat) da db dc * (X t - T0 t) + moves_by (D 1%nat) da db dc * (Y t - T1 t) + moves_by (D 2%nat) da db dc * (Z t - T2 t) +
     dv (D 0%nat) * (dx - e0) + dv (D 1%nat) * (dy - e1) + dv (D 2%nat) * (dz - e2)).
Proof.
  intros HX HY HZ HA HB HC H0 H1 H2 He Hi. set (D := fun j => dnth (pose_duals [A t; B t; C t]) (i * 3 + j)).
  match goal with |- is_derive ?f t _ => change (is_derive f t (moves_by (D 0%nat) da db dc * (X t - T0 t) + moves_by (D 1%nat) da db dc * (Y t - T1 t) + moves_by (D 2%nat) da db dc * (Z t - T2 t) +
     dv (D 0%nat) * (dx - e0) + dv (D 1%nat) * (dy - e1) + dv (D 2%nat) * (dz - e2))) end.
  pose proof epsilon_pos as Hep.
  set (m := fun j s => (rodrigues real_scalar (- A s) (- B s) (- C s)).[i * 3 + j]).
  assert (Hrep : forall j, (j < 3)%nat -> rep t da db dc (m j) (D j)).
  { intros j Hj. unfold m, D, dnth, pose_duals. cbn [nth].
    apply (rodrigues_rep t da db dc (fun s => - A s) (fun s => - B s) (fun s => - C s)).
    - split; [reflexivity|]. cbn [dv d0 d1 d2]. derives. ring.
    - split; [reflexivity|]. cbn [dv d0 d1 d2]. derives. ring.
    - split; [reflexivity|]. cbn [dv d0 d1 d2]. derives. ring.
    - cbn [s_add s_mul dual_scalar dv]. lra.
    - lia. }
  apply (is_derive_ext_loc (fun s => m 0%nat s * (X s - T0 s) + m 1%nat s * (Y s - T1 s) + m 2%nat s * (Z s - T2 s))).
  - assert (L : locally t (fun s => epsilon < A s * A s + B s * B s + C s * C s)).
    { apply (locally_gt (fun s => A s * A s + B s * B s + C s * C s) t (2 * A t * da + 2 * B t * db + 2 * C t * dc)); [derives; ring|exact He]. }
    eapply filter_imp; [|exact L]. cbn beta. intros s Hs.
    rewrite Pose_Forward_matrix by (try exact Hs; lia). unfold m. rewrite Nat.add_0_r. reflexivity.
  - destruct (Hrep 0%nat ltac:(lia)) as [V0 R0]. destruct (Hrep 1%nat ltac:(lia)) as [V1 R1]. destruct (Hrep 2%nat ltac:(lia)) as [V2 R2].
    by_value; [apply (derive_row (m 0%nat) (m 1%nat) (m 2%nat) X Y Z T0 T1 T2); eassumption|].
    rewrite V0, V1, V2. unfold moves_by. reflexivity.
Qed.
(** The entries of the jacobian *)
Lemma Pose_jacobian_true_eq point rt : epsilon <= theta2_of rt ->
  Pose_jacobian true point rt = concat (map (fun i =>
    let D := fun j => dnth (pose_duals rt) (i * 3 + j) in let xyz := fun j => point.[j] - rt.[3 + j] in
    map (fun j => dv (D j)) (seq 0 3) ++
    [d0 (D 0%nat) * xyz 0%nat + d0 (D 1%nat) * xyz 1%nat + d0 (D 2%nat) * xyz 2%nat;
     d1 (D 0%nat) * xyz 0%nat + d1 (D 1%nat) * xyz 1%nat + d1 (D 2%nat) * xyz 2%nat;
     d2 (D 0%nat) * xyz 0%nat + d2 (D 1%nat) * xyz 1%nat + d2 (D 2%nat) * xyz 2%nat] ++
    map (fun j => - dv (D j)) (seq 0 3)) (seq 0 3)).
Proof.
  intros He. unfold Pose_jacobian. rewrite AngleAxis_regular.
  2:{ cbn [s_add s_mul s_value dual_scalar dv]. unfold theta2_of in He. lra. }
  fold (pose_duals rt). assert (HL : length (pose_duals rt) = 9%nat) by reflexivity.
  generalize dependent (pose_duals rt). intros l HL.
  do 9 (let e := fresh "E" in destruct l as [|e l]; [discriminate HL|]). destruct l; [|discriminate HL]. clear HL He.
  cbv -[Rplus Rmult Ropp Rminus R0 R1 IZR dv d0 d1 d2]. 
  repeat match goal with |- _ :: _ = _ :: _ => apply f_equal2 end; try reflexivity; ring.
Qed.
Lemma good_Pose_true x rt : epsilon < theta2_of rt -> good PoseFunctor true x rt.
Proof.
  intros He. split; [reflexivity| |].
  - cbn [PoseFunctor ForwardDerivatives snd]. rewrite Pose_jacobian_true_eq by lra. reflexivity.
  - intros xs ps t dxs dps Hl Hlp Hx Hp Hm Hmp _ j Hj. cbn [PoseFunctor InSize ParamSize OutSize] in Hl, Hlp, Hj. components.
    cbn [PoseFunctor ForwardDerivatives Forward snd]. rewrite Pose_jacobian_true_eq by lra.
    subst. unfold theta2_of in He. cbn [at_time map nth] in He.
    by_value; [apply (pose_derive r r0 r1 r2 r3 r4 r5 r6 r7 ps); eassumption|].
    cbn zeta. change (Stride PoseFunctor true) with 9%nat.
    change (pose_duals (at_time (r2 :: r3 :: r4 :: r5 :: r6 :: r7 :: ps) t)) with (pose_duals [r2 t; r3 t; r4 t]).
    generalize (pose_duals [r2 t; r3 t; r4 t]). intros l. unfold moves_by.
    destruct j as [|[|[|j]]]; [| | |lia]; cbv [sum_n foldr map seq nth app Nat.add Nat.mul concat at_time]; ring.
Qed.
Lemma good_Pose_false x rt : epsilon < theta2_of rt -> good PoseFunctor false x rt.
Proof.
  intros He. 
  assert (HJ : (ForwardDerivatives PoseFunctor false x rt).2 = map dv (pose_duals rt)).
  { cbn [PoseFunctor ForwardDerivatives snd]. unfold Pose_jacobian. rewrite AngleAxis_regular; [reflexivity|].
    cbn [s_add s_mul s_value real_scalar]. unfold theta2_of in He. lra. }
  split; [reflexivity|rewrite HJ; reflexivity|].
  intros xs ps t dxs dps Hl Hlp Hx Hp Hm Hmp Hd j Hj. cbn [PoseFunctor InSize ParamSize OutSize] in Hl, Hlp, Hj. components.
  specialize (Hd eq_refl). repeat (apply zeros_cons in Hd as [<- Hd]).
  rewrite HJ. subst. unfold theta2_of in He. cbn [at_time map nth] in He.
  by_value; [apply (pose_derive r r0 r1 r2 r3 r4 r5 r6 r7 ps); eassumption|].
  cbn zeta. change (Stride PoseFunctor false) with 3%nat.
  change (pose_duals (at_time (r2 :: r3 :: r4 :: r5 :: r6 :: r7 :: ps) t)) with (pose_duals [r2 t; r3 t; r4 t]).
  assert (HL : length (pose_duals [r2 t; r3 t; r4 t]) = 9%nat) by reflexivity. revert HL.
  generalize (pose_duals [r2 t; r3 t; r4 t]). intros l HL. unfold moves_by, dnth.
  do 9 (let e := fresh "E" in destruct l as [|e l]; [discriminate HL|]). clear HL.
  destruct j as [|[|[|j]]]; [| | |lia]; cbv [sum_n foldr map seq nth app Nat.add Nat.mul]; ring.
Qed.
Lemma good_Pose d x rt : epsilon < theta2_of rt -> good PoseFunctor d x rt.
Proof. destruct d; [apply good_Pose_true|apply good_Pose_false]. Qed.
