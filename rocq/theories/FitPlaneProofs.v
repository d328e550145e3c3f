(** Proofs about the fit of similarities of the plane *)
From stdpp Require Import prelude.
From Coq Require Import Reals Lra Psatz.
From Verif Require Import Base Lin FitModel FitSpec FitProofs.
Local Open Scope R_scope.

Lemma unit_angle c s : c * c + s * s = 1 -> exists t, cos t = c /\ sin t = s.
Proof.
  intros H. assert (-1 <= c <= 1) as Hc by nra. destruct (Rle_dec 0 s) as [Hs|Hs].
  - exists (acos c). split; [by apply cos_acos|]. rewrite sin_acos by done. replace (1 - Rsqr c) with (Rsqr s) by (unfold Rsqr; lra). by apply sqrt_Rsqr.
  - exists (- acos c). rewrite cos_neg, sin_neg. split; [by apply cos_acos|]. rewrite sin_acos by done.
    replace (1 - Rsqr c) with (Rsqr (- s)) by (unfold Rsqr; lra). rewrite sqrt_Rsqr by lra. ring.
Qed.
Definition turn2 (t : R) : mat2 := Mat2 (cos t) (- sin t) (sin t) (cos t).
Definition frob2 (a b : mat2) : R := a11 a * a11 b + a12 a * a12 b + a21 a * a21 b + a22 a * a22 b.
Lemma cs1 t : cos t * cos t + sin t * sin t = 1.
Proof. pose proof (sin2_cos2 t) as H. unfold Rsqr in H. lra. Qed.

Lemma orth2_det a b c d : a * a + b * b = 1 -> c * c + d * d = 1 -> a * c + b * d = 0 ->
  (a * d - b * c) * (a * d - b * c) = 1 /\ c = - b * (a * d - b * c) /\ d = a * (a * d - b * c).
Proof.
  intros H1 H2 H3. assert ((a * d - b * c) * (a * d - b * c) = (a * a + b * b) * (c * c + d * d) - (a * c + b * d) * (a * c + b * d)) as E by ring.
  rewrite H1, H2, H3 in E. split; [lra|]. split; [|].
  - replace (- b * (a * d - b * c)) with (c * (a * a + b * b) - a * (a * c + b * d)) by ring. rewrite H1, H3. ring.
  - replace (a * (a * d - b * c)) with (d * (a * a + b * b) - b * (a * c + b * d)) by ring. rewrite H1, H3. ring.
Qed.
Lemma turn_best k t m : 0 <= k -> (forall t', frob2 (turn2 t') m = k * cos (t' - t)) -> forall t', frob2 (turn2 t') m <= frob2 (turn2 t) m.
Proof.
  intros Hk H t'. rewrite !H. replace (t - t) with 0 by ring. rewrite cos_0. pose proof (COS_bound (t' - t)). nra.
Qed.
(** An orthogonal matrix is a rotation, or a rotation after a reflection *)
Lemma kabsch2_turn (svd : svd2_of) m : is_svd2_of ((a11 m, a12 m), (a21 m, a22 m)) (svd ((a11 m, a12 m), (a21 m, a22 m))) -> exists t, kabsch2 svd m = turn2 t /\ forall t', frob2 (turn2 t') m <= frob2 (turn2 t) m.
Proof.
  intros Hs. unfold kabsch2.
  destruct (svd (a11 m, a12 m, (a21 m, a22 m))) as [[[[u11 u12] [u21 u22]] [s1 s2]] [[w11 w12] [w21 w22]]].
  destruct Hs as ((U1 & U2 & U3) & (V1 & V2 & V3) & (M1 & M2 & M3 & M4) & S1 & S2). destruct m as [m1 m2 m3 m4]. cbn [a11 a12 a21 a22] in *.
  destruct (orth2_det _ _ _ _ U1 U2 U3) as (Du & Eu1 & Eu2). destruct (orth2_det _ _ _ _ V1 V2 V3) as (Dv & Ev1 & Ev2).
  set (du := u11 * u22 - u12 * u21) in *. set (dv := w11 * w22 - w12 * w21) in *.
  unfold rows2, mmul2, det2. cbn [a11 a12 a21 a22 fst snd].
  assert (exists tu, cos tu = u11 /\ sin tu = - u12) as (tu & Cu & Su) by (apply unit_angle; lra).
  assert (exists tv, cos tv = w11 /\ sin tv = - w12) as (tv & Cv & Sv) by (apply unit_angle; lra).
  assert (u12 = - sin tu) as Eu by lra. assert (w12 = - sin tv) as Ev by lra.
  assert ((u11 * w11 + u12 * w21) * (u21 * w12 + u22 * w22) - (u11 * w12 + u12 * w22) * (u21 * w11 + u22 * w21) = du * dv) as Ed by (unfold du, dv; ring).
  rewrite Ed. clear Ed. clearbody du dv. clear U1 U2 U3 V1 V2 V3 Su Sv. symmetry in Cu, Cv. subst u11 w11 u12 w12 u21 u22 w21 w22 m1 m2 m3 m4.
  assert (forall t, -1 <= cos t <= 1) as CB by apply COS_bound.
  assert (du = 1 \/ du = -1) as [-> | ->]. { assert ((du - 1) * (du + 1) = 0) as E by lra. apply Rmult_integral in E as [E|E]; [left|right]; lra. }
  all: assert (dv = 1 \/ dv = -1) as [-> | ->]; [assert ((dv - 1) * (dv + 1) = 0) as E by lra; apply Rmult_integral in E as [E|E]; [left|right]; lra| |].
  - destruct (Rlt_dec (1 * 1) 0) as [D|D]; [lra|]. exists (tu + tv). split.
    + unfold turn2. rewrite cos_plus, sin_plus. f_equal; ring.
    + apply (turn_best (s1 + s2)); [lra|]. intros t. unfold frob2, turn2; cbn [a11 a12 a21 a22]. rewrite cos_minus, cos_plus, sin_plus. ring.
  - destruct (Rlt_dec (1 * -1) 0) as [D|D]; [|lra]. exists (tu + tv). split.
    + unfold turn2, madd2, mscale2, outer2, vscale2. cbn [a11 a12 a21 a22 fst snd]. rewrite cos_plus, sin_plus. f_equal; ring.
    + apply (turn_best (s1 - s2)); [lra|]. intros t. unfold frob2, turn2; cbn [a11 a12 a21 a22]. rewrite cos_minus, cos_plus, sin_plus. ring.
  - destruct (Rlt_dec (-1 * 1) 0) as [D|D]; [|lra]. exists (tv - tu). split.
    + unfold turn2, madd2, mscale2, outer2, vscale2. cbn [a11 a12 a21 a22 fst snd]. rewrite cos_minus, sin_minus. f_equal; ring.
    + apply (turn_best (s1 - s2)); [lra|]. intros t. unfold frob2, turn2; cbn [a11 a12 a21 a22]. rewrite cos_minus, cos_minus, sin_minus. ring.
  - destruct (Rlt_dec (-1 * -1) 0) as [D|D]; [lra|]. exists (tv - tu). split.
    + unfold turn2. rewrite cos_minus, sin_minus. f_equal; ring.
    + apply (turn_best (s1 + s2)); [lra|]. intros t. unfold frob2, turn2; cbn [a11 a12 a21 a22]. rewrite cos_minus, cos_minus, sin_minus. ring.
Qed.

(** ** Sums in the plane *)
Ltac p2 := repeat match goal with p : (R * R)%type |- _ => destruct p end; unfold vadd2, vsub2, vscale2, dot2, mvec2, mscale2, turn2, frob2, madd2, outer2; cbn [fst snd a11 a12 a21 a22].
Definition affine2 (m : mat2) (b x : vec2) : vec2 := vadd2 (mvec2 m x) b.
Lemma moved2_affine s t b x : moved2 s t b x = affine2 (mscale2 s (turn2 t)) b x.
Proof. unfold moved2, affine2. p2. f_equal; ring. Qed.
Definition err2 (d : vec2) : R := dot2 d d.
Lemma err2_sum (f : vec2 -> vec2) l : squared_error2 f l = sumR ((fun p => err2 (vsub2 p.2 (f p.1))) <$> l).
Proof. unfold sumR. induction l as [|[x y] l IH]; [done|]. cbn [squared_error2 fmap list_fmap foldr fst snd]. rewrite IH. unfold err2, dot2, vsub2. cbn [fst snd]. ring. Qed.
Ltac gen_sums := repeat match goal with |- context [foldr Rplus 0 ?a] => generalize (foldr Rplus 0 a) | |- context [foldr vadd2 (0, 0) ?a] => generalize (foldr vadd2 (0, 0) a) end.
Lemma error2_linear s t l : squared_error2 (fun x => mvec2 (mscale2 s (turn2 t)) x) l =
  spread2 (snd <$> l) - 2 * s * frob2 (turn2 t) (covariance2 (snd <$> l) (fst <$> l)) + s * s * spread2 (fst <$> l).
Proof.
  induction l as [|[x y] l IH].
  - unfold spread2, covariance2, sumR, frob2. cbn. ring.
  - cbn [squared_error2]. rewrite IH. unfold spread2, covariance2, sumR. cbn [fmap list_fmap foldr zip_with fst snd].
    gen_sums. generalize (foldr madd2 (Mat2 0 0 0 0) (zip_with outer2 (snd <$> l) (fst <$> l))). intros [c1 c2 c3 c4] f e. destruct x as [x1 x2], y as [y1 y2]. p2. pose proof (cs1 t) as H.
    assert (s * s * (x1 * x1 + x2 * x2) = s * s * ((cos t * cos t + sin t * sin t) * (x1 * x1 + x2 * x2))) as E by (rewrite H; ring).
    transitivity (y1 * y1 + y2 * y2 + e - 2 * s * (cos t * (y1 * x1 + c1) + - sin t * (y1 * x2 + c2) + sin t * (y2 * x1 + c3) + cos t * (y2 * x2 + c4)) + (s * s * ((cos t * cos t + sin t * sin t) * (x1 * x1 + x2 * x2)) + s * s * f)); [ring|rewrite <- E; ring].
Qed.
Lemma vsum2_shift c l : vsum2 ((fun p => vsub2 p c) <$> l) = vsub2 (vsum2 l) (vscale2 (INR (length l)) c).
Proof.
  unfold vsum2. induction l as [|x l IH]; [cbn; p2; f_equal; ring|]. cbn [fmap list_fmap length foldr]. rewrite S_INR, IH.
  generalize (foldr vadd2 (0, 0) l) (INR (length l)). intros. p2. f_equal; ring.
Qed.
Lemma inr_ne {A} (l : list A) : l <> [] -> INR (length l) <> 0.
Proof. intros H. apply not_0_INR. destruct l; cbn; [done|lia]. Qed.
Lemma vsum2_centred l : l <> [] -> vsum2 (centred2 l) = (0, 0).
Proof.
  intros Hl. unfold centred2. rewrite vsum2_shift. unfold vmean2. pose proof (inr_ne l Hl). destruct (vsum2 l) as [a b]. p2. f_equal; field; done.
Qed.
Lemma error2_shift m b c0 c1 l : squared_error2 (affine2 m b) l =
  squared_error2 (mvec2 m) ((fun p => (vsub2 p.1 c0, vsub2 p.2 c1)) <$> l)
  + 2 * dot2 (vsub2 (vsub2 c1 (mvec2 m c0)) b) (vsub2 (vsum2 ((fun p => vsub2 p c1) <$> (snd <$> l))) (mvec2 m (vsum2 ((fun p => vsub2 p c0) <$> (fst <$> l)))))
  + INR (length l) * dot2 (vsub2 (vsub2 c1 (mvec2 m c0)) b) (vsub2 (vsub2 c1 (mvec2 m c0)) b).
Proof.
  unfold vsum2. induction l as [|[x y] l IH].
  - cbn [squared_error2 fmap list_fmap foldr length INR]. p2. ring.
  - cbn [squared_error2]. rewrite IH. cbn [fmap list_fmap foldr fst snd squared_error2 length]. rewrite S_INR.
    gen_sums.
    generalize (squared_error2 (mvec2 m) ((fun p : vec2 * vec2 => (vsub2 p.1 c0, vsub2 p.2 c1)) <$> l)) (INR (length l)). intros e n sx sy. revert sx sy. intros sx sy.
    unfold affine2. p2. ring.
Qed.
Lemma error2_centred m b l : l <> [] -> squared_error2 (affine2 m b) l =
  squared_error2 (mvec2 m) (zip (centred2 (fst <$> l)) (centred2 (snd <$> l)))
  + INR (length l) * dot2 (vsub2 (vsub2 (vmean2 (snd <$> l)) (mvec2 m (vmean2 (fst <$> l)))) b) (vsub2 (vsub2 (vmean2 (snd <$> l)) (mvec2 m (vmean2 (fst <$> l)))) b).
Proof.
  intros Hl. rewrite (error2_shift m b (vmean2 (fst <$> l)) (vmean2 (snd <$> l))).
  pose proof (vsum2_centred (fst <$> l)) as E1. pose proof (vsum2_centred (snd <$> l)) as E2. unfold centred2 in E1, E2.
  rewrite E1, E2 by (by intros ?%fmap_nil_inv).
  assert ((fun p : vec2 * vec2 => (vsub2 p.1 (vmean2 (fst <$> l)), vsub2 p.2 (vmean2 (snd <$> l)))) <$> l = zip (centred2 (fst <$> l)) (centred2 (snd <$> l))) as ->.
  { unfold centred2. generalize (vmean2 (fst <$> l)) (vmean2 (snd <$> l)). intros c0 c1. clear. induction l as [|[x y] l IH]; [done|]. cbn [fmap list_fmap fst snd zip_with]. f_equal. exact IH. }
  generalize (vsub2 (vsub2 (vmean2 (snd <$> l)) (mvec2 m (vmean2 (fst <$> l)))) b). intros e. p2. ring.
Qed.
Lemma error2_ext f g l : (forall x, f x = g x) -> squared_error2 f l = squared_error2 g l.
Proof. intros H. induction l as [|[x y] l IH]; [done|]. cbn [squared_error2]. by rewrite H, IH. Qed.
Lemma error2_similarity s t b X Y : length X = length Y -> X <> [] -> squared_error2 (moved2 s t b) (zip X Y) =
  spread2 (centred2 Y) - 2 * s * frob2 (turn2 t) (covariance2 (centred2 Y) (centred2 X)) + s * s * spread2 (centred2 X)
  + INR (length X) * dot2 (vsub2 (vsub2 (vmean2 Y) (mvec2 (mscale2 s (turn2 t)) (vmean2 X))) b) (vsub2 (vsub2 (vmean2 Y) (mvec2 (mscale2 s (turn2 t)) (vmean2 X))) b).
Proof.
  intros Hl Hn. rewrite (error2_ext _ _ _ (moved2_affine s t b)).
  rewrite error2_centred; [|destruct X, Y; done]. rewrite zip_fst, zip_snd, zip_with_length, <- Hl, Nat.min_id by done.
  rewrite error2_linear. rewrite zip_fst, zip_snd by (unfold centred2; rewrite !fmap_length; done). done.
Qed.
Lemma dot2_nonneg x : 0 <= dot2 x x. Proof. unfold dot2. nra. Qed.
Lemma dot2_zero x : dot2 x x = 0 -> x = (0, 0). Proof. destruct x as [a b]. unfold dot2. cbn. intros H. f_equal; nra. Qed.
Lemma spread2_nonneg l : 0 <= spread2 l.
Proof. unfold spread2, sumR. induction l as [|x l IH]; cbn; [lra|]. pose proof (dot2_nonneg x). lra. Qed.
Lemma spread2_zero l : spread2 l = 0 -> forall x, x ∈ l -> x = (0, 0).
Proof.
  induction l as [|y l IH]; [set_solver|]. unfold spread2, sumR in *. cbn [fmap list_fmap foldr]. intros H x Hx.
  pose proof (dot2_nonneg y). pose proof (spread2_nonneg l) as H2. unfold spread2, sumR in H2.
  apply elem_of_cons in Hx as [->|Hx]; [apply dot2_zero; lra|]. apply IH; [lra|done].
Qed.
Lemma error2_nonneg f l : 0 <= squared_error2 f l.
Proof. induction l as [|[x y] l IH]; cbn [squared_error2]; [lra|]. pose proof (Rle_0_sqr (y.1 - (f x).1)). pose proof (Rle_0_sqr (y.2 - (f x).2)). unfold Rsqr in *. lra. Qed.
Lemma two_squares u v e : u * u + v * v + e = 0 -> 0 <= e -> u = 0 /\ v = 0.
Proof. intros H He. split; nra. Qed.
Lemma error2_zero f l : squared_error2 f l = 0 -> forall x y, (x, y) ∈ l -> f x = y.
Proof.
  induction l as [|[x y] l IH]; [set_solver|]. cbn [squared_error2]. pose proof (error2_nonneg f l).
  intros H1 x' y' [[= -> ->]|Hx]%elem_of_cons; [|apply IH; [pose proof (Rle_0_sqr (y.1 - (f x).1)); pose proof (Rle_0_sqr (y.2 - (f x).2)); unfold Rsqr in *; lra|done]]. revert H1. generalize dependent (squared_error2 f l). intros e _ He. destruct (f x) as [a b], y as [c d]. cbn [fst snd]. intros H1. apply two_squares in H1 as [H1 H2]; [|done]. f_equal; lra.
Qed.
Lemma error2_exact f l : (forall x y, (x, y) ∈ l -> f x = y) -> squared_error2 f l = 0.
Proof.
  induction l as [|[x y] l IH]; [done|]. intros H. cbn [squared_error2]. rewrite IH by (intros; apply H; set_solver). rewrite (H x y) by set_solver. ring.
Qed.
Lemma vmean2_moved s t b l : l <> [] -> vmean2 (moved2 s t b <$> l) = moved2 s t b (vmean2 l).
Proof.
  intros Hl. unfold vmean2. rewrite fmap_length. pose proof (inr_ne l Hl) as H.
  assert (vsum2 (moved2 s t b <$> l) = vadd2 (mvec2 (mscale2 s (turn2 t)) (vsum2 l)) (vscale2 (INR (length l)) b)) as ->.
  { clear. unfold vsum2. induction l as [|x l IH]; [cbn; p2; f_equal; ring|]. cbn [fmap list_fmap length foldr]. rewrite S_INR, IH.
    rewrite moved2_affine. unfold affine2. generalize (foldr vadd2 (0, 0) l) (INR (length l)). intros. p2. f_equal; ring. }
  rewrite moved2_affine. unfold affine2. destruct (vsum2 l) as [a c]. p2. f_equal; field; done.
Qed.
Lemma spread2_moved s t b l : l <> [] -> spread2 (centred2 (moved2 s t b <$> l)) = s * s * spread2 (centred2 l).
Proof.
  intros Hl. unfold centred2. rewrite vmean2_moved by done. generalize (vmean2 l). intros c. unfold spread2, sumR. clear. induction l as [|x l IH]; [cbn; ring|].
  cbn [fmap list_fmap foldr]. rewrite IH. rewrite !moved2_affine. unfold affine2. pose proof (cs1 t) as H.
  gen_sums. intros e. destruct x as [x1 x2], c as [c1 c2], b as [b1 b2]. p2.
  set (u := x1 - c1). set (v := x2 - c2). 
  transitivity (s * s * ((cos t * cos t + sin t * sin t) * (u * u + v * v)) + s * s * e); [unfold u, v; ring|rewrite H; ring].
Qed.
Lemma centred2_zero l : spread2 (centred2 l) = 0 -> all_equal l.
Proof.
  intros H x y Hx Hy. pose proof (spread2_zero _ H) as Z. assert (forall z, z ∈ l -> z = vmean2 l) as E; [|by rewrite (E x), (E y)].
  intros z Hz. assert (vsub2 z (vmean2 l) = (0, 0)) as E. { apply Z. unfold centred2. apply elem_of_list_fmap. eauto. }
  destruct z as [a b]. destruct (vmean2 l) as [c d]. unfold vsub2 in E. cbn in E. injection E as E1 E2. f_equal; lra.
Qed.
Lemma all_equal_centred2 l : all_equal l -> spread2 (centred2 l) = 0.
Proof.
  intros H. destruct l as [|x l]; [unfold spread2, sumR, centred2; cbn; ring|].
  assert (forall k, (forall y, y ∈ k -> y = x) -> vsum2 k = vscale2 (INR (length k)) x) as V.
  { unfold vsum2. induction k as [|y k IH]; intros Hk; [cbn; p2; f_equal; ring|]. cbn [length foldr]. rewrite S_INR. rewrite IH by set_solver.
    rewrite (Hk y) by set_solver. generalize (INR (length k)). intros. p2. f_equal; ring. }
  assert (vmean2 (x :: l) = x) as M.
  { unfold vmean2. rewrite V by (intros y Hy; by apply H; [|left]). assert (INR (length (x :: l)) <> 0) as N by (apply not_0_INR; cbn; lia).
    generalize dependent (INR (length (x :: l))). intros n N. destruct x as [a b]. p2. f_equal; field; done. }
  unfold spread2, centred2. rewrite M. assert (forall k, (forall y, y ∈ k -> y = x) -> sumR ((fun p => dot2 p p) <$> ((fun p => vsub2 p x) <$> k)) = 0) as S.
  { unfold sumR. induction k as [|y k IH]; intros Hk; [done|]. cbn [fmap list_fmap foldr]. rewrite IH by set_solver. rewrite (Hk y) by set_solver. p2. ring. }
  apply S. intros y Hy. by apply H; [|left].
Qed.
(** The result of the fit in the plane *)
Definition svd2_right (svd : svd2_of) (X Y : list vec2) : Prop :=
  let m := covariance2 (centred2 Y) (centred2 X) in is_svd2_of ((a11 m, a12 m), (a21 m, a22 m)) (svd ((a11 m, a12 m), (a21 m, a22 m))).
Lemma fit2_spec svd scale X Y m b : svd2_right svd X Y -> affine_matrix_from_points_2d svd scale X Y = Ok (Some (m, b)) ->
  exists s t, m = mscale2 s (turn2 t) /\ 0 <= s /\ b = vsub2 (vmean2 Y) (mvec2 m (vmean2 X)) /\
    (forall t', frob2 (turn2 t') (covariance2 (centred2 Y) (centred2 X)) <= frob2 (turn2 t) (covariance2 (centred2 Y) (centred2 X))) /\
    length X = length Y /\ (2 <= length X)%nat /\ (if scale then s * s * spread2 (centred2 X) = spread2 (centred2 Y) /\ spread2 (centred2 X) <> 0 else s = 1).
Proof.
  intros Hs. unfold affine_matrix_from_points_2d. destruct ((length X <? 2)%nat || negb (length X =? length Y)%nat) eqn:E; [done|].
  apply orb_false_iff in E as [E1 E2]. apply Nat.ltb_ge in E1. apply negb_false_iff, Nat.eqb_eq in E2.
  destruct (kabsch2_turn svd (covariance2 (centred2 Y) (centred2 X)) Hs) as (t & -> & Hb).
  destruct scale; cbn [andb].
  - destruct (Req_EM_T (spread2 (centred2 X)) 0) as [Z|Z]; [done|]. intros [= <- <-]. pose proof (spread2_nonneg (centred2 X)). pose proof (spread2_nonneg (centred2 Y)).
    exists (sqrt (spread2 (centred2 Y) / spread2 (centred2 X))), t. repeat split; try done; [apply sqrt_pos| |].
    + generalize (sqrt (spread2 (centred2 Y) / spread2 (centred2 X))) (vmean2 X) (vmean2 Y). intros. p2. f_equal; ring.
    + rewrite sqrt_sqrt; [field; done|]. apply Rle_mult_inv_pos; [done|]. lra.
  - intros [= <- <-]. exists 1, t. repeat split; try done; [|lra|].
    + unfold mscale2, turn2. cbn. f_equal; ring.
    + generalize (vmean2 X) (vmean2 Y). intros. p2. f_equal; ring.
Qed.
Lemma fit2_best X Y s t t' b' : 0 <= s -> length X = length Y -> X <> [] ->
  (forall t', frob2 (turn2 t') (covariance2 (centred2 Y) (centred2 X)) <= frob2 (turn2 t) (covariance2 (centred2 Y) (centred2 X))) ->
  squared_error2 (moved2 s t (vsub2 (vmean2 Y) (mvec2 (mscale2 s (turn2 t)) (vmean2 X)))) (zip X Y) <= squared_error2 (moved2 s t' b') (zip X Y).
Proof.
  intros Hp Hl Hn Hb. rewrite error2_similarity by done. rewrite (error2_similarity s t' b' X Y) by done. specialize (Hb t').
  match goal with |- _ + _ * ?d <= _ => replace d with 0 by (generalize (vmean2 Y) (mvec2 (mscale2 s (turn2 t)) (vmean2 X)); intros; p2; ring) end.
  match goal with |- _ <= _ + _ * ?d => assert (0 <= d) by apply dot2_nonneg end. pose proof (pos_INR (length X)).
  assert (2 * s * frob2 (turn2 t') (covariance2 (centred2 Y) (centred2 X)) <= 2 * s * frob2 (turn2 t) (covariance2 (centred2 Y) (centred2 X))) by (apply Rmult_le_compat_l; lra). nra.
Qed.
