(** C89: rotations and poses from many points *)
From stdpp Require Import prelude.
From Coq Require Import Reals Lra Psatz.
From Verif Require Import Lin TriangModel FitModel FitSpec FitProofs P3pModel P3pSpec P3pProofs NposeModel NposeSpec NposeProofs SvdProofs.
From Verif Require TriangProofs.
Local Open Scope R_scope.

(** ** The translation, for a given rotation *)
(** There is one exactly if no bearing is 0 and two bearings are not parallel *)
Theorem C89_translation_exists l r : (exists t, TranslationBetweenPoints l r = Some t) <-> (forall s, s ∈ l -> s.1 <> v0) /\ exists s s', s ∈ l /\ s' ∈ l /\ ~ parallel s.1 s'.1.
Proof.
  assert ((forall s, s ∈ l -> s.1 <> v0) <-> nonzero l) as EN. { split; intros H s Hs E; apply (H s Hs); [apply dot_0, E|rewrite E; unfold dot, v0; cbn; ring]. }
  rewrite EN. split.
  - intros [t (N & Nl & D & _)%translation_some]. split; [exact N|]. destruct l as [|s l]; [contradiction|].
    assert ({Exists (fun s' : vec * vec => cross s.1 s'.1 <> v0) (s :: l)} + {~ Exists (fun s' : vec * vec => cross s.1 s'.1 <> v0) (s :: l)}) as [E|E].
    { apply Exists_dec. intros x. destruct (vec_dec (cross s.1 x.1)); [right; tauto|now left]. }
    + apply Exists_exists in E as (s' & I & H). exists s, s'. repeat split; [left|exact I|exact H].
    + exfalso. apply D, (gram_singular _ s N ltac:(left)). intros s' I. destruct (vec_dec (cross s.1 s'.1)) as [Z|Z]; [exact Z|]. exfalso. apply E, Exists_exists. eauto.
  - intros (N & s & s' & I & I' & H). apply translation_exists; [exact N|intros ->; inversion I|]. apply gram_invertible; [exact N|]. exists s, s'. auto.
Qed.
(** No other translation leaves the points closer to their lines of sight *)
Theorem C89_translation_best l r t t' : TranslationBetweenPoints l r = Some t -> sight_error r t l <= sight_error r t' l.
Proof. apply translation_best. Qed.
(** With exact data it is the translation *)
Theorem C89_translation_exact l r t t' : TranslationBetweenPoints l r = Some t' -> (forall b p, (b, p) ∈ l -> on_line r t b p) -> t' = t.
Proof. intros H HL. apply (translation_exact l r); [exact H|]. intros [b p] I. now apply HL. Qed.
Lemma unit_bearings l : (forall s, s ∈ l -> s.1 <> v0) -> nonzero ((fun s => (normalized s.1, s.2)) <$> l).
Proof. intros H s Hs. apply elem_of_list_fmap in Hs as (x & -> & I). cbn [fst]. destruct (normalized_unit x.1 (H x I)) as [-> _]. lra. Qed.
(** absolute_pose_n_points_known_rotation: bearings of any length, two of them not parallel *)
Theorem C89_known_rotation_exact l t : (forall b p, (b, p) ∈ l -> b <> v0 /\ on_line mI t b p) -> (exists s s', s ∈ l /\ s' ∈ l /\ ~ parallel s.1 s'.1) -> absolute_pose_n_points_known_rotation l = Some t.
Proof.
  intros HL (s & s' & I & I' & Np). unfold absolute_pose_n_points_known_rotation, AbsolutePoseNPointsKnownRotation. set (l' := _ <$> l).
  assert (forall x, x ∈ l -> x.1 <> v0) as Nz by (intros [b p] Hx; now apply (HL b p)).
  destruct (proj2 (C89_translation_exists l' mI)) as [t' E].
  - split.
    + intros x Hx E. apply (unit_bearings l Nz x Hx). rewrite E. unfold dot, v0. cbn. ring.
    + exists (normalized s.1, s.2), (normalized s'.1, s'.2). repeat split; [apply elem_of_list_fmap; eauto|apply elem_of_list_fmap; eauto|]. cbn [fst]. unfold parallel in *. intros C. apply Np.
      destruct (normalized_unit s.1 (Nz s I)) as (_ & k & _ & E & _). destruct (normalized_unit s'.1 (Nz s' I')) as (_ & k' & _ & E' & _). rewrite E, E'.
      transitivity (vscale (k * k') (cross (normalized s.1) (normalized s'.1))); [generalize (normalized s.1), (normalized s'.1); intros [] []; vcbv; f_equal; ring|]. rewrite C. vcbv. f_equal; ring.
  - rewrite E. f_equal. apply (C89_translation_exact l' mI t t' E). intros b p Hx. apply elem_of_list_fmap in Hx as ([b0 p0] & Ex & Ix). cbn [fst snd] in Ex. injection Ex as -> ->. destruct (HL b0 p0 Ix) as [Nb [d Ed]]. destruct (normalized_unit b0 Nb) as (_ & k & _ & Ek & _). exists (d * k). rewrite Ed, Ek at 1. now rewrite vscale_vscale.
Qed.
(** ** The rotation *)
Theorem C89_rotation svd l : (forall m, is_svd_of m (svd m)) -> rotation (RotationBetweenPoints svd l).
Proof. intros H. apply closest_rotation. apply H. Qed.
(** Points moved by a similarity, not all in a plane: the rotation of the similarity *)
Theorem C89_rotation_exact svd s a b X : (forall m, is_svd_of m (svd m)) -> 0 < s -> rotation a -> ~ in_a_plane X -> RotationBetweenPoints svd ((fun x => (moved s a b x, x)) <$> X) = a.
Proof. apply rotation_exact. Qed.
(** relative_rotation_n_points: b1 = R^T b2 *)
Theorem C89_relative_rotation_exact svd r X : (forall m, is_svd_of m (svd m)) -> rotation r -> ~ in_a_plane X -> RelativeRotationNPoints svd ((fun x => (mvec (mT r) x, x)) <$> X) = r.
Proof.
  intros H Hr Np. unfold RelativeRotationNPoints. transitivity (mT (mT r)); [|apply mT_T]. f_equal. etransitivity; [|exact (rotation_exact svd 1 (mT r) v0 X H ltac:(lra) (rotation_T r Hr) Np)]. f_equal. apply list_fmap_ext. intros _ x _. f_equal. now rewrite moved_1, vadd_0_r.
Qed.
(** Where the covariance has a positive determinant, no other rotation and translation bring the second points closer to the first ones *)
Theorem C89_rotation_best svd l r' b' : (forall m, is_svd_of m (svd m)) -> l <> [] -> 0 < det (covariance (centred (fst <$> l)) (centred (snd <$> l))) -> rotation r' ->
  let r := RotationBetweenPoints svd l in
  squared_error (moved 1 r (vsub (vmean (fst <$> l)) (mvec r (vmean (snd <$> l))))) (zip (snd <$> l) (fst <$> l)) <= squared_error (moved 1 r' b') (zip (snd <$> l) (fst <$> l)).
Proof. apply rotation_best. Qed.
(** But where the points are in a plane, `rotation *= -1` is not the repair it should be: with some decompositions points that did not move at all give half a turn *)
Lemma bind_some {A B} (f : A -> option B) x : Some x ≫= f = f x. Proof. reflexivity. Qed.
Definition flat : list vec := [Vec 1 0 0; Vec 0 1 0; Vec (-1) 0 0; Vec 0 (-1) 0].
Definition mat_dec (a b : mat) : {a = b} + {a <> b}.
Proof. destruct a as [a1 a2 a3 a4 a5 a6 a7 a8 a9], b as [b1 b2 b3 b4 b5 b6 b7 b8 b9]. destruct (Req_EM_T a1 b1) as [->|]; [|right; congruence]. destruct (Req_EM_T a2 b2) as [->|]; [|right; congruence]. destruct (Req_EM_T a3 b3) as [->|]; [|right; congruence]. destruct (Req_EM_T a4 b4) as [->|]; [|right; congruence]. destruct (Req_EM_T a5 b5) as [->|]; [|right; congruence]. destruct (Req_EM_T a6 b6) as [->|]; [|right; congruence]. destruct (Req_EM_T a7 b7) as [->|]; [|right; congruence]. destruct (Req_EM_T a8 b8) as [->|]; [|right; congruence]. destruct (Req_EM_T a9 b9) as [->|]; [|right; congruence]. now left. Defined.
Definition other_svd : svd_of := fun m => if mat_dec m (Mat 2 0 0 0 2 0 0 0 0) then (Mat 1 0 0 0 1 0 0 0 (-1), (2, 2, 0), mI) else real_svd m.
Theorem C89_plane_refuted : exists svd X, (forall m, is_svd_of m (svd m)) /\ ~ on_a_line X /\ (3 <= length X)%nat /\ RotationBetweenPoints svd ((fun x => (x, x)) <$> X) = Mat (-1) 0 0 0 (-1) 0 0 0 1 /\
  squared_error (moved 1 mI v0) (zip X X) = 0 /\ forall t, 0 < squared_error (moved 1 (Mat (-1) 0 0 0 (-1) 0 0 0 1) t) (zip X X).
Proof.
  exists other_svd, flat. split; [|split; [|split; [|split; [|split]]]].
  - intros m. unfold other_svd. destruct (mat_dec m _) as [->|]; [|apply real_svd_right]. unfold is_svd_of, mmul, mT, mI. cbn [m11 m12 m13 m21 m22 m23 m31 m32 m33]. split; [f_equal; ring|]. split; [f_equal; ring|]. split; [f_equal; ring|lra].
  - intros (c & d & H). unfold flat in H. destruct (H (Vec 1 0 0) ltac:(set_solver)) as [t1 E1]. destruct (H (Vec 0 1 0) ltac:(set_solver)) as [t2 E2]. destruct (H (Vec (-1) 0 0) ltac:(set_solver)) as [t3 E3]. destruct c as [c1 c2 c3], d as [d1 d2 d3]. cbv [vadd vscale vx vy vz] in *. injection E1 as A1 A2 A3. injection E2 as B1 B2 B3. injection E3 as C1 C2 C3.
    assert ((t1 - t3) * d1 = 2) by lra. assert ((t1 - t3) * d2 = 0) by lra. assert ((t2 - t1) * d2 = 1) by lra. assert (d2 <> 0) by nra. assert (t1 - t3 = 0) by nra. nra.
  - cbn. lia.
  - unfold RotationBetweenPoints. assert (covariance (centred (fst <$> ((fun x => (x, x)) <$> flat))) (centred (snd <$> ((fun x => (x, x)) <$> flat))) = Mat 2 0 0 0 2 0 0 0 0) as ->.
    { cbn [fmap list_fmap flat fst snd]. assert (forall a b c d, centred [a; b; c; d] = (fun p => vadd p (vopp (vmean [a; b; c; d]))) <$> [a; b; c; d]) as -> by reflexivity. assert (vmean [Vec 1 0 0; Vec 0 1 0; Vec (-1) 0 0; Vec 0 (-1) 0] = v0) as -> by (unfold vmean, vsum; cbn; vcbv; f_equal; ring). cbn [fmap list_fmap]. assert (forall p, vadd p (vopp v0) = p) as Z by (intros []; vcbv; f_equal; ring). rewrite !Z. unfold covariance. cbn [zip_with foldr]. rewrite TriangProofs.madd_comm. unfold outer, madd, mzero. cbn [m11 m12 m13 m21 m22 m23 m31 m32 m33 vx vy vz]. f_equal; ring. }
    unfold ClosestRotationMatrix, transposed_svd, other_svd. destruct (mat_dec _ _) as [_|N]; [|contradiction]. cbv beta iota zeta. destruct (Rlt_dec _ 0) as [L|L].
    + unfold mscale, mmul, mT, mI. cbn [m11 m12 m13 m21 m22 m23 m31 m32 m33]. f_equal; ring.
    + exfalso. apply L. unfold det, mmul, mT, mI. cbn [m11 m12 m13 m21 m22 m23 m31 m32 m33]. lra.
  - apply error_zero. unfold flat. intros x y H. apply elem_of_lookup_zip_with in H as (i & x' & y' & [= -> ->] & Hx & Hy). rewrite Hx in Hy. injection Hy as ->. rewrite moved_1, mvec_I, vadd_0_r. reflexivity.
  - intros [a b c]. unfold flat. cbn [zip_with squared_error]. unfold moved, mvec, vadd, vsub, vscale, dot. cbn [m11 m12 m13 m21 m22 m23 m31 m32 m33 vx vy vz]. pose proof (Rle_0_sqr a). pose proof (Rle_0_sqr b). pose proof (Rle_0_sqr c). unfold Rsqr in *. nra.
Qed.
(** ** The pose *)
(** One turn of the loop brings the points no further from their lines of sight *)
Theorem C89_step svd l r t t' : (forall m, is_svd_of m (svd m)) -> rotation r -> 0 < det (covariance (centred (fst <$> nearest l (r, t))) (centred (snd <$> nearest l (r, t)))) ->
  TranslationBetweenPoints l (npoints_rotation svd l (r, t)) = Some t' -> rotation (npoints_rotation svd l (r, t)) /\ sight_error (npoints_rotation svd l (r, t)) t' l <= sight_error r t l.
Proof. intros Hs Hr D E. split; [now apply npoints_is_rotation|]. exact (step_decreases svd l r t _ t' Hs Hr D eq_refl E). Qed.
(** The result is a rotation, and no further from the lines of sight than the first guess, but for the last change of translation, which is not kept *)
Theorem C89_pose svd l r0 t0 r t : (forall m, is_svd_of m (svd m)) -> npoints_start svd l = Some (r0, t0) -> (forall q, run svd l (r0, t0) q -> 0 < det (covariance (centred (fst <$> nearest l q)) (centred (snd <$> nearest l q)))) ->
  AbsolutePoseNPoints svd l = Some (r, t) -> rotation r /\ sight_error r t l <= sight_error r0 t0 l + INR (length l) * (/ 10 ^ 7 * norm t * (/ 10 ^ 7 * norm t)).
Proof.
  intros Hs E0 Hd. unfold AbsolutePoseNPoints. rewrite E0, bind_some. generalize 100%nat. intros n. apply (loop_result svd l n (r0, t0)); [exact Hs| |exact Hd]. cbn [fst].
  revert E0. unfold npoints_start. destruct (Req_EM_T _ 0); [discriminate|]. intros E0. apply (inj Some) in E0. apply (f_equal fst) in E0. cbn [fst] in E0. rewrite <- E0. now apply C89_rotation.
Qed.
(** In any case the result is a rotation *)
Theorem C89_pose_rotation svd l r t : (forall m, is_svd_of m (svd m)) -> AbsolutePoseNPoints svd l = Some (r, t) -> rotation r.
Proof.
  intros Hs. unfold AbsolutePoseNPoints. destruct (npoints_start svd l) as [[r0 t0]|] eqn:E0; [|discriminate]. rewrite bind_some.
  assert (rotation r0) as Hr. { revert E0. unfold npoints_start. destruct (Req_EM_T _ 0); [discriminate|]. intros E0. apply (inj Some) in E0. apply (f_equal fst) in E0. cbn [fst] in E0. rewrite <- E0. now apply C89_rotation. }
  generalize 100%nat. intros n. clear E0. revert r0 t0 Hr. induction n as [|n IH]; intros r0 t0 Hr; cbn [npoints_loop fst snd].
  - intros H. apply (inj Some) in H. now inversion H; subst.
  - set (r' := npoints_rotation svd l (r0, t0)). assert (rotation r') by now apply npoints_is_rotation. destruct (TranslationBetweenPoints l r') as [t'|]; [|discriminate]. cbn [mbind option_bind]. destruct (Req_EM_T (norm t0) 0); [now apply IH|]. destruct (Rlt_dec _ _); [|now apply IH]. intros E. apply (inj Some) in E. now inversion E; subst.
Qed.
(** The loop stays at an exact pose *)
Theorem C89_exact_stays svd l r t n : (forall m, is_svd_of m (svd m)) -> rotation r -> (forall b p, (b, p) ∈ l -> b <> v0 /\ on_line r t b p) -> ~ in_a_plane (snd <$> l) -> npoints_loop svd l n (r, t) = Some (r, t).
Proof.
  intros Hs Hr HL Np. apply exact_loop; try done.
  - intros [b p] I E. destruct (HL b p I) as [N _]. apply N, dot_0, E.
  - intros [b p] I. now apply (HL b p).
Qed.
(** absolute_pose_n_points finds the pose exactly if the points are at the same distance from the camera, in front of it and not all in a plane *)
Theorem C89_sphere svd l r t d : (forall m, is_svd_of m (svd m)) -> rotation r -> 0 < d -> (forall b p, (b, p) ∈ l -> sees r t b p /\ norm (vadd (mvec r p) t) = d) -> ~ in_a_plane (snd <$> l) -> absolute_pose_n_points svd l = Some (r, t).
Proof.
  intros Hs Hr Pd HL Np. unfold absolute_pose_n_points, AbsolutePoseNPoints. set (l' := _ <$> l). assert (snd <$> l' = snd <$> l) as E2 by (unfold l'; rewrite <- list_fmap_compose; reflexivity).
  assert (forall s, s ∈ l' -> vadd (mvec r s.2) t = vscale d s.1 /\ dot s.1 s.1 = 1) as HL'.
  { intros s Hx. apply elem_of_list_fmap in Hx as ([b p] & -> & I). cbn [fst snd]. destruct (HL b p I) as [[k [Pk Ek]] Nd]. assert (b <> v0) as Nb. { intros ->. rewrite Ek in Nd. replace (vscale k v0) with v0 in Nd by (vcbv; f_equal; ring). assert (norm v0 = 0) as Z by (unfold norm; replace (dot v0 v0) with 0 by (vcbv; ring); apply sqrt_0). lra. }
    destruct (normalized_unit b Nb) as (U & c & Pc & Ec & En). split; [|exact U]. rewrite Ek. rewrite Ek in Nd. rewrite Ec at 1. rewrite vscale_vscale. f_equal.
    assert (norm (vscale k b) * norm (vscale k b) = (k * c) * (k * c)) as Q. { rewrite norm_sq, dot_scale_l, dot_scale_r, <- norm_sq, <- En. ring. } rewrite Nd in Q. assert (0 < k * c) by now apply Rmult_lt_0_compat. nra. }
  rewrite (start_exact svd l' r t d) by (try rewrite E2; auto; intros s I; now apply HL'). rewrite bind_some. apply C89_exact_stays; try done; [|now rewrite E2].
  intros b p I. destruct (HL' (b, p) I) as [E U]. split; [intros ->; cbn [fst] in U; unfold dot, v0 in U; cbn in U; lra|exists d; exact E].
Qed.
(** Bearings that are all parallel give no pose *)
Theorem C89_parallel svd l : (forall s s', s ∈ l -> s' ∈ l -> parallel s.1 s'.1) -> AbsolutePoseNPoints svd l = None.
Proof.
  intros H. unfold AbsolutePoseNPoints. destruct (npoints_start svd l) as [p|]; [|reflexivity]. rewrite bind_some. generalize 99%nat. intros n. cbn [npoints_loop].
  destruct (TranslationBetweenPoints l (npoints_rotation svd l p)) as [t'|] eqn:E; [|reflexivity]. exfalso. destruct (proj1 (C89_translation_exists l (npoints_rotation svd l p)) ltac:(eauto)) as (_ & s & s' & I & I' & N). now apply N, H.
Qed.
Print Assumptions C89_translation_exists. Print Assumptions C89_translation_best. Print Assumptions C89_translation_exact. Print Assumptions C89_known_rotation_exact.
Print Assumptions C89_rotation. Print Assumptions C89_rotation_exact. Print Assumptions C89_relative_rotation_exact. Print Assumptions C89_rotation_best. Print Assumptions C89_plane_refuted.
Print Assumptions C89_step. Print Assumptions C89_pose. Print Assumptions C89_pose_rotation. Print Assumptions C89_exact_stays. Print Assumptions C89_sphere. Print Assumptions C89_parallel.

(** ** Cases: six points around a camera turned by a quarter, two metres off *)
Definition turn : mat := Mat 0 (-1) 0 1 0 0 0 0 1.
Definition around : list (vec * vec) := [(Vec 5 0 0, Vec 0 (-3) (-1)); (Vec 7 0 0, Vec 0 (-3) (-1)); (Vec 0 1 0, Vec 1 (-2) (-1)); (Vec 0 0 2, Vec 0 (-2) 0); (Vec 0 (-1) 0, Vec (-1) (-2) (-1)); (Vec 0 0 (-1), Vec 0 (-2) (-2))].
Lemma turn_rotation : rotation turn.
Proof. unfold rotation, turn, mmul, mT, mI, det. cbn. split; [f_equal; ring|ring]. Qed.
Lemma around_not_flat : ~ in_a_plane (snd <$> around).
Proof.
  intros ([a b c] & k & N & H). apply N. unfold around in H. cbn [fmap list_fmap snd] in H. pose proof (H (Vec 0 (-3) (-1)) ltac:(set_solver)) as E1. pose proof (H (Vec 1 (-2) (-1)) ltac:(set_solver)) as E2. pose proof (H (Vec 0 (-2) 0) ltac:(set_solver)) as E3. pose proof (H (Vec (-1) (-2) (-1)) ltac:(set_solver)) as E4. pose proof (H (Vec 0 (-2) (-2)) ltac:(set_solver)) as E5.
  cbv [dot vx vy vz] in *. unfold v0. f_equal; lra.
Qed.
Lemma around_seen b p : (b, p) ∈ around -> sees turn (Vec (-2) 0 1) b p /\ norm (vadd (mvec turn p) (Vec (-2) 0 1)) = 1.
Proof.
  assert (forall v, dot v v = 1 -> norm v = 1) as U by (intros v E; unfold norm; rewrite E; apply sqrt_1).
  unfold around. rewrite !elem_of_cons, elem_of_nil. intros [[= -> ->]|[[= -> ->]|[[= -> ->]|[[= -> ->]|[[= -> ->]|[[= -> ->]|[]]]]]]]; (split; [|apply U; unfold turn, mvec, vadd, dot; cbn; ring]).
  - exists (/ 5). split; [lra|]. unfold turn, mvec, vadd, vscale; cbn; f_equal; field.
  - exists (/ 7). split; [lra|]. unfold turn, mvec, vadd, vscale; cbn; f_equal; field.
  - exists 1. split; [lra|]. unfold turn, mvec, vadd, vscale; cbn; f_equal; field.
  - exists (/ 2). split; [lra|]. unfold turn, mvec, vadd, vscale; cbn; f_equal; field.
  - exists 1. split; [lra|]. unfold turn, mvec, vadd, vscale; cbn; f_equal; field.
  - exists 1. split; [lra|]. unfold turn, mvec, vadd, vscale; cbn; f_equal; field.
Qed.
Example around_found : absolute_pose_n_points real_svd around = Some (turn, Vec (-2) 0 1).
Proof. apply (C89_sphere real_svd around turn (Vec (-2) 0 1) 1); [apply real_svd_right|apply turn_rotation|lra|apply around_seen|apply around_not_flat]. Qed.
(** There every step has a positive determinant *)
Lemma around_nonzero : nonzero around.
Proof. intros [b p] I E. unfold around in I. rewrite !elem_of_cons, elem_of_nil in I. destruct I as [[= -> ->]|[[= -> ->]|[[= -> ->]|[[= -> ->]|[[= -> ->]|[[= -> ->]|[]]]]]]]; unfold dot in E; cbn in E; lra. Qed.
Lemma around_on_line s : s ∈ around -> on_line turn (Vec (-2) 0 1) s.1 s.2.
Proof. destruct s as [b p]. intros I. destruct (around_seen b p I) as [[d [_ E]] _]. exists d. exact E. Qed.
Example around_steps q : run real_svd around (turn, Vec (-2) 0 1) q -> 0 < det (covariance (centred (fst <$> nearest around q)) (centred (snd <$> nearest around q))).
Proof.
  assert (run real_svd around (turn, Vec (-2) 0 1) q -> q = (turn, Vec (-2) 0 1)) as Only.
  { destruct (exact_step real_svd around turn (Vec (-2) 0 1) real_svd_right turn_rotation around_nonzero around_on_line around_not_flat) as [Er Et]. intros H. assert (forall p, run real_svd around p q -> p = (turn, Vec (-2) 0 1) -> q = (turn, Vec (-2) 0 1)) as G; [|exact (G _ H eq_refl)]. clear H. intros p H. induction H as [p|r t t' p E H IH]; intros Ep; [exact Ep|]. injection Ep as -> ->. rewrite Er in *. rewrite Et in E. injection E as <-. now apply IH. }
  intros ->%Only. rewrite nearest_exact by (apply around_nonzero || apply around_on_line). rewrite <- !list_fmap_compose. change (0 < det (covariance (centred (moved 1 turn (Vec (-2) 0 1) <$> (snd <$> around))) (centred (snd <$> around)))).
  rewrite centred_moved, cov_moved, det_rotation_scale by (done || apply turn_rotation). pose proof (cov_positive _ around_not_flat). lra.
Qed.
