(** Proofs about poses from many points *)
From stdpp Require Import prelude.
From Coq Require Import Reals Lra Psatz.
From Verif Require Import Lin TriangModel FitModel FitSpec PlaneProofs FitProofs P3pModel P3pSpec P3pProofs NposeModel NposeSpec.
From Verif Require TriangProofs.
Local Open Scope R_scope.

Lemma mvec_sight v y : mvec (sight v) y = vscale (dot v y / dot v v) v.
Proof. unfold sight. rewrite TriangProofs.mvec_mscale, TriangProofs.mvec_outer, vscale_vscale. f_equal. unfold Rdiv. ring. Qed.
Lemma dot_vadd u v w : dot u (vadd v w) = dot u v + dot u w. Proof. unfold dot, vadd. simpl. ring. Qed.
Lemma dot_vsub u v w : dot u (vsub v w) = dot u v - dot u w. Proof. unfold dot, vsub. simpl. ring. Qed.
Definition nonzero (samples : list (vec * vec)) : Prop := forall s, s ∈ samples -> dot s.1 s.1 <> 0.
(** what is left of y beside the line *)
Definition rejected (v y : vec) : vec := vsub y (mvec (sight v) y).
Fixpoint sumv {A} (f : A -> vec) (l : list A) : vec := match l with [] => v0 | x :: l => vadd (f x) (sumv f l) end.
Fixpoint summ {A} (f : A -> mat) (l : list A) : mat := match l with [] => mzero | x :: l => madd (f x) (summ f l) end.
Lemma foldl_sumv {A} (f : A -> vec) l acc : foldl (fun acc s => vadd acc (f s)) acc l = vadd acc (sumv f l).
Proof. revert acc. induction l as [|x l IH]; intros acc; cbn; [now rewrite vadd_0_r|]. now rewrite IH, vadd_assoc. Qed.
Lemma foldl_summ {A} (f : A -> mat) l acc : foldl (fun acc s => madd acc (f s)) acc l = madd acc (summ f l).
Proof. revert acc. induction l as [|x l IH]; intros acc; cbn; [now rewrite TriangProofs.madd_comm, TriangProofs.madd_0_l|]. now rewrite IH, TriangProofs.madd_assoc. Qed.
Definition gram (samples : list (vec * vec)) : mat := madd (mscale (INR (length samples)) mI) (mscale (-1) (summ (fun s => sight s.1) samples)).
Lemma gram_vec samples y : mvec (gram samples) y = sumv (fun s => rejected s.1 y) samples.
Proof.
  unfold gram. rewrite TriangProofs.mvec_madd, !TriangProofs.mvec_mscale, mvec_I. induction samples as [|s l IH]; [cbn [length summ sumv]; rewrite INR_IZR_INZ; cbn [Z.of_nat]; unfold mzero; vring|].
  cbn [summ sumv length]. rewrite <- IH, S_INR. rewrite TriangProofs.mvec_madd. unfold rejected. generalize (mvec (summ (fun s => sight s.1) l) y) (INR (length l)) (mvec (sight s.1) y). vring.
Qed.
Lemma off_rejected v y e : dot v v <> 0 -> off_sight v (vadd y e) = off_sight v y + off_sight v e + 2 * dot e (rejected v y).
Proof.
  intros N. unfold off_sight, rejected. rewrite mvec_sight, dot_vsub, dot_scale_r, !lagrange. assert (dot (vadd y e) (vadd y e) = dot y y + 2 * dot e y + dot e e) as -> by (unfold dot, vadd; simpl; ring).
  rewrite !dot_vadd, (dot_comm e v). field. exact N.
Qed.
Lemma off_nonneg v y : 0 <= off_sight v y.
Proof. unfold off_sight. destruct (Req_EM_T (dot v v) 0) as [E|E]; [rewrite E; unfold Rdiv; rewrite Rinv_0; lra|]. apply Rle_mult_inv_pos; [apply dot_nonneg|]. pose proof (dot_nonneg v). lra. Qed.
Lemma error_nonneg r t l : 0 <= sight_error r t l.
Proof. induction l as [|[b p] l IH]; cbn; [lra|]. pose proof (off_nonneg b (vadd (mvec r p) t)). lra. Qed.
Fixpoint turned (e : vec) (l : list (vec * vec)) : R := match l with [] => 0 | s :: l => off_sight s.1 e + turned e l end.
Lemma turned_nonneg e l : 0 <= turned e l. Proof. induction l as [|s l IH]; cbn; [lra|]. pose proof (off_nonneg s.1 e). lra. Qed.
Lemma error_expand r t t' l : nonzero l -> sight_error r t' l = sight_error r t l + turned (vsub t' t) l + 2 * dot (vsub t' t) (sumv (fun s => rejected s.1 (vadd (mvec r s.2) t)) l).
Proof.
  induction l as [|[b p] l IH]; intros N; cbn [sight_error turned sumv]; [unfold dot; simpl; ring|]. rewrite IH by (intros s Hs; apply N; now right). rewrite dot_vadd. cbn [fst snd].
  replace (vadd (mvec r p) t') with (vadd (vadd (mvec r p) t) (vsub t' t)) by (generalize (mvec r p); vring). rewrite (off_rejected b) by (apply (N (b, p)); left). ring.
Qed.
Lemma turned_gram e l : nonzero l -> turned e l = dot e (mvec (gram l) e).
Proof.
  intros N. rewrite gram_vec. induction l as [|s l IH]; cbn [turned sumv]; [unfold dot; simpl; ring|]. rewrite IH by (intros x Hx; apply N; now right). rewrite dot_vadd. f_equal.
  unfold off_sight, rejected. rewrite mvec_sight, dot_vsub, dot_scale_r, lagrange, (dot_comm e s.1). field. apply N. left.
Qed.
Lemma gram_symmetric l : mT (gram l) = gram l.
Proof.
  unfold gram. assert (mT (summ (fun s => sight s.1) l) = summ (fun s => sight s.1) l) as H.
  { induction l as [|s l IH]; [reflexivity|]. cbn [summ]. transitivity (madd (mT (sight s.1)) (mT (summ (fun s => sight s.1) l))); [generalize (sight s.1), (summ (fun s : vec * vec => sight s.1) l); vring|]. rewrite IH. f_equal. unfold sight. generalize (/ dot s.1 s.1). destruct s as [[a1 a2 a3] p]. cbn [fst]. intros. unfold outer. cbv [mT mscale vx vy vz m11 m12 m13 m21 m22 m23 m31 m32 m33]. f_equal; ring. }
  transitivity (madd (mscale (INR (length l)) mI) (mscale (-1) (mT (summ (fun s => sight s.1) l)))); [generalize (INR (length l)), (summ (fun s : vec * vec => sight s.1) l); vring|]. now rewrite H.
Qed.
Lemma off_zero v e : dot v v <> 0 -> off_sight v e = 0 -> cross v e = v0.
Proof. intros N H. apply dot_0. unfold off_sight in H. apply (f_equal (Rmult (dot v v))) in H. rewrite Rmult_0_r in H. rewrite <- H. field. exact N. Qed.
Lemma turned_zero e l s : nonzero l -> turned e l = 0 -> s ∈ l -> cross s.1 e = v0.
Proof.
  induction l as [|x l IH]; intros N H Hs; [inversion Hs|]. cbn in H. pose proof (off_nonneg x.1 e). pose proof (turned_nonneg e l). apply elem_of_cons in Hs as [-> |Hs]; [apply off_zero; [apply N; left|lra]|]. apply IH; [intros y Hy; apply N; now right|lra|exact Hs].
Qed.
Lemma cross_parallel u v e : e <> v0 -> cross u e = v0 -> cross v e = v0 -> cross u v = v0.
Proof.
  intros Ne Hu Hv. assert (dot e e <> 0) as Nd by (intros H; apply Ne, dot_0, H).
  assert (forall w, cross w e = v0 -> vscale (dot e e) w = vscale (dot w e) e) as P.
  { intros w H. assert (cross e (cross w e) = v0) as H' by (rewrite H; vcbv; f_equal; ring). assert (cross e (cross w e) = vsub (vscale (dot e e) w) (vscale (dot w e) e)) as E by (destruct w, e; vcbv; f_equal; ring). rewrite E in H'. now apply TriangProofs.vsub_0. }
  apply P in Hu, Hv. assert (vscale (dot e e * dot e e) (cross u v) = v0) as E.
  { transitivity (cross (vscale (dot e e) u) (vscale (dot e e) v)); [generalize (dot e e); intros; destruct u, v; vcbv; f_equal; ring|]. rewrite Hu, Hv. generalize (dot u e), (dot v e). intros. destruct e. vcbv. f_equal; ring. }
  transitivity (vscale (/ (dot e e * dot e e)) (vscale (dot e e * dot e e) (cross u v))); [|rewrite E; vcbv; f_equal; ring]. rewrite vscale_vscale. replace (/ (dot e e * dot e e) * (dot e e * dot e e)) with 1 by (field; exact Nd). now rewrite vscale_1.
Qed.
Lemma gram_invertible l : nonzero l -> (exists s s', s ∈ l /\ s' ∈ l /\ cross s.1 s'.1 <> v0) -> det (gram l) <> 0.
Proof.
  intros N (s & s' & Hs & Hs' & Nc). apply TriangProofs.definite_det; [apply gram_symmetric|]. intros e Ne. rewrite <- turned_gram by exact N. pose proof (turned_nonneg e l) as P. destruct (Req_EM_T (turned e l) 0) as [E|E]; [|lra].
  exfalso. apply Nc. apply (cross_parallel _ _ e Ne); eapply turned_zero; eauto.
Qed.
Lemma gram_singular l s : nonzero l -> s ∈ l -> (forall s', s' ∈ l -> cross s.1 s'.1 = v0) -> det (gram l) = 0.
Proof.
  intros N Hs H. destruct (Req_EM_T (det (gram l)) 0) as [E|E]; [exact E|]. exfalso. apply (N s Hs). assert (mvec (gram l) s.1 = v0) as K.
  { rewrite gram_vec. assert (forall x, x ∈ l -> rejected x.1 s.1 = v0) as R.
    { intros x Hx. specialize (H x Hx). unfold rejected. rewrite mvec_sight. assert (dot x.1 x.1 <> 0) as Nx by now apply N. assert (cross x.1 (cross s.1 x.1) = vsub (vscale (dot x.1 x.1) s.1) (vscale (dot x.1 s.1) x.1)) as E' by (destruct x as [[] ?], s as [[] ?]; vcbv; f_equal; ring). rewrite H in E'.
      replace (cross x.1 v0) with v0 in E' by (destruct x as [[] ?]; vcbv; f_equal; ring). symmetry in E'. apply TriangProofs.vsub_0 in E'. apply (f_equal (vscale (/ dot x.1 x.1))) in E'. rewrite !vscale_vscale, Rinv_l, vscale_1 in E' by exact Nx. rewrite E' at 1. unfold Rdiv. rewrite (Rmult_comm (dot x.1 s.1)). apply TriangProofs.vsub_self. }
    clear -R. induction l as [|x l IH]; [reflexivity|]. cbn. rewrite IH, (R x) by (try left; intros y Hy; apply R; now right). apply vadd_0_r. }
  assert (s.1 = v0) as ->; [|vcbv; ring]. rewrite <- (mvec_I s.1). transitivity (mvec (minv (gram l)) (mvec (gram l) s.1)); [|rewrite K; apply mvec_0].
  rewrite <- mvec_mmul. f_equal. unfold minv. transitivity (mscale (/ det (gram l)) (mmul (adj (gram l)) (gram l))); [|generalize (adj (gram l)), (gram l), (/ det (gram l)); vring]. rewrite adj_l. transitivity (mscale (/ det (gram l) * det (gram l)) mI); [now rewrite Rinv_l, mscale_1|generalize (det (gram l)), (/ det (gram l)); vring].
Qed.
Lemma zero_bearing l : existsb (fun s : vec * vec => if Req_EM_T (dot s.1 s.1) 0 then true else false) l = false <-> nonzero l.
Proof.
  split.
  - intros H s Hs E. assert (existsb (fun s : vec * vec => if Req_EM_T (dot s.1 s.1) 0 then true else false) l = true) as H'; [|congruence]. apply existsb_exists. exists s. split; [now apply elem_of_list_In|]. destruct (Req_EM_T (dot s.1 s.1) 0); [reflexivity|contradiction].
  - intros N. apply not_true_iff_false. intros (s & Hs & E)%existsb_exists. destruct (Req_EM_T (dot s.1 s.1) 0) as [Z|]; [|discriminate]. apply (N s); [now apply elem_of_list_In|exact Z].
Qed.
Lemma det_mscale k m : det (mscale k m) = k * k * k * det m. Proof. destruct m. unfold det, mscale. simpl. ring. Qed.
Lemma translation_some l r t : TranslationBetweenPoints l r = Some t -> nonzero l /\ l <> [] /\ det (gram l) <> 0 /\ sumv (fun s => rejected s.1 (vadd (mvec r s.2) t)) l = v0.
Proof.
  unfold TranslationBetweenPoints. destruct (existsb _ l) eqn:Z; [discriminate|]. apply zero_bearing in Z. destruct l as [|s0 l']; [discriminate|]. set (l := s0 :: l') in *. rewrite (foldl_summ (fun s : vec * vec => sight s.1)), TriangProofs.madd_0_l, (foldl_sumv (fun s : vec * vec => mvec (madd (sight s.1) (mscale (-1) mI)) (mvec r s.2))), vadd_0_l.
  assert (INR (length l) <> 0) as Nn by (apply not_0_INR; cbn; lia). set (n := INR (length l)) in *. assert (madd mI (mscale (-1) (mscale (/ n) (summ (fun s => sight s.1) l))) = mscale (/ n) (gram l)) as ->.
  { unfold gram. fold n. transitivity (madd (mscale (/ n * n) mI) (mscale (-1) (mscale (/ n) (summ (fun s => sight s.1) l)))); [rewrite Rinv_l by exact Nn; now rewrite mscale_1|]. generalize (/ n), n, (summ (fun s : vec * vec => sight s.1) l). vring. }
  destruct (inverse (mscale (/ n) (gram l))) as [i|] eqn:E; [|discriminate]. intros H. apply (inj Some) in H. destruct (TriangProofs.inverse_spec _ _ E) as (D & Ei & _). split; [exact Z|]. split; [discriminate|].
  split; [intros D0; apply D; rewrite det_mscale, D0; ring|].
  assert (mvec (gram l) t = sumv (fun s => mvec (madd (sight s.1) (mscale (-1) mI)) (mvec r s.2)) l) as G.
  { rewrite <- H. transitivity (vscale n (mvec (mmul (mscale (/ n) (gram l)) i) (vscale (/ n) (sumv (fun s => mvec (madd (sight s.1) (mscale (-1) mI)) (mvec r s.2)) l)))).
    - rewrite mvec_mmul, TriangProofs.mvec_mscale, vscale_vscale, Rinv_r, vscale_1 by exact Nn. reflexivity.
    - rewrite Ei, mvec_I, vscale_vscale, Rinv_r, vscale_1 by exact Nn. reflexivity. }
  rewrite gram_vec in G. clearbody l. clear -G. assert (sumv (fun s => rejected s.1 (vadd (mvec r s.2) t)) l = vsub (sumv (fun s => rejected s.1 t) l) (sumv (fun s => mvec (madd (sight s.1) (mscale (-1) mI)) (mvec r s.2)) l)) as ->.
  { clear G. induction l as [|s l IH]; cbn [sumv]; [vring|]. rewrite IH. unfold rejected. generalize (sight s.1), (mvec r s.2), (sumv (fun s : vec * vec => vsub t (mvec (sight s.1) t)) l), (sumv (fun s : vec * vec => mvec (madd (sight s.1) (mscale (-1) mI)) (mvec r s.2)) l). clear. vring. }
  rewrite G. apply TriangProofs.vsub_self.
Qed.
Lemma translation_exists l r : nonzero l -> l <> [] -> det (gram l) <> 0 -> exists t, TranslationBetweenPoints l r = Some t.
Proof.
  intros Z N D. unfold TranslationBetweenPoints. apply zero_bearing in Z. rewrite Z. destruct l as [|s0 l']; [contradiction|]. set (l := s0 :: l') in *. rewrite (foldl_summ (fun s : vec * vec => sight s.1)), TriangProofs.madd_0_l.
  assert (INR (length l) <> 0) as Nn by (apply not_0_INR; cbn; lia). set (n := INR (length l)) in *. assert (madd mI (mscale (-1) (mscale (/ n) (summ (fun s => sight s.1) l))) = mscale (/ n) (gram l)) as ->.
  { unfold gram. fold n. transitivity (madd (mscale (/ n * n) mI) (mscale (-1) (mscale (/ n) (summ (fun s => sight s.1) l)))); [rewrite Rinv_l by exact Nn; now rewrite mscale_1|]. generalize (/ n), n, (summ (fun s : vec * vec => sight s.1) l). vring. }
  unfold inverse. destruct (Req_EM_T _ 0) as [E|_]; [|eexists; reflexivity]. exfalso. rewrite det_mscale in E. apply Rmult_integral in E as [E|E]; [|contradiction]. assert (/ n <> 0) by now apply Rinv_neq_0_compat. apply Rmult_integral in E as [E|E]; [apply Rmult_integral in E as [E|E]|]; contradiction.
Qed.
Lemma translation_best l r t t' : TranslationBetweenPoints l r = Some t -> sight_error r t l <= sight_error r t' l.
Proof.
  intros H. apply translation_some in H as (N & _ & _ & G). rewrite (error_expand r t t' l N), G. pose proof (turned_nonneg (vsub t' t) l). unfold dot at 1. simpl. lra.
Qed.
Lemma rejected_zero v y k : dot v v <> 0 -> y = vscale k v -> rejected v y = v0.
Proof. intros N ->. unfold rejected. rewrite mvec_sight, dot_scale_r. replace (k * dot v v / dot v v) with k by (field; exact N). apply TriangProofs.vsub_self. Qed.
Lemma translation_exact l r t t' : TranslationBetweenPoints l r = Some t -> (forall s, s ∈ l -> on_line r t' s.1 s.2) -> t = t'.
Proof.
  intros H HL. apply translation_some in H as (N & _ & D & G). assert (sumv (fun s => rejected s.1 (vadd (mvec r s.2) t')) l = v0) as G'.
  { clear G D. induction l as [|s l IH]; [reflexivity|]. cbn. rewrite IH by (intros x Hx; (apply N || apply HL); now right). destruct (HL s ltac:(left)) as [k E]. rewrite (rejected_zero _ _ k); [apply vadd_0_r|apply N; left|exact E]. }
  assert (mvec (gram l) (vsub t t') = v0) as K.
  { rewrite gram_vec. transitivity (vsub (sumv (fun s => rejected s.1 (vadd (mvec r s.2) t)) l) (sumv (fun s => rejected s.1 (vadd (mvec r s.2) t')) l)); [|rewrite G, G'; vring]. clear. induction l as [|s l IH]; cbn [sumv]; [vring|]. rewrite IH. unfold rejected. generalize (sight s.1), (mvec r s.2), (sumv (fun s : vec * vec => vsub (vadd (mvec r s.2) t) (mvec (sight s.1) (vadd (mvec r s.2) t))) l), (sumv (fun s : vec * vec => vsub (vadd (mvec r s.2) t') (mvec (sight s.1) (vadd (mvec r s.2) t'))) l). clear. vring. }
  apply TriangProofs.vsub_0. rewrite <- (mvec_I (vsub t t')). transitivity (mvec (minv (gram l)) (mvec (gram l) (vsub t t'))); [|rewrite K; apply mvec_0].
  rewrite <- mvec_mmul. f_equal. unfold minv. transitivity (mscale (/ det (gram l)) (mmul (adj (gram l)) (gram l))); [|generalize (adj (gram l)), (gram l), (/ det (gram l)); vring]. rewrite adj_l. transitivity (mscale (/ det (gram l) * det (gram l)) mI); [now rewrite Rinv_l, mscale_1|generalize (det (gram l)), (/ det (gram l)); vring].
Qed.

(** *** Rotations between points *)
Lemma definite_positive m : mT m = m -> (forall e, e <> v0 -> 0 < dot e (mvec m e)) -> 0 < det m.
Proof.
  intros Hs Hp. destruct m as [a b c b' d e c' e' f]. cbv [mT m11 m12 m13 m21 m22 m23 m31 m32 m33] in Hs. injection Hs as E1 E2 E3. subst b' c' e'.
  assert (Ha : 0 < a). { specialize (Hp (Vec 1 0 0) ltac:(intros [=]; lra)). cbv [dot mvec vx vy vz m11 m12 m13 m21 m22 m23 m31 m32 m33] in Hp. lra. }
  assert (Hm : 0 < a * d - b * b).
  { specialize (Hp (Vec (- b) a 0) ltac:(intros [=]; lra)). cbv [dot mvec vx vy vz m11 m12 m13 m21 m22 m23 m31 m32 m33] in Hp. nra. }
  specialize (Hp (Vec (b * e - c * d) (b * c - a * e) (a * d - b * b)) ltac:(intros [=]; lra)).
  cbv [dot mvec det vx vy vz m11 m12 m13 m21 m22 m23 m31 m32 m33] in *. 
  assert (E : (b * e - c * d) * (a * (b * e - c * d) + b * (b * c - a * e) + c * (a * d - b * b)) + (b * c - a * e) * (b * (b * e - c * d) + d * (b * c - a * e) + e * (a * d - b * b)) +
     (a * d - b * b) * (c * (b * e - c * d) + e * (b * c - a * e) + f * (a * d - b * b)) = (a * d - b * b) * (a * (d * f - e * e) - b * (b * f - e * c) + c * (b * e - d * c))) by ring.
  rewrite E in Hp. clear E. set (D := a * (d * f - e * e) - b * (b * f - e * c) + c * (b * e - d * c)) in *. apply (Rmult_lt_reg_l (a * d - b * b)); [exact Hm|]. lra.
Qed.
Lemma closest_kabsch svd m : is_svd_of m (svd m) -> 0 < det m -> ClosestRotationMatrix svd m = kabsch svd m.
Proof.
  unfold ClosestRotationMatrix, transposed_svd, kabsch. destruct (svd m) as [[u [[s1 s2] s3]] vh]. intros (Hu & Hv & Em & S12 & S23 & S3) D.
  assert (det m = det (mmul u vh) * (s1 * s2 * s3)) as Ed. { rewrite Em, !det_mmul. transitivity (det u * ((s1 * (s2 * s3)) * det vh)); [f_equal; f_equal; unfold det at 1; simpl; ring|ring]. }
  rewrite Ed in D. destruct (Rlt_dec (det (mmul u vh)) 0) as [L|L]; [|reflexivity]. exfalso. assert (0 <= s1 * s2) by (apply Rmult_le_pos; lra). assert (0 <= s1 * s2 * s3) by (apply Rmult_le_pos; lra). nra.
Qed.
Lemma rotation_best svd l r' b' : (forall m, is_svd_of m (svd m)) -> l <> [] -> 0 < det (covariance (centred (fst <$> l)) (centred (snd <$> l))) -> rotation r' ->
  let r := RotationBetweenPoints svd l in
  squared_error (moved 1 r (vsub (vmean (fst <$> l)) (mvec r (vmean (snd <$> l))))) (zip (snd <$> l) (fst <$> l)) <= squared_error (moved 1 r' b') (zip (snd <$> l) (fst <$> l)).
Proof.
  intros Hsvd N D Hr r. pose proof (fit_best svd (snd <$> l) (fst <$> l) 1 r r' b') as B. rewrite (mscale_1 r) in B. apply B; try done; [apply Hsvd|lra|now rewrite !fmap_length|now destruct l|]. unfold r, RotationBetweenPoints. apply closest_kabsch; [apply Hsvd|exact D].
Qed.
Lemma cov_vec (Q P : list vec) e : length Q = length P -> dot e (mvec (covariance P P) e) = sumR ((fun x => dot e x * dot e x) <$> P).
Proof.
  intros _. unfold covariance. induction P as [|x P IH]; [unfold dot, mvec, mzero; simpl; ring|]. cbn [zip_with foldr fmap list_fmap]. rewrite TriangProofs.mvec_madd, dot_vadd, IH, TriangProofs.mvec_outer, dot_scale_r, (dot_comm x e). reflexivity.
Qed.
Lemma cov_symmetric P : mT (covariance P P) = covariance P P.
Proof.
  unfold covariance. induction P as [|x P IH]; [reflexivity|]. cbn [zip_with foldr]. transitivity (madd (mT (outer x x)) (mT (foldr madd mzero (zip_with outer P P)))); [generalize (outer x x), (foldr madd mzero (zip_with outer P P)); vring|]. rewrite IH. f_equal. destruct x as [a b c]. unfold outer, mT. cbn [m11 m12 m13 m21 m22 m23 m31 m32 m33 vx vy vz]. f_equal; ring.
Qed.
Lemma sumsq_nonneg f (P : list vec) : 0 <= sumR ((fun x => f x * f x) <$> P).
Proof. unfold sumR. induction P as [|x P IH]; cbn; [lra|]. nra. Qed.
Lemma sumsq_zero f (P : list vec) : sumR ((fun x => f x * f x) <$> P) = 0 -> forall x, x ∈ P -> f x = 0.
Proof.
  induction P as [|y P IH]; [set_solver|]. unfold sumR in *. cbn [fmap list_fmap foldr]. intros H x Hx. pose proof (sumsq_nonneg f P) as N. unfold sumR in N. apply elem_of_cons in Hx as [-> |Hx]; [nra|]. apply IH; [nra|exact Hx].
Qed.
Lemma cov_positive X : ~ in_a_plane X -> 0 < det (covariance (centred X) (centred X)).
Proof.
  intros H. apply definite_positive; [apply cov_symmetric|]. intros e Ne. rewrite (cov_vec (centred X)) by reflexivity. pose proof (sumsq_nonneg (dot e) (centred X)) as P. destruct (Req_EM_T (sumR ((fun x => dot e x * dot e x) <$> centred X)) 0) as [E|E]; [|lra].
  exfalso. apply H. exists e, (dot e (vmean X)). split; [exact Ne|]. intros x Hx. pose proof (sumsq_zero _ _ E (vadd x (vopp (vmean X)))) as Z. specialize (Z ltac:(unfold centred; apply elem_of_list_fmap; eauto)). rewrite dot_vadd in Z. assert (dot e (vopp (vmean X)) = - dot e (vmean X)) as E' by (unfold dot, vopp; simpl; ring). lra.
Qed.
Lemma cov_moved s a P : covariance ((fun x => vscale s (mvec a x)) <$> P) P = mscale s (mmul a (covariance P P)).
Proof.
  unfold covariance. induction P as [|x P IH]; [cbn; unfold mzero; vring|]. cbn [fmap list_fmap zip_with foldr]. rewrite IH. transitivity (madd (mscale s (mmul a (outer x x))) (mscale s (mmul a (foldr madd mzero (zip_with outer P P))))).
  - f_equal. destruct x as [x1 x2 x3], a as [a1 a2 a3 a4 a5 a6 a7 a8 a9]. unfold outer, mscale, mmul, mvec, vscale. cbn [m11 m12 m13 m21 m22 m23 m31 m32 m33 vx vy vz]. f_equal; ring.
  - generalize (outer x x), (foldr madd mzero (zip_with outer P P)). vring.
Qed.
Lemma det_rotation_scale s a m : rotation a -> det (mscale s (mmul a m)) = s * s * s * det m.
Proof. intros [_ D]. rewrite det_mscale, det_mmul, D. ring. Qed.
Lemma mvec_vsub m u v : mvec m (vsub u v) = vsub (mvec m u) (mvec m v). Proof. vring. Qed.
Lemma centred_length X : length (centred X) = length X. Proof. unfold centred. apply fmap_length. Qed.
Lemma on_line_in_plane X : on_a_line X -> in_a_plane X.
Proof.
  intros (c & d & H). destruct (Req_EM_T (dot d d) 0) as [E|E].
  - apply dot_0 in E. subst d. exists (Vec 1 0 0), (vx c). split; [intros [=]; lra|]. intros x Hx. destruct (H x Hx) as [t ->]. unfold dot, vadd, vscale, v0. cbn. ring.
  - assert (exists n, n <> v0 /\ dot n d = 0) as (n & Nn & D).
    { destruct d as [d1 d2 d3]. destruct (Req_EM_T d1 0) as [E1|E1]; [exists (Vec 1 0 0); split; [intros [=]; lra|unfold dot; cbn; lra]|]. exists (Vec d2 (- d1) 0). split; [intros [=]; lra|unfold dot; cbn; ring]. }
    exists n, (dot n c). split; [exact Nn|]. intros x Hx. destruct (H x Hx) as [t ->]. rewrite dot_vadd, dot_scale_r, D. ring.
Qed.
Lemma rotation_exact svd s a b X : (forall m, is_svd_of m (svd m)) -> 0 < s -> rotation a -> ~ in_a_plane X -> RotationBetweenPoints svd ((fun x => (moved s a b x, x)) <$> X) = a.
Proof.
  intros Hs Ps Ha Np. assert (X <> []) as Nx. { intros ->. apply Np. exists (Vec 1 0 0), 0. split; [intros [=]; lra|intros x Hx; inversion Hx]. }
  unfold RotationBetweenPoints. rewrite <- !list_fmap_compose. replace (snd ∘ (fun x => (moved s a b x, x)) <$> X) with X by (symmetry; apply list_fmap_id). change (fst ∘ (fun x => (moved s a b x, x)) <$> X) with (moved s a b <$> X).
  assert (0 < det (covariance (centred (moved s a b <$> X)) (centred X))) as D.
  { rewrite centred_moved, cov_moved, det_rotation_scale by done. pose proof (cov_positive X Np). apply Rmult_lt_0_compat; [|done]. apply Rmult_lt_0_compat; [|done]. now apply Rmult_lt_0_compat. }
  rewrite closest_kabsch; [|apply Hs|exact D]. set (r := kabsch svd _). assert (rotation r) as Hr by apply kabsch_rotation, Hs.
  pose proof (fit_best svd X (moved s a b <$> X) s r a b) as B. specialize (B ltac:(apply Hs) ltac:(lra) ltac:(now rewrite fmap_length) Nx eq_refl Ha).
  assert (squared_error (moved s a b) (zip X (moved s a b <$> X)) = 0) as E0.
  { apply error_zero. intros x y Hxy. apply elem_of_lookup_zip_with in Hxy as (i & x' & y' & [= -> ->] & Hx & Hy). rewrite list_lookup_fmap, Hx in Hy. now injection Hy. }
  rewrite E0 in B. pose proof (FitProofs.error_nonneg (moved s r (vsub (vmean (moved s a b <$> X)) (mvec (mscale s r) (vmean X)))) (zip X (moved s a b <$> X))) as P. set (b' := vsub _ _) in *. assert (squared_error (moved s r b') (zip X (moved s a b <$> X)) = 0) as E by lra.
  rewrite error_zero in E. assert (forall x, x ∈ X -> moved s r b' x = moved s a b x) as Hx. { intros x [i Hi]%elem_of_list_lookup. apply E. apply elem_of_lookup_zip_with. exists i, x, (moved s a b x). rewrite list_lookup_fmap, Hi. done. }
  assert (~ on_a_line X) as Nl by (intros H; apply Np, on_line_in_plane, H). destruct (not_on_line X Nl) as (x0 & x1 & x2 & I0 & I1 & I2 & Hc).
  assert (forall x, x ∈ X -> mvec r (vsub x x0) = mvec a (vsub x x0)) as Hd.
  { intros x Ix. pose proof (Hx x Ix) as E1. pose proof (Hx x0 I0) as E2. unfold moved in E1, E2.
    assert (vscale s (mvec r (vsub x x0)) = vscale s (mvec a (vsub x x0))) as E3.
    { rewrite !mvec_vsub. transitivity (vsub (vadd (vscale s (mvec r x)) b') (vadd (vscale s (mvec r x0)) b')); [generalize (mvec r x), (mvec r x0), b'; clear; vring|]. rewrite E1, E2. generalize (mvec a x), (mvec a x0). clear. vring. }
    transitivity (vscale (/ s) (vscale s (mvec r (vsub x x0)))); [rewrite vscale_vscale, Rinv_l, vscale_1 by lra; done|]. rewrite E3, vscale_vscale, Rinv_l, vscale_1 by lra. done. }
  apply (two_directions _ _ (vsub x1 x0) (vsub x2 x0)); auto.
Qed.
(** *** One step of the loop *)
Definition nearest (l : list (vec * vec)) (pose : mat * vec) : list (vec * vec) := (fun s => (mvec (sight s.1) (vadd (mvec pose.1 s.2) pose.2), s.2)) <$> l.
Lemma off_le v y k : dot v v <> 0 -> off_sight v y <= dot (vsub (vscale k v) y) (vsub (vscale k v) y).
Proof.
  intros N. assert (0 < dot v v) by (pose proof (dot_nonneg v); lra). unfold off_sight. rewrite lagrange. replace (dot (vsub (vscale k v) y) (vsub (vscale k v) y)) with (k * k * dot v v - 2 * k * dot v y + dot y y) by (unfold dot, vsub, vscale; simpl; ring).
  apply (Rmult_le_reg_l (dot v v)); [lra|]. replace (dot v v * ((dot v v * dot y y - dot v y * dot v y) / dot v v)) with (dot v v * dot y y - dot v y * dot v y) by (field; lra). pose proof (Rle_0_sqr (k * dot v v - dot v y)) as Q. unfold Rsqr in Q. nra.
Qed.
Lemma off_nearest v y : dot v v <> 0 -> dot (vsub (mvec (sight v) y) y) (vsub (mvec (sight v) y) y) = off_sight v y.
Proof.
  intros N. rewrite mvec_sight. unfold off_sight. rewrite lagrange. set (k := dot v y / dot v v). replace (dot (vsub (vscale k v) y) (vsub (vscale k v) y)) with (k * k * dot v v - 2 * k * dot v y + dot y y) by (unfold dot, vsub, vscale; simpl; ring). unfold k. field. exact N.
Qed.
Lemma moved_1 r b x : moved 1 r b x = vadd (mvec r x) b. Proof. unfold moved. now rewrite vscale_1. Qed.
Lemma error_before l r t : nonzero l -> squared_error (moved 1 r t) (zip (snd <$> nearest l (r, t)) (fst <$> nearest l (r, t))) = sight_error r t l.
Proof.
  induction l as [|[b p] l IH]; intros N; [reflexivity|]. cbn [nearest fmap list_fmap zip_with squared_error sight_error fst snd]. rewrite moved_1, off_nearest by (apply (N (b, p)); left). f_equal. apply IH. intros s Hs. apply N. now right.
Qed.
Lemma error_after l pose r t : nonzero l -> sight_error r t l <= squared_error (moved 1 r t) (zip (snd <$> nearest l pose) (fst <$> nearest l pose)).
Proof.
  induction l as [|[b p] l IH]; intros N; [cbn; lra|]. cbn [nearest fmap list_fmap zip_with squared_error sight_error fst snd]. apply Rplus_le_compat; [|apply IH; intros s Hs; apply N; now right]. rewrite moved_1, mvec_sight. apply off_le. apply (N (b, p)). left.
Qed.
Lemma step_decreases svd l r t r' t' : (forall m, is_svd_of m (svd m)) -> rotation r -> 0 < det (covariance (centred (fst <$> nearest l (r, t))) (centred (snd <$> nearest l (r, t)))) ->
  r' = npoints_rotation svd l (r, t) -> TranslationBetweenPoints l r' = Some t' -> sight_error r' t' l <= sight_error r t l.
Proof.
  intros Hs Hr D Er Et. pose proof (translation_some _ _ _ Et) as (N & Nl & _ & _). assert (r' = RotationBetweenPoints svd (nearest l (r, t))) as Er' by exact Er. clear Er.
  pose proof (rotation_best svd (nearest l (r, t)) r t Hs ltac:(now destruct l) D Hr) as B. cbn zeta in B. rewrite <- Er', (error_before l r t N) in B.
  pose proof (translation_best l r' t' (vsub (vmean (fst <$> nearest l (r, t))) (mvec r' (vmean (snd <$> nearest l (r, t))))) Et) as T. pose proof (error_after l (r, t) r' (vsub (vmean (fst <$> nearest l (r, t))) (mvec r' (vmean (snd <$> nearest l (r, t))))) N) as A. lra.
Qed.
Lemma npoints_is_rotation svd l pose : (forall m, is_svd_of m (svd m)) -> rotation (npoints_rotation svd l pose).
Proof. intros H. apply closest_rotation. apply H. Qed.
(** *** Exact data *)
Lemma not_parallel_of_points l r t : rotation r -> nonzero l -> (forall s, s ∈ l -> on_line r t s.1 s.2) -> ~ in_a_plane (snd <$> l) -> exists s s', s ∈ l /\ s' ∈ l /\ cross s.1 s'.1 <> v0.
Proof.
  intros Hr N HL Np. destruct l as [|s l]; [exfalso; apply Np; exists (Vec 1 0 0), 0; split; [intros [=]; lra|intros x Hx; inversion Hx]|].
  assert ({Exists (fun s' : vec * vec => cross s.1 s'.1 <> v0) (s :: l)} + {~ Exists (fun s' : vec * vec => cross s.1 s'.1 <> v0) (s :: l)}) as [E|E].
  { apply Exists_dec. intros [v p]. cbn [fst]. destruct (Req_EM_T (dot (cross s.1 v) (cross s.1 v)) 0) as [Z|Z]; [right; intros H; apply H, dot_0, Z|left; intros H; apply Z; rewrite H; unfold dot, v0; cbn; ring]. }
  - apply Exists_exists in E as (s' & I & H). exists s, s'. repeat split; [left|exact I|exact H].
  - exfalso. apply Np, on_line_in_plane. exists (vopp (mvec (mT r) t)), (mvec (mT r) s.1). intros x Hx. apply elem_of_list_fmap in Hx as (s' & -> & I). destruct (HL s' I) as [k Ek].
    assert (cross s.1 s'.1 = v0) as C. { destruct (Req_EM_T (dot (cross s.1 s'.1) (cross s.1 s'.1)) 0) as [Z|Z]; [apply dot_0, Z|]. exfalso. apply E, Exists_exists. exists s'. split; [exact I|]. intros H; apply Z; rewrite H; unfold dot, v0; cbn; ring. }
    assert (dot s.1 s.1 <> 0) as Ns by (apply N; left).
    assert (s'.1 = vscale (dot s.1 s'.1 / dot s.1 s.1) s.1) as P.
    { assert (cross s.1 (cross s.1 s'.1) = vsub (vscale (dot s.1 s'.1) s.1) (vscale (dot s.1 s.1) s'.1)) as E' by (destruct s as [[] ?], s' as [[] ?]; vcbv; f_equal; ring). rewrite C in E'. replace (cross s.1 v0) with v0 in E' by (destruct s as [[] ?]; vcbv; f_equal; ring). symmetry in E'. apply TriangProofs.vsub_0 in E'. unfold Rdiv. rewrite Rmult_comm, <- vscale_vscale, E', vscale_vscale, Rinv_l, vscale_1 by exact Ns. reflexivity. }
    exists (k * (dot s.1 s'.1 / dot s.1 s.1)). set (kk := dot s.1 s'.1 / dot s.1 s.1) in *. clearbody kk.
    transitivity (mvec (mT r) (vsub (vadd (mvec r s'.2) t) t)).
    + replace (vsub (vadd (mvec r s'.2) t) t) with (mvec r s'.2) by (generalize (mvec r s'.2); clear; vring). rewrite <- mvec_mmul, rotation_l, mvec_I by exact Hr. reflexivity.
    + rewrite Ek, mvec_vsub. rewrite P. rewrite !mvec_scale. generalize (mvec (mT r) s.1), (mvec (mT r) t). clear. vring.
Qed.
Lemma nearest_exact l r t : nonzero l -> (forall s, s ∈ l -> on_line r t s.1 s.2) -> nearest l (r, t) = (fun x => (moved 1 r t x, x)) <$> (snd <$> l).
Proof.
  intros N HL. unfold nearest. rewrite <- list_fmap_compose. apply list_fmap_ext. intros i s Hi. cbn [fst snd compose]. f_equal. assert (s ∈ l) as I by (eapply elem_of_list_lookup_2; eauto). destruct (HL s I) as [k Ek]. unfold compose. rewrite moved_1, mvec_sight, Ek, dot_scale_r.
  replace (k * dot s.1 s.1 / dot s.1 s.1) with k by (field; now apply N). reflexivity.
Qed.
Lemma exact_step svd l r t : (forall m, is_svd_of m (svd m)) -> rotation r -> nonzero l -> (forall s, s ∈ l -> on_line r t s.1 s.2) -> ~ in_a_plane (snd <$> l) -> npoints_rotation svd l (r, t) = r /\ TranslationBetweenPoints l r = Some t.
Proof.
  intros Hs Hr N HL Np. split.
  - change (npoints_rotation svd l (r, t)) with (RotationBetweenPoints svd (nearest l (r, t))). rewrite nearest_exact by done. apply rotation_exact; [done|lra|done|done].
  - destruct (translation_exists l r) as [t' E]; [done|intros ->; apply Np; exists (Vec 1 0 0), 0; split; [intros [=]; lra|intros x Hx; inversion Hx]|apply gram_invertible; [done|now apply (not_parallel_of_points l r t)]|]. rewrite E. f_equal. now apply (translation_exact l r).
Qed.
Lemma exact_loop svd l r t n : (forall m, is_svd_of m (svd m)) -> rotation r -> nonzero l -> (forall s, s ∈ l -> on_line r t s.1 s.2) -> ~ in_a_plane (snd <$> l) -> npoints_loop svd l n (r, t) = Some (r, t).
Proof.
  intros Hs Hr N HL Np. destruct (exact_step svd l r t Hs Hr N HL Np) as [Er Et]. induction n as [|n IH]; [reflexivity|]. cbn [npoints_loop]. rewrite Er, Et. cbn [mbind option_bind fst snd]. destruct (Req_EM_T (norm t) 0) as [Z|Z]; [exact IH|]. destruct (Rlt_dec _ _) as [L|L]; [reflexivity|exact IH].
Qed.
Lemma start_exact svd l r t d : (forall m, is_svd_of m (svd m)) -> rotation r -> 0 < d -> (forall s, s ∈ l -> vadd (mvec r s.2) t = vscale d s.1) -> ~ in_a_plane (snd <$> l) -> npoints_start svd l = Some (r, t).
Proof.
  intros Hs Hr Pd HL Np. assert (l <> []) as Nl by (intros ->; apply Np; exists (Vec 1 0 0), 0; split; [intros [=]; lra|intros x Hx; inversion Hx]).
  assert (l = (fun x => (moved (/ d) r (vscale (/ d) t) x, x)) <$> (snd <$> l)) as El.
  { rewrite <- list_fmap_compose. symmetry. transitivity ((fun x : vec * vec => x) <$> l); [|apply list_fmap_id]. apply list_fmap_ext. intros i s Hi. assert (s ∈ l) as I by (eapply elem_of_list_lookup_2; eauto). unfold compose, moved. rewrite <- vscale_add, (HL s I), vscale_vscale, Rinv_l, vscale_1 by lra. now destruct s. }
  set (X := snd <$> l) in *. clearbody X. subst l. assert (X <> []) as Nx by (intros ->; now apply Nl). unfold npoints_start. rewrite rotation_exact; [|done|now apply Rinv_0_lt_compat|done|done].
  rewrite <- !list_fmap_compose. replace (snd ∘ (fun x => (moved (/ d) r (vscale (/ d) t) x, x)) <$> X) with X by (symmetry; apply list_fmap_id). change (fst ∘ (fun x => (moved (/ d) r (vscale (/ d) t) x, x)) <$> X) with (moved (/ d) r (vscale (/ d) t) <$> X).
  rewrite spread_moved, vmean_moved by done. assert (spread (centred X) <> 0) as Ns.
  { intros E. apply Np. exists (Vec 1 0 0), (dot (Vec 1 0 0) (vmean X)). split; [intros [=]; lra|]. intros x Hx. assert (vadd x (vopp (vmean X)) = v0) as Z.
    { apply dot_0. revert E. unfold spread. assert (vadd x (vopp (vmean X)) ∈ centred X) as I by (unfold centred; apply elem_of_list_fmap; eauto). revert I. generalize (vadd x (vopp (vmean X))), (centred X). clear. intros y P. induction P as [|z P IH]; [set_solver|]. unfold sumR in *. cbn [fmap list_fmap foldr]. intros Hy E.
      assert (0 <= foldr Rplus 0 ((fun p => dot p p) <$> P)) by (clear; induction P as [|w P IH]; cbn; [lra|]; pose proof (dot_nonneg w); unfold fmap in *; lra). pose proof (dot_nonneg z). apply elem_of_cons in Hy as [-> |Hy]; [lra|]. apply IH; [exact Hy|lra]. }
    apply (f_equal (fun v => vadd v (vmean X))) in Z. replace (vadd (vadd x (vopp (vmean X))) (vmean X)) with x in Z by (generalize (vmean X); clear; vring). rewrite Z. f_equal. apply vadd_0_l. }
  assert (/ d <> 0) as Nd by (apply Rinv_neq_0_compat; lra). destruct (Req_EM_T _ 0) as [E|_]; [exfalso; apply Rmult_integral in E as [E|E]; [apply Rmult_integral in E as [E|E]|]; contradiction|]. f_equal. f_equal.
  replace (spread (centred X) / (/ d * / d * spread (centred X))) with (d * d) by (field; lra). rewrite sqrt_square by lra. unfold moved. rewrite <- vscale_add, vscale_vscale, Rinv_r, vscale_1 by lra. generalize (mvec r (vmean X)). clear. vring.
Qed.
(** *** The whole loop *)
Inductive run (svd : svd_of) (l : list (vec * vec)) : mat * vec -> mat * vec -> Prop :=
  | run_here p : run svd l p p
  | run_step r t t' p : TranslationBetweenPoints l (npoints_rotation svd l (r, t)) = Some t' -> run svd l (npoints_rotation svd l (r, t), t') p -> run svd l (r, t) p.
Lemma norm_of_dot v : norm v * norm v = dot v v.
Proof. apply norm_sq. Qed.
Lemma off_le_norm v e : dot v v <> 0 -> off_sight v e <= dot e e.
Proof. intros N. pose proof (off_le v e 0 N) as H. replace (dot (vsub (vscale 0 v) e) (vsub (vscale 0 v) e)) with (dot e e) in H by (unfold dot, vsub, vscale; simpl; ring). exact H. Qed.
Lemma turned_le e l : nonzero l -> turned e l <= INR (length l) * dot e e.
Proof.
  induction l as [|s l IH]; intros N; [cbn; lra|]. cbn [turned length]. rewrite S_INR. pose proof (off_le_norm s.1 e ltac:(apply N; left)). specialize (IH ltac:(intros x Hx; apply N; now right)). lra.
Qed.
Lemma loop_result svd l n p r t : (forall m, is_svd_of m (svd m)) -> rotation p.1 -> (forall q, run svd l p q -> 0 < det (covariance (centred (fst <$> nearest l q)) (centred (snd <$> nearest l q)))) ->
  npoints_loop svd l n p = Some (r, t) -> rotation r /\ sight_error r t l <= sight_error p.1 p.2 l + INR (length l) * (/ 10 ^ 7 * norm t * (/ 10 ^ 7 * norm t)).
Proof.
  intros Hs. set (e7 := / 10 ^ 7). assert (0 < e7) as P7 by (unfold e7; apply Rinv_0_lt_compat, pow_lt; lra). 
  assert (forall m, 0 <= INR (length l) * (e7 * norm m * (e7 * norm m))) as Pos by (intros m; apply Rmult_le_pos; [apply pos_INR|apply Rle_0_sqr]).
  revert p. induction n as [|n IH]; intros [r0 t0] Hr Hd; cbn [npoints_loop fst snd].
  - intros H. apply (inj Some) in H. inversion H. subst. split; [exact Hr|]. pose proof (Pos t). lra.
  - set (r' := npoints_rotation svd l (r0, t0)). destruct (TranslationBetweenPoints l r') as [t'|] eqn:Et; [|discriminate]. cbn [mbind option_bind].
    assert (rotation r') as Hr' by now apply npoints_is_rotation. pose proof (step_decreases svd l r0 t0 r' t' Hs Hr (Hd (r0, t0) ltac:(constructor)) eq_refl Et) as Dec.
    assert (npoints_loop svd l n (r', t') = Some (r, t) -> rotation r /\ sight_error r t l <= sight_error r0 t0 l + INR (length l) * (e7 * norm t * (e7 * norm t))) as Next.
    { intros H. apply IH in H as [H1 H2]; [|exact Hr'|intros q Hq; apply Hd; eapply run_step; eauto]. split; [exact H1|]. cbn [fst snd] in H2. lra. }
    destruct (Req_EM_T (norm t0) 0) as [Z|Z]; [exact Next|]. fold e7. destruct (Rlt_dec (norm (vsub t' t0) / norm t0) e7) as [L|L]; [|exact Next]. intros H. apply (inj Some) in H. inversion H. subst r t. clear H Next. split; [exact Hr'|].
    pose proof (translation_some _ _ _ Et) as (N & _ & _ & G). rewrite (error_expand r' t' t0 l N), G. pose proof (turned_le (vsub t0 t') l N) as T. assert (dot (vsub t0 t') (vsub t0 t') <= e7 * norm t0 * (e7 * norm t0)) as B.
    { assert (0 < norm t0) as Pn by (pose proof (norm_nonneg t0); lra). assert (norm (vsub t' t0) <= e7 * norm t0) as L' by (apply (Rmult_lt_compat_r (norm t0)) in L; [unfold Rdiv in L; rewrite Rmult_assoc, Rinv_l, Rmult_1_r in L by exact Z; lra|exact Pn]).
      replace (dot (vsub t0 t') (vsub t0 t')) with (dot (vsub t' t0) (vsub t' t0)) by (unfold dot, vsub; simpl; ring). rewrite <- norm_of_dot. pose proof (norm_nonneg (vsub t' t0)). apply Rmult_le_compat; lra. }
    pose proof (Rmult_le_compat_l (INR (length l)) _ _ (pos_INR _) B). replace (dot (vsub t0 t') v0) with 0 by (unfold dot; simpl; ring). lra.
Qed.
