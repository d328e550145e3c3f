From stdpp Require Import prelude.
From Coq Require Import Reals Lra Lia Psatz.
From Verif Require Import Base Lin TriangModel TriangSpec.
Local Open Scope R_scope.

Ltac vunfold := cbv [vadd vsub vopp vscale dot cross mvec mmul mT mscale madd mI mzero v0 outer vx vy vz m11 m12 m13 m21 m22 m23 m31 m32 m33].
Ltac vreal := intros; vdestruct; vunfold; ring.
Ltac veq := intros; vdestruct; vunfold; f_equal; ring.
Lemma madd_assoc a b c : madd (madd a b) c = madd a (madd b c). Proof. veq. Qed.
Lemma madd_comm a b : madd a b = madd b a. Proof. veq. Qed.
Lemma madd_0_l a : madd mzero a = a. Proof. veq. Qed.
Lemma mvec_madd a b v : mvec (madd a b) v = vadd (mvec a v) (mvec b v). Proof. veq. Qed.
Lemma mvec_mscale s a v : mvec (mscale s a) v = vscale s (mvec a v). Proof. veq. Qed.
Lemma mvec_outer u v w : mvec (outer u v) w = vscale (dot v w) u. Proof. veq. Qed.
Lemma dot_comm u v : dot u v = dot v u. Proof. vreal. Qed.
Lemma dot_vadd u v w : dot u (vadd v w) = dot u v + dot u w. Proof. vreal. Qed.
Lemma dot_vsub u v w : dot u (vsub v w) = dot u v - dot u w. Proof. vreal. Qed.
Lemma dot_vscale u s v : dot u (vscale s v) = s * dot u v. Proof. vreal. Qed.
Lemma dot_v0 u : dot u v0 = 0. Proof. vreal. Qed.
Lemma lagrange u v : dot (cross u v) (cross u v) = dot u u * dot v v - dot u v * dot u v. Proof. vreal. Qed.
Lemma vsub_0 u v : vsub u v = v0 -> u = v. Proof. intros H. destruct u as [a b c], v as [x y z]. cbv [vsub v0 vx vy vz] in H. injection H as H1 H2 H3. f_equal; lra. Qed.
Lemma vsub_self u : vsub u u = v0. Proof. veq. Qed.

(** ** The sums of the solver *)
Fixpoint msum (f : vec * vec -> mat) (rays : list (vec * vec)) : mat := match rays with [] => mzero | r :: rs => madd (f r) (msum f rs) end.
Fixpoint vsum (f : vec * vec -> vec) (rays : list (vec * vec)) : vec := match rays with [] => v0 | r :: rs => vadd (f r) (vsum f rs) end.
Lemma fold_madd f rays acc : fold_left (fun acc r => madd acc (f r)) rays acc = madd acc (msum f rays).
Proof. revert acc. induction rays as [|r rs IH]; intros acc; cbn; [rewrite madd_comm, madd_0_l; reflexivity|]. rewrite IH, madd_assoc. reflexivity. Qed.
Lemma fold_vadd f rays acc : fold_left (fun acc r => vadd acc (f r)) rays acc = vadd acc (vsum f rays).
Proof. revert acc. induction rays as [|r rs IH]; intros acc; cbn; [rewrite vadd_0_r; reflexivity|]. rewrite IH, vadd_assoc. reflexivity. Qed.
Definition matB rays := msum (fun r => outer r.2 r.2) rays.
Definition vecBA rays := vsum (fun r => mvec (outer r.2 r.2) r.1) rays.
Definition vecA rays := vsum fst rays.
Definition matC rays := madd (mscale (INR (length rays)) mI) (mscale (-1) (matB rays)).
Lemma solve_sums rays : TriangulateBearingsMidpointSolve rays =
  match inverse (matC rays) with
  | None => None
  | Some Cinv => Some (vsub (vscale (/ INR (length rays)) (mvec (madd mI (mmul (matB rays) Cinv)) (vecA rays))) (mvec Cinv (vecBA rays)))
  end.
Proof.
  unfold TriangulateBearingsMidpointSolve, matC, matB, vecBA, vecA. rewrite !fold_madd, !fold_vadd, madd_0_l, !vadd_0_l.
  destruct (inverse _); reflexivity.
Qed.
(** One term: d - (b . d) b *)
Definition rejection (b d : vec) : vec := vsub d (vscale (dot b d) b).
Lemma matC_vec rays e : mvec (matC rays) e = vsum (fun r => rejection r.2 e) rays.
Proof.
  unfold matC, matB. rewrite mvec_madd, !mvec_mscale, mvec_I. induction rays as [|r rs IH]; [cbn [length msum vsum]; rewrite INR_IZR_INZ; cbn [Z.of_nat]; veq|].
  cbn [msum vsum length]. rewrite <- IH, S_INR. rewrite mvec_madd, mvec_outer. unfold rejection. generalize (mvec (msum (fun r => outer r.2 r.2) rs) e) (INR (length rs)). intros w n. veq.
Qed.
Lemma gradient rays X : vsum (fun r => rejection r.2 (vsub X r.1)) rays = vadd (vsub (mvec (matC rays) X) (vecA rays)) (vecBA rays).
Proof.
  rewrite matC_vec. unfold vecA, vecBA. induction rays as [|r rs IH]; cbn [vsum]; [veq|]. rewrite IH, mvec_outer.
  generalize (vsum (λ r, rejection r.2 X) rs) (vsum fst rs) (vsum (λ r, mvec (outer r.2 r.2) r.1) rs). intros. unfold rejection. veq.
Qed.
Lemma inverse_spec m i : inverse m = Some i -> det m <> 0 /\ mmul m i = mI /\ mmul i m = mI.
Proof.
  unfold inverse, minv. destruct (Req_EM_T (det m) 0) as [|N]; [discriminate|]. intros [= <-]. split; [assumption|].
  assert (E1 : forall a b s, mmul a (mscale s b) = mscale s (mmul a b)) by veq. assert (E2 : forall a b s, mmul (mscale s a) b = mscale s (mmul a b)) by veq.
  rewrite E1, E2, adj_l, adj_r. assert (E3 : forall s t, mscale s (mscale t mI) = mscale (s * t) mI) by veq. rewrite E3, Rinv_l by assumption. split; veq.
Qed.
Lemma solve_gradient rays X : rays <> [] -> TriangulateBearingsMidpointSolve rays = Some X -> vsum (fun r => rejection r.2 (vsub X r.1)) rays = v0.
Proof.
  intros Hn H. rewrite solve_sums in H. destruct (inverse (matC rays)) as [Ci|] eqn:E; [|discriminate]. injection H as <-.
  destruct (inverse_spec _ _ E) as (_ & E1 & _). rewrite gradient.
  assert (HC : forall s u v, mvec (matC rays) (vsub (vscale s u) v) = vsub (vscale s (mvec (matC rays) u)) (mvec (matC rays) v)) by veq. rewrite HC, <- !mvec_mmul.
  assert (E2 : mmul (matC rays) (madd mI (mmul (matB rays) Ci)) = mscale (INR (length rays)) mI).
  { assert (E3 : mmul (matC rays) (matB rays) = mmul (matB rays) (matC rays)) by (unfold matC; veq).
    assert (E4 : forall a b c, mmul a (madd b c) = madd (mmul a b) (mmul a c)) by veq. rewrite E4, mmul_I_r, mmul_assoc, E3, <- mmul_assoc, E1, mmul_I_r. unfold matC. veq. }
  rewrite E2, E1, mvec_I, mvec_mscale, mvec_I, vscale_vscale.
  assert (Hp : INR (length rays) <> 0) by (apply not_0_INR; destruct rays; [congruence|discriminate]). rewrite Rinv_l, vscale_1 by assumption. veq.
Qed.

(** ** Costs *)
Definition off_line (r : vec * vec) (Y : vec) : R := let d := vsub Y r.1 in dot d d - dot r.2 d * dot r.2 d.
Fixpoint cost (rays : list (vec * vec)) (Y : vec) : R := match rays with [] => 0 | r :: rs => off_line r Y + cost rs Y end.
Lemma norm1_dot v : norm v = 1 -> dot v v = 1.
Proof. intros H. rewrite <- norm_sq, H. ring. Qed.
Lemma sqdist_line r Y t : norm r.2 = 1 -> sqdist Y (on_line r t) = off_line r Y + (t - dot r.2 (vsub Y r.1)) ^ 2.
Proof.
  intros H. apply norm1_dot in H. unfold sqdist, on_line, off_line. destruct r as [c b]. cbn [fst snd] in *.
  transitivity (dot (vsub Y c) (vsub Y c) - 2 * t * dot b (vsub Y c) + t ^ 2 * dot b b); [vreal|]. rewrite H. ring.
Qed.
Lemma total_ge_cost rays ss Y : unit_rays rays -> length ss = length rays -> cost rays Y <= total rays ss Y.
Proof.
  revert ss. induction rays as [|r rs IH]; intros ss Hu Hl; destruct ss as [|t ss]; try discriminate; cbn; [lra|].
  rewrite sqdist_line by (apply Hu; now left). pose proof (pow2_ge_0 (t - dot r.2 (vsub Y r.1))). specialize (IH ss ltac:(intros q Hq; apply Hu; now right) ltac:(cbn in Hl; lia)). lra.
Qed.
Lemma total_cost rays Y : unit_rays rays -> total rays (map (fun r => dot r.2 (vsub Y r.1)) rays) Y = cost rays Y.
Proof.
  induction rays as [|r rs IH]; intros Hu; cbn; [reflexivity|]. rewrite sqdist_line by (apply Hu; now left). rewrite IH by (intros q Hq; apply Hu; now right).
  replace (dot r.2 (vsub Y r.1) - dot r.2 (vsub Y r.1)) with 0 by ring. ring.
Qed.
Fixpoint quad (rays : list (vec * vec)) (e : vec) : R := match rays with [] => 0 | r :: rs => dot (cross e r.2) (cross e r.2) + quad rs e end.
Lemma quad_nonneg rays e : 0 <= quad rays e.
Proof. induction rays as [|r rs IH]; cbn; [lra|]. pose proof (dot_nonneg (cross e r.2)). lra. Qed.
Lemma quad_zero rays e r : quad rays e = 0 -> In r rays -> cross e r.2 = v0.
Proof.
  induction rays as [|q rs IH]; cbn; intros H Hr; [contradiction|]. pose proof (dot_nonneg (cross e q.2)). pose proof (quad_nonneg rs e).
  destruct Hr as [->|Hr]; [apply dot_0; lra|apply IH; [lra|assumption]].
Qed.
Lemma cost_expand rays X Y : unit_rays rays -> cost rays Y = cost rays X + quad rays (vsub Y X) + 2 * dot (vsub Y X) (vsum (fun r => rejection r.2 (vsub X r.1)) rays).
Proof.
  induction rays as [|r rs IH]; intros Hu; cbn [cost quad vsum]; [rewrite dot_v0; ring|]. rewrite IH by (intros q Hq; apply Hu; now right). rewrite dot_vadd, lagrange.
  pose proof (norm1_dot _ (Hu r (or_introl eq_refl))) as E. rewrite E. unfold off_line, rejection. destruct r as [c b]. cbn [fst snd] in *. clear. vdestruct. vunfold. ring.
Qed.
Lemma quad_matC rays e : unit_rays rays -> quad rays e = dot e (mvec (matC rays) e).
Proof.
  intros Hu. rewrite matC_vec. induction rays as [|r rs IH]; cbn [quad vsum]; [rewrite dot_v0; reflexivity|]. rewrite IH by (intros q Hq; apply Hu; now right).
  rewrite dot_vadd, lagrange, (norm1_dot _ (Hu r (or_introl eq_refl))). unfold rejection. rewrite dot_vsub, dot_vscale, (dot_comm r.2 e). ring.
Qed.
Lemma quad_kernel rays e : unit_rays rays -> quad rays e = 0 -> mvec (matC rays) e = v0.
Proof.
  intros Hu H. rewrite matC_vec. induction rays as [|r rs IH]; cbn [vsum]; [reflexivity|]. cbn in H. pose proof (dot_nonneg (cross e r.2)). pose proof (quad_nonneg rs e).
  rewrite IH by (try lra; intros q Hq; apply Hu; now right). rewrite vadd_0_r.
  assert (E : cross e r.2 = v0) by (apply dot_0; lra). pose proof (norm1_dot _ (Hu r (or_introl eq_refl))) as N. unfold rejection.
  assert (D : dot (vsub e (vscale (dot r.2 e) r.2)) (vsub e (vscale (dot r.2 e) r.2)) = 0); [|apply dot_0, D].
  transitivity (dot e e - 2 * (dot e r.2 * dot e r.2) + dot e r.2 * dot e r.2 * dot r.2 r.2); [destruct r; cbn [fst snd]; clear; vreal|]. 
  pose proof (lagrange e r.2) as L. rewrite E, dot_v0 in L. rewrite N in *. lra.
Qed.
(** A symmetric positive definite matrix is invertible *)
Lemma definite_det m : mT m = m -> (forall e, e <> v0 -> 0 < dot e (mvec m e)) -> det m <> 0.
Proof.
  intros Hs Hp D. destruct m as [a b c b' d e c' e' f]. cbv [mT m11 m12 m13 m21 m22 m23 m31 m32 m33] in Hs. injection Hs as E1 E2 E3. subst b' c' e'.
  assert (Ha : 0 < a). { specialize (Hp (Vec 1 0 0) ltac:(intros [=]; lra)). cbv [dot mvec vx vy vz m11 m12 m13 m21 m22 m23 m31 m32 m33] in Hp. lra. }
  assert (Hm : 0 < a * d - b * b).
  { specialize (Hp (Vec (- b) a 0) ltac:(intros [=]; lra)). cbv [dot mvec vx vy vz m11 m12 m13 m21 m22 m23 m31 m32 m33] in Hp. nra. }
  specialize (Hp (Vec (b * e - c * d) (b * c - a * e) (a * d - b * b)) ltac:(intros [=]; lra)).
  cbv [dot mvec det vx vy vz m11 m12 m13 m21 m22 m23 m31 m32 m33] in *. 
  assert (E : (b * e - c * d) * (a * (b * e - c * d) + b * (b * c - a * e) + c * (a * d - b * b)) + (b * c - a * e) * (b * (b * e - c * d) + d * (b * c - a * e) + e * (a * d - b * b)) +
     (a * d - b * b) * (c * (b * e - c * d) + e * (b * c - a * e) + f * (a * d - b * b)) = (a * d - b * b) * (a * (d * f - e * e) - b * (b * f - e * c) + c * (b * e - d * c))) by ring.
  rewrite E, D in Hp. lra.
Qed.
Lemma matC_symmetric rays : mT (matC rays) = matC rays.
Proof.
  unfold matC. assert (H : mT (matB rays) = matB rays). { unfold matB. induction rays as [|r rs IH]; [veq|]. cbn [msum]. transitivity (madd (mT (outer r.2 r.2)) (mT (msum (fun r => outer r.2 r.2) rs))); [veq|]. rewrite IH. f_equal. destruct r. cbn [fst snd]. veq. }
  transitivity (madd (mscale (INR (length rays)) mI) (mscale (-1) (mT (matB rays)))); [veq|]. now rewrite H.
Qed.
