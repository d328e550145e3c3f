(** C48. Triangulation. *)
From stdpp Require Import prelude.
From Coq Require Import Reals Lra Lia Psatz.
From Verif Require Import Base Lin TriangModel TriangSpec TriangProofs.
Local Open Scope R_scope.

Lemma definite rays e : unit_rays rays -> not_all_parallel rays -> e <> v0 -> 0 < quad rays e.
Proof.
  intros Hu (r & r' & Hr & Hr' & Hc) He. destruct (quad_nonneg rays e) as [|E]; [assumption|]. exfalso. symmetry in E.
  pose proof (quad_zero _ _ _ E Hr) as E1. pose proof (quad_zero _ _ _ E Hr') as E2. 
  pose proof (norm1_dot _ (Hu _ Hr)) as N1. pose proof (norm1_dot _ (Hu _ Hr')) as N2.
  assert (forall b, dot b b = 1 -> cross e b = v0 -> e = vscale (dot b e) b) as P.
  { intros b Nb Cb. apply vsub_0, dot_0. transitivity (dot e e - 2 * (dot e b * dot e b) + dot e b * dot e b * dot b b); [vreal|]. pose proof (lagrange e b) as L. rewrite Cb, dot_v0, Nb in L. rewrite Nb. lra. }
  pose proof (P _ N1 E1) as F1. pose proof (P _ N2 E2) as F2. apply Hc.
  assert (Hne : dot r.2 e <> 0) by (intros Z; rewrite Z in F1; apply He; rewrite F1; veq).
  assert (G : vscale (dot r.2 e) (cross r.2 r'.2) = v0). { transitivity (cross (vscale (dot r.2 e) r.2) r'.2); [destruct r, r'; cbn [fst snd]; veq|]. rewrite <- F1. exact E2. }
  transitivity (vscale (/ dot r.2 e) (vscale (dot r.2 e) (cross r.2 r'.2))); [rewrite vscale_vscale, Rinv_l, vscale_1 by assumption; reflexivity|]. rewrite G. veq.
Qed.
(** The point triangulated is the only one that minimises the sum of the squared distances to the lines. *)
Theorem C48_midpoint_minimises rays X : unit_rays rays -> rays <> [] -> TriangulateBearingsMidpointSolve rays = Some X ->
  exists ts, length ts = length rays /\
  forall Y ss, length ss = length rays -> total rays ts X <= total rays ss Y /\ (total rays ss Y <= total rays ts X -> Y = X).
Proof.
  intros Hu Hn H. exists (map (fun r => dot r.2 (vsub X r.1)) rays). split; [apply map_length|]. intros Y ss Hl. rewrite total_cost by assumption.
  pose proof (total_ge_cost rays ss Y Hu Hl) as G. pose proof (cost_expand rays X Y Hu) as E. rewrite (solve_gradient rays X Hn H), dot_v0 in E. pose proof (quad_nonneg rays (vsub Y X)).
  split; [lra|]. intros L. assert (Q : quad rays (vsub Y X) = 0) by lra. apply quad_kernel in Q; [|assumption].
  rewrite solve_sums in H. destruct (inverse (matC rays)) as [Ci|] eqn:EI; [|discriminate]. destruct (inverse_spec _ _ EI) as (_ & _ & E1).
  apply vsub_0. rewrite <- (mvec_I (vsub Y X)), <- E1, mvec_mmul, Q. apply mvec_0.
Qed.
Lemma classic_parallel r rs : not_all_parallel (r :: rs) \/ quad (r :: rs) r.2 = 0.
Proof.
  assert (H : (exists r', In r' (r :: rs) /\ cross r.2 r'.2 <> v0) \/ quad (r :: rs) r.2 = 0).
  { generalize (r :: rs). intros l. induction l as [|q l [(r' & H1 & H2)|IH]]; [now right|left; exists r'; split; [now right|assumption]|].
    cbn [quad]. rewrite IH. destruct (Req_EM_T (dot (cross r.2 q.2) (cross r.2 q.2)) 0) as [E|N]; [right; lra|left].
    exists q. split; [now left|]. intros E. apply N. rewrite E. apply dot_v0. }
  destruct H as [(r' & H1 & H2)|H]; [left; exists r, r'; split; [now left|auto]|now right].
Qed.
(** It is defined exactly when the bearings are not all parallel. *)
Theorem C48_midpoint_defined rays : unit_rays rays -> (exists X, TriangulateBearingsMidpointSolve rays = Some X) <-> not_all_parallel rays.
Proof.
  intros Hu. rewrite solve_sums. unfold inverse. destruct (Req_EM_T (det (matC rays)) 0) as [D|D]; split; intros H.
  - destruct H as [X H]; discriminate.
  - exfalso. revert D. apply definite_det; [apply matC_symmetric|]. intros e He. rewrite <- quad_matC by assumption. now apply definite.
  - destruct rays as [|r rs]; [exfalso; apply D; cbv [matC matB msum length]; cbn [INR]; vunfold; cbv [det m11 m12 m13 m21 m22 m23 m31 m32 m33]; ring|].
    destruct (classic_parallel r rs) as [P|P]; [exact P|]. exfalso. apply D.
    pose proof (norm1_dot _ (Hu r (or_introl eq_refl))) as N. set (m := matC (r :: rs)) in *.
    assert (K : mvec m r.2 = v0). { apply quad_kernel; [assumption|]. apply P. }
    assert (E : vscale (det m) r.2 = v0). { rewrite <- (mvec_I r.2), <- mvec_mscale, <- adj_l, mvec_mmul, K. apply mvec_0. }
    replace (det m) with (dot (vscale (det m) r.2) r.2) by (rewrite dot_comm, dot_vscale, N; ring). rewrite E, dot_comm. apply dot_v0.
  - eexists. reflexivity.
Qed.
Lemma total_nonneg rays ts Y : 0 <= total rays ts Y.
Proof. revert ts. induction rays as [|r rs IH]; intros [|t ts]; cbn; try lra. specialize (IH ts). pose proof (dot_nonneg (vsub Y (on_line r t))). unfold sqdist. lra. Qed.
(** Perfect observations: the common point of the lines. *)
Theorem C48_midpoint_exact rays P : unit_rays rays -> not_all_parallel rays -> (forall r, In r rays -> exists t, P = on_line r t) ->
  TriangulateBearingsMidpointSolve rays = Some P.
Proof.
  intros Hu Hp Hl. destruct (proj2 (C48_midpoint_defined rays Hu) Hp) as [X HX]. rewrite HX. f_equal.
  destruct (C48_midpoint_minimises rays X Hu ltac:(destruct Hp as (r & _ & Hr & _); intros ->; contradiction) HX) as (ts & _ & H).
  assert (HS : exists ss, length ss = length rays /\ total rays ss P = 0).
  { clear - Hl. induction rays as [|r rs IH]; [exists []; auto|]. destruct IH as (ss & E1 & E2); [intros q Hq; apply Hl; now right|].
    destruct (Hl r (or_introl eq_refl)) as [t Ht]. exists (t :: ss). split; [cbn; congruence|]. cbn. rewrite E2, <- Ht. unfold sqdist. rewrite vsub_self, dot_v0. lra. }
  destruct HS as (ss & E1 & E2). destruct (H P ss E1) as [_ G]. symmetry. apply G. rewrite E2. apply total_nonneg.
Qed.

(** Angles *)
Lemma norm_product u v : sqrt (dot u u * dot v v) = norm u * norm v.
Proof. apply sqrt_mult; apply dot_nonneg. Qed.
Lemma dot_bound u v : - (norm u * norm v) <= dot u v <= norm u * norm v.
Proof.
  assert (H : Rabs (dot u v) <= norm u * norm v); [|unfold Rabs in H; destruct (Rcase_abs _); lra].
  apply Rsqr_incr_0_var; [|apply Rmult_le_pos; apply norm_nonneg]. rewrite <- Rsqr_abs. unfold Rsqr. pose proof (lagrange u v) as L. pose proof (dot_nonneg (cross u v)).
  replace (norm u * norm v * (norm u * norm v)) with (norm u * norm u * (norm v * norm v)) by ring. rewrite !norm_sq. lra.
Qed.
Lemma cosine_bound u v : 0 < norm u -> 0 < norm v -> -1 <= dot u v / (norm u * norm v) <= 1.
Proof.
  intros Hu Hv. pose proof (dot_bound u v). assert (0 < norm u * norm v) by now apply Rmult_lt_0_compat.
  split; apply Rmult_le_reg_r with (norm u * norm v); try assumption; unfold Rdiv; rewrite Rmult_assoc, Rinv_l by lra; lra.
Qed.
Lemma angle_computed u v : 0 < norm u -> 0 < norm v -> - (norm u * norm v) < dot u v -> AngleBetweenVectors u v = Some (angle u v).
Proof.
  intros Hu Hv Hd. unfold AngleBetweenVectors, angle. rewrite norm_product. assert (Hp : 0 < norm u * norm v) by now apply Rmult_lt_0_compat.
  destruct (Req_EM_T _ _) as [E|_]; [lra|]. pose proof (cosine_bound u v Hu Hv) as B. set (c := dot u v / (norm u * norm v)) in *.
  assert (-1 < c). { unfold c. apply Rmult_lt_reg_r with (norm u * norm v); [assumption|]. unfold Rdiv. rewrite Rmult_assoc, Rinv_l by lra. lra. }
  destruct (Rle_dec 1 (Rabs c)) as [L|N]; [|reflexivity]. assert (c = 1) by (unfold Rabs in L; destruct (Rcase_abs c); lra). rewrite H0, acos_1. reflexivity.
Qed.
(** The angle of opposite vectors is said to be 0. *)
Theorem C48_opposite_refuted v : 0 < norm v -> AngleBetweenVectors v (vopp v) = Some 0 /\ angle v (vopp v) = PI.
Proof.
  intros Hv. assert (E : norm (vopp v) = norm v) by (unfold norm; f_equal; vreal). assert (D : dot v (vopp v) = - (norm v * norm v)) by (rewrite norm_sq; vreal).
  assert (C : dot v (vopp v) / (norm v * norm (vopp v)) = -1) by (rewrite D, E; field; lra).
  split; [|unfold angle; rewrite C; replace (-1) with (- (1)) by ring; rewrite acos_opp, acos_1; ring].
  unfold AngleBetweenVectors. rewrite norm_product, C. destruct (Req_EM_T _ _) as [Z|_]; [rewrite E in Z; nra|]. destruct (Rle_dec 1 (Rabs (-1))) as [_|N]; [reflexivity|]. rewrite Rabs_left in N by lra. lra.
Qed.

Lemma angle_ok_spec min_angle before vs : angle_ok min_angle before vs = true -> exists v w a, (In v vs) /\ In w (before ++ vs) /\ AngleBetweenVectors v w = Some a /\ min_angle <= a <= PI - min_angle.
Proof.
  revert before. induction vs as [|v vs IH]; intros before; cbn; [discriminate|]. rewrite orb_true_iff. intros [H|H].
  - apply existsb_exists in H as (w & Hw & H). apply andb_true_iff in H as [H1 H2]. exists v, w. unfold ge_opt, le_opt in *. destruct (AngleBetweenVectors v w) as [a|]; [|discriminate].
    exists a. destruct (Rle_dec _ _); [|discriminate]. destruct (Rle_dec _ _); [|discriminate]. split; [now left|]. split; [apply in_or_app; now left|]. auto.
  - destruct (IH _ H) as (x & w & a & Hx & Hw & E & B). exists x, w, a. split; [now right|]. split; [|auto]. rewrite <- app_assoc in Hw. exact Hw.
Qed.
Lemma angle_ok_complete min_angle before vs i j v w a : vs !! i = Some v -> (before ++ vs) !! j = Some w -> (j < length before + i)%nat ->
  AngleBetweenVectors v w = Some a -> min_angle <= a <= PI - min_angle -> angle_ok min_angle before vs = true.
Proof.
  revert before i. induction vs as [|u vs IH]; intros before i Hi Hj Hlt E B; [rewrite lookup_nil in Hi; discriminate|]. cbn. destruct i as [|i].
  - cbn in Hi. injection Hi as ->. apply orb_true_iff. left. apply existsb_exists. exists w. split.
    + rewrite lookup_app_l in Hj by lia. apply elem_of_list_In. eapply elem_of_list_lookup_2. exact Hj.
    + unfold ge_opt, le_opt. rewrite E. destruct (Rle_dec _ _); [|lra]. destruct (Rle_dec _ _); [reflexivity|lra].
  - apply orb_true_iff. right. cbn in Hi. apply (IH (before ++ [u]) i Hi); [rewrite <- app_assoc; exact Hj|rewrite app_length; cbn; lia|assumption|assumption].
Qed.
Lemma angle_sym u v : AngleBetweenVectors u v = AngleBetweenVectors v u.
Proof. unfold AngleBetweenVectors. rewrite (dot_comm u v), (Rmult_comm (dot u u)). reflexivity. Qed.
Lemma angle_nonparallel u v a : 0 < a -> AngleBetweenVectors u v = Some a -> cross u v <> v0.
Proof.
  intros Ha H C. pose proof (lagrange u v) as L. rewrite C, dot_v0 in L. unfold AngleBetweenVectors in H. rewrite norm_product in H. destruct (Req_EM_T _ _) as [|N]; [discriminate|].
  pose proof (norm_nonneg u). pose proof (norm_nonneg v). assert (Hp : 0 < norm u * norm v) by (assert (0 <= norm u * norm v) by (apply Rmult_le_pos; assumption); lra).
  assert (E : Rabs (dot u v / (norm u * norm v)) = 1).
  { unfold Rdiv. rewrite Rabs_mult, (Rabs_right (/ _)) by (apply Rle_ge, Rlt_le, Rinv_0_lt_compat; assumption).
    assert (Rabs (dot u v) = norm u * norm v); [|rewrite H2; apply Rinv_r; lra].
    apply Rsqr_inj; [apply Rabs_pos|lra|]. rewrite <- Rsqr_abs. unfold Rsqr. replace (norm u * norm v * (norm u * norm v)) with (norm u * norm u * (norm v * norm v)) by ring. rewrite !norm_sq. lra. }
  rewrite E in H. destruct (Rle_dec 1 1); [|lra]. injection H as <-. lra.
Qed.

Lemma in_zip_l {A B} (l : list A) (m : list B) a b : In (a, b) (zip l m) -> In a l.
Proof. revert m. induction l as [|x l IH]; intros [|y m]; cbn; try tauto. intros [[= -> ->]|H]; [now left|right; eapply IH, H]. Qed.
Lemma in_zip_r {A B} (l : list A) (m : list B) a b : In (a, b) (zip l m) -> In b m.
Proof. revert m. induction l as [|x l IH]; intros [|y m]; cbn; try tauto. intros [[= -> ->]|H]; [now left|right; eapply IH, H]. Qed.
(** What is accepted: a point that is a number, in front of every camera at the depth asked, within the angles asked of every ray, seen
    under the angle asked by two rays. *)
Theorem C48_triangulate_sound rays thresholds min_angle min_depth X : unit_rays rays -> 0 < min_angle -> 0 < min_depth ->
  TriangulateBearingsMidpoint rays thresholds min_angle min_depth = Some X ->
  exists P, X = Some P /\ TriangulateBearingsMidpointSolve rays = Some P /\
  (forall i r threshold, rays !! i = Some r -> thresholds !! i = Some threshold -> min_depth <= dot (vsub P r.1) r.2 /\ angle (vsub P r.1) r.2 <= threshold) /\
  (length rays <= length thresholds)%nat /\
  exists r r', In r rays /\ In r' rays /\ min_angle <= angle r.2 r'.2 <= PI - min_angle.
Proof.
  intros Hu Ha Hd. unfold TriangulateBearingsMidpoint. destruct (decide _) as [|Hlen]; [discriminate|]. destruct (angle_ok _ _ _) eqn:EA; [|discriminate]. cbn [negb].
  destruct (existsb _ _) eqn:EB; [discriminate|]. intros [= <-].
  destruct (angle_ok_spec _ _ _ EA) as (v & w & a & Hv & Hw & E & B). cbn [app] in Hw. apply in_map_iff in Hv as (r & <- & Hr). apply in_map_iff in Hw as (r' & <- & Hr').
  assert (Hc : cross r.2 r'.2 <> v0) by (apply (angle_nonparallel _ _ a); [lra|assumption]).
  destruct (proj2 (C48_midpoint_defined rays Hu) ltac:(exists r, r'; auto)) as [P HP]. exists P. split; [exact HP|]. split; [exact HP|]. split; [|split; [lia|]].
  - intros i q threshold Hq Ht. rewrite HP in EB.
    assert (HB : bad_ray min_depth (Some P) (q, threshold) = false).
    { destruct (bad_ray min_depth (Some P) (q, threshold)) eqn:F; [|reflexivity]. exfalso. rewrite <- not_true_iff_false in EB. apply EB. apply existsb_exists. exists (q, threshold). split; [|exact F].
      apply elem_of_list_In. apply (elem_of_list_lookup_2 _ i). apply lookup_zip_with_Some. exists q, threshold. auto. }
    cbn in HB. apply orb_false_iff in HB as [HB1 HB2]. destruct (Rlt_dec (dot (vsub P q.1) q.2) min_depth) as [|N]; [discriminate|].
    assert (Hdep : min_depth <= dot (vsub P q.1) q.2) by lra. split; [exact Hdep|].
    assert (Hq1 : norm q.2 = 1) by (apply Hu, elem_of_list_In; eapply elem_of_list_lookup_2; exact Hq).
    assert (HnP : 0 < norm (vsub P q.1)). { destruct (norm_nonneg (vsub P q.1)) as [|Z]; [assumption|]. exfalso. symmetry in Z. apply norm_0 in Z. rewrite Z, dot_comm, dot_v0 in Hdep. lra. }
    rewrite angle_computed in HB1 by (try assumption; rewrite Hq1; lra). cbn in HB1. destruct (Rlt_dec _ _); [discriminate|]. lra.
  - exists r, r'. split; [assumption|]. split; [assumption|].
    assert (N1 : norm r.2 = 1) by (apply Hu; assumption). assert (N2 : norm r'.2 = 1) by (apply Hu; assumption).
    destruct (Rlt_dec (- (norm r.2 * norm r'.2)) (dot r.2 r'.2)) as [L|N].
    + rewrite angle_computed in E by (try assumption; lra). injection E as ->. exact B.
    + exfalso. apply Hc, dot_0. rewrite lagrange. rewrite !norm1_dot by assumption. pose proof (dot_bound r.2 r'.2). rewrite N1, N2 in *. assert (dot r.2 r'.2 = -1) by lra. rewrite H0. ring.
Qed.
(** What is found: the point seen by all the rays, when two of them make the angle asked and it is at the depth asked. *)
Theorem C48_triangulate_complete rays thresholds min_angle min_depth P : unit_rays rays -> 0 < min_angle ->
  (length rays <= length thresholds)%nat -> (forall t, In t thresholds -> 0 <= t) ->
  (forall r, In r rays -> exists d, min_depth <= d /\ sees r d P) ->
  (exists r r', In r rays /\ In r' rays /\ min_angle <= angle r.2 r'.2 <= PI - min_angle) ->
  TriangulateBearingsMidpoint rays thresholds min_angle min_depth = Some (Some P).
Proof.
  intros Hu Ha Hlen Ht Hs (r & r' & Hr & Hr' & B). unfold TriangulateBearingsMidpoint. destruct (decide _); [lia|].
  assert (N1 : norm r.2 = 1) by (apply Hu; assumption). assert (N2 : norm r'.2 = 1) by (apply Hu; assumption).
  assert (L : - (norm r.2 * norm r'.2) < dot r.2 r'.2).
  { rewrite N1, N2. destruct (Rlt_dec (- (1 * 1)) (dot r.2 r'.2)) as [|N]; [assumption|]. exfalso. pose proof (dot_bound r.2 r'.2) as D. rewrite N1, N2 in D.
    unfold angle in B. rewrite N1, N2 in B. replace (dot r.2 r'.2 / (1 * 1)) with (- (1)) in B by (assert (dot r.2 r'.2 = -1) by lra; rewrite H; field). rewrite acos_opp, acos_1 in B. lra. }
  assert (E : AngleBetweenVectors r.2 r'.2 = Some (angle r.2 r'.2)) by (apply angle_computed; try assumption; lra).
  assert (Hc : cross r.2 r'.2 <> v0) by (apply (angle_nonparallel _ _ (angle r.2 r'.2)); [lra|exact E]).
  assert (EA : angle_ok min_angle [] (map snd rays) = true).
  { apply elem_of_list_In, elem_of_list_lookup_1 in Hr as [i Hi]. apply elem_of_list_In, elem_of_list_lookup_1 in Hr' as [j Hj].
    assert (Hne : i <> j). { intros ->. rewrite Hi in Hj. injection Hj as ->. apply Hc. veq. }
    assert (Li : map snd rays !! i = Some r.2) by (rewrite list_lookup_fmap, Hi; reflexivity). assert (Lj : map snd rays !! j = Some r'.2) by (rewrite list_lookup_fmap, Hj; reflexivity).
    destruct (decide (j < i)%nat).
    - eapply (angle_ok_complete _ [] _ i j); [exact Li|exact Lj|cbn; lia|exact E|exact B].
    - eapply (angle_ok_complete _ [] _ j i); [exact Lj|exact Li|cbn; lia|rewrite angle_sym; exact E|exact B]. }
  rewrite EA. cbn [negb]. rewrite (C48_midpoint_exact rays P Hu ltac:(exists r, r'; auto)) by (intros q Hq; destruct (Hs q Hq) as (d & _ & _ & ->); eauto).
  destruct (existsb _ _) eqn:EB; [|reflexivity]. exfalso. apply existsb_exists in EB as ([q th] & Hq & HB).
  assert (Hq1 : In q rays) by (eapply in_zip_l; exact Hq). assert (Ht1 : In th thresholds) by (eapply in_zip_r; exact Hq).
  destruct (Hs q Hq1) as (d & Hd & Hd0 & HP). pose proof (Hu q Hq1) as Nq. pose proof (norm1_dot _ Nq) as Dq. cbn in HB.
  assert (Ev : vsub P q.1 = vscale d q.2) by (rewrite HP; unfold on_line; veq). rewrite Ev in HB.
  assert (D1 : dot (vscale d q.2) q.2 = d) by (rewrite dot_comm, dot_vscale, Dq; ring). rewrite D1 in HB.
  assert (NE : norm (vscale d q.2) = d). { unfold norm. rewrite dot_vscale, dot_comm, dot_vscale, Dq. replace (d * (d * 1)) with (d * d) by ring. apply sqrt_square. lra. }
  rewrite angle_computed in HB by (rewrite ?NE, ?Nq, ?D1; lra). unfold angle in HB. rewrite NE, Nq, D1 in HB. replace (d / (d * 1)) with 1 in HB by (field; lra). rewrite acos_1 in HB.
  cbn in HB. apply orb_true_iff in HB as [HB|HB]; [destruct (Rlt_dec th 0); [pose proof (Ht th Ht1); lra|discriminate]|destruct (Rlt_dec d min_depth); [lra|discriminate]].
Qed.
(** With no minimum angle, rays all parallel are accepted, and the point is not a number. *)
Theorem C48_zero_min_angle_refuted r r' rays thresholds min_depth : unit_rays (r :: r' :: rays) -> (forall q, In q (r :: r' :: rays) -> q.2 = r.2) ->
  (length (r :: r' :: rays) <= length thresholds)%nat ->
  TriangulateBearingsMidpoint (r :: r' :: rays) thresholds 0 min_depth = Some None.
Proof.
  intros Hu Hp Hl. set (l := r :: r' :: rays) in *. assert (HN : TriangulateBearingsMidpointSolve l = None).
  { destruct (TriangulateBearingsMidpointSolve l) as [X|] eqn:E; [|reflexivity]. exfalso. destruct (proj1 (C48_midpoint_defined l Hu) ltac:(eauto)) as (q & q' & Hq & Hq' & C).
    apply C. rewrite (Hp q Hq), (Hp q' Hq'). veq. }
  unfold TriangulateBearingsMidpoint. destruct (decide _); [lia|]. assert (EA : angle_ok 0 [] (map snd l) = true).
  { pose proof PI_RGT_0 as HPI. pose proof (norm1_dot _ (Hu r (or_introl eq_refl))) as D.
    apply (angle_ok_complete 0 [] _ 1%nat 0%nat r'.2 r.2 0); [reflexivity|reflexivity|cbn; lia| |lra].
    rewrite (Hp r') by (right; now left). unfold AngleBetweenVectors. rewrite D, Rmult_1_r, sqrt_1. destruct (Req_EM_T 1 0); [lra|].
    destruct (Rle_dec 1 (Rabs (1 / 1))) as [_|N]; [reflexivity|]. exfalso. apply N. rewrite Rabs_right; lra. }
  rewrite EA, HN. cbn [negb]. destruct (existsb _ _) eqn:EB; [|reflexivity]. apply existsb_exists in EB as (q & _ & B). discriminate.
Qed.

(** ** Two views *)
Lemma two_det (r1 r2 : vec * vec) : dot r1.2 r1.2 * (- dot r2.2 r2.2) - (- dot r1.2 r2.2) * dot r1.2 r2.2 = - dot (cross r1.2 r2.2) (cross r1.2 r2.2).
Proof. rewrite lagrange. ring. Qed.
(** Defined exactly when the bearings are not (nearly) parallel: the square of the sine of their angle is at least 1e-10. *)
Theorem C48_two_views_defined r1 r2 : (exists X, TriangulateTwoBearingsMidpointSolve r1 r2 = Some X) <-> / 10 ^ 10 <= dot (cross r1.2 r2.2) (cross r1.2 r2.2).
Proof.
  unfold TriangulateTwoBearingsMidpointSolve. cbv zeta. rewrite two_det. pose proof (dot_nonneg (cross r1.2 r2.2)). assert (0 < / 10 ^ 10) by (apply Rinv_0_lt_compat; lra).
  destruct (Rlt_dec _ _); [destruct (Rlt_dec _ _)|]; split; intros H'; eauto; try (destruct H'; discriminate); lra.
Qed.
(** It is the middle of the segment perpendicular to both lines. *)
Theorem C48_two_views_midpoint r1 r2 X : TriangulateTwoBearingsMidpointSolve r1 r2 = Some X ->
  exists s t, X = vscale (/ 2) (vadd (on_line r1 s) (on_line r2 t)) /\
  dot (vsub (on_line r1 s) (on_line r2 t)) r1.2 = 0 /\ dot (vsub (on_line r1 s) (on_line r2 t)) r2.2 = 0.
Proof.
  intros H. assert (HD : / 10 ^ 10 <= dot (cross r1.2 r2.2) (cross r1.2 r2.2)) by (apply C48_two_views_defined; eauto). assert (0 < / 10 ^ 10) by (apply Rinv_0_lt_compat; lra).
  assert (Hne : - dot (cross r1.2 r2.2) (cross r1.2 r2.2) <> 0) by lra. rewrite <- two_det in Hne.
  unfold TriangulateTwoBearingsMidpointSolve in H. cbv zeta in H. set (d := dot r1.2 r1.2 * - dot r2.2 r2.2 - - dot r1.2 r2.2 * dot r1.2 r2.2) in *.
  set (l0 := (_ - _) / d) in H. set (l1 := (_ - _) / d) in H. exists l0, l1.
  assert (HX : X = vscale (/ 2) (vadd (on_line r1 l0) (on_line r2 l1))) by (destruct (Rlt_dec _ _); [destruct (Rlt_dec _ _); [discriminate|]|]; now injection H).
  split; [exact HX|].
  assert (E1 : forall b, dot (vsub (on_line r1 l0) (on_line r2 l1)) b = l0 * dot r1.2 b - l1 * dot r2.2 b - dot (vsub r2.1 r1.1) b).
  { intros b. unfold on_line. destruct r1 as [[x1 y1 z1] [u1 v1 w1]], r2 as [[x2 y2 z2] [u2 v2 w2]], b as [a1 a2 a3]. cbn [fst snd]. vunfold. ring. }
  rewrite !E1. rewrite (dot_comm r2.2 r1.2). unfold l0, l1. split; unfold d in *; field; exact Hne.
Qed.
(** It is the point of the solver for any number of views. *)
Theorem C48_two_views_agree r1 r2 X : norm r1.2 = 1 -> norm r2.2 = 1 -> TriangulateTwoBearingsMidpointSolve r1 r2 = Some X ->
  TriangulateBearingsMidpointSolve [r1; r2] = Some X.
Proof.
  intros N1 N2 H. assert (HD : / 10 ^ 10 <= dot (cross r1.2 r2.2) (cross r1.2 r2.2)) by (apply C48_two_views_defined; eauto). assert (0 < / 10 ^ 10) by (apply Rinv_0_lt_compat; lra).
  assert (Hu : unit_rays [r1; r2]) by (intros q [<-|[<-|[]]]; assumption).
  assert (Hp : not_all_parallel [r1; r2]). { exists r1, r2. split; [now left|]. split; [right; now left|]. intros E. rewrite E, dot_v0 in HD. lra. }
  destruct (C48_two_views_midpoint _ _ _ H) as (s & t & E & P1 & P2).
  destruct (proj2 (C48_midpoint_defined _ Hu) Hp) as [Y HY]. rewrite HY. f_equal.
  destruct (C48_midpoint_minimises _ Y Hu ltac:(discriminate) HY) as (ts & Hl & Hm).
  pose proof (total_ge_cost [r1; r2] ts Y Hu Hl) as G1. pose proof (cost_expand [r1; r2] X Y Hu) as G2.
  assert (Z : vsum (fun r => rejection r.2 (vsub X r.1)) [r1; r2] = v0).
  { pose proof (norm1_dot _ N1) as D1. pose proof (norm1_dot _ N2) as D2. cbn [vsum].
    set (h := vsub (on_line r1 s) (on_line r2 t)) in *.
    assert (F1 : vsub X r1.1 = vsub (vscale s r1.2) (vscale (/ 2) h)) by (rewrite E; unfold h, on_line; destruct r1 as [[x1 y1 z1] [u1 v1 w1]], r2 as [[x2 y2 z2] [u2 v2 w2]]; cbn [fst snd]; vunfold; f_equal; field).
    assert (F2 : vsub X r2.1 = vadd (vscale t r2.2) (vscale (/ 2) h)) by (rewrite E; unfold h, on_line; destruct r1 as [[x1 y1 z1] [u1 v1 w1]], r2 as [[x2 y2 z2] [u2 v2 w2]]; cbn [fst snd]; vunfold; f_equal; field).
    rewrite F1, F2. unfold rejection. rewrite dot_vsub, dot_vadd, !dot_vscale, D1, D2, (dot_comm r1.2 h), (dot_comm r2.2 h), P1, P2. clear. destruct r1 as [o1 b1], r2 as [o2 b2]; cbn [fst snd]; generalize h; intros h'; vdestruct; vunfold; f_equal; ring. }
  rewrite Z, dot_v0 in G2. pose proof (quad_nonneg [r1; r2] (vsub Y X)) as Q.
  destruct (Hm X (map (fun r => dot r.2 (vsub X r.1)) [r1; r2]) eq_refl) as [_ U]. symmetry. apply U. rewrite total_cost by assumption. lra.
Qed.
Corollary C48_two_views_exact r1 r2 s t P : norm r1.2 = 1 -> norm r2.2 = 1 -> / 10 ^ 10 <= dot (cross r1.2 r2.2) (cross r1.2 r2.2) -> P = on_line r1 s -> P = on_line r2 t ->
  TriangulateTwoBearingsMidpointSolve r1 r2 = Some P.
Proof.
  intros N1 N2 HD E1 E2. assert (Hu : unit_rays [r1; r2]) by (intros q [<-|[<-|[]]]; assumption).
  destruct (proj2 (C48_two_views_defined r1 r2) HD) as [X HX]. rewrite HX. rewrite <- (C48_two_views_agree _ _ _ N1 N2 HX). apply C48_midpoint_exact; [assumption| |intros q [<-|[<-|[]]]; eauto].
  exists r1, r2. split; [now left|]. split; [right; now left|]. intros E. rewrite E, dot_v0 in HD. assert (0 < / 10 ^ 10) by (apply Rinv_0_lt_compat; lra). lra.
Qed.
(** A point behind both cameras is triangulated all the same. *)
Theorem C48_two_views_behind_refuted : exists r1 r2 P s t, norm r1.2 = 1 /\ norm r2.2 = 1 /\ s < 0 /\ t < 0 /\ P = on_line r1 s /\ P = on_line r2 t /\
  TriangulateTwoBearingsMidpointSolve r1 r2 = Some P.
Proof.
  set (r1 := (v0, Vec 0 0 1)). set (r2 := (Vec 1 0 0, Vec (3 / 5) 0 (4 / 5))). exists r1, r2, (Vec 0 0 (- (4 / 3))), (- (4 / 3)), (- (5 / 3)).
  assert (N1 : norm r1.2 = 1) by (unfold norm; cbn [r1 snd]; vunfold; replace (_ + _) with 1 by field; apply sqrt_1).
  assert (N2 : norm r2.2 = 1) by (unfold norm; cbn [r2 snd]; vunfold; replace (_ + _) with 1 by field; apply sqrt_1).
  assert (E1 : Vec 0 0 (- (4 / 3)) = on_line r1 (- (4 / 3))) by (unfold on_line; cbn [r1 fst snd]; vunfold; f_equal; field).
  assert (E2 : Vec 0 0 (- (4 / 3)) = on_line r2 (- (5 / 3))) by (unfold on_line; cbn [r2 fst snd]; vunfold; f_equal; field).
  split; [assumption|]. split; [assumption|]. split; [lra|]. split; [lra|]. split; [assumption|]. split; [assumption|].
  eapply C48_two_views_exact; eauto. cbn [r1 r2 snd]. vunfold. assert (/ 10 ^ 10 <= / 10) by (apply Rinv_le_contravar; lra). lra.
Qed.
(** One result for each pair, that of the pair *)
Theorem C48_many_views bs1 bs2 R t i b1 b2 : bs1 !! i = Some b1 -> bs2 !! i = Some b2 ->
  TriangulateTwoBearingsMidpointMany bs1 bs2 R t !! i = Some (TriangulateTwoBearingsMidpointSolve (v0, b1) (t, mvec R b2)).
Proof. intros H1 H2. apply lookup_zip_with_Some. exists b1, b2. auto. Qed.

(** ** Epipolar angles *)
Lemma acos_decreasing x y : -1 <= y -> y < x -> x <= 1 -> acos x < acos y.
Proof. intros H1 H2 H3. pose proof (acos_bound x). pose proof (acos_bound y). apply cos_decreasing_0; try lra. rewrite !cos_acos by lra. assumption. Qed.
Lemma normalized_norm v : v <> v0 -> norm (normalized v) = 1.
Proof.
  intros H. unfold normalized. destruct (Req_EM_T _ _) as [E|N]; [now apply dot_0 in E|]. pose proof (dot_nonneg v). assert (0 < sqrt (dot v v)) by (apply sqrt_lt_R0; lra).
  unfold norm. rewrite dot_vscale, (dot_comm (vscale _ _) v), dot_vscale. pose proof (sqrt_sqrt (dot v v) ltac:(lra)) as Q. set (n := sqrt (dot v v)) in *.
  replace (/ n * (/ n * dot v v)) with 1 by (rewrite <- Q; field; lra). apply sqrt_1.
Qed.
Lemma normalized_le1 v : norm (normalized v) <= 1.
Proof.
  destruct (Req_EM_T (dot v v) 0) as [E|N]; [|rewrite normalized_norm; [lra|intros ->; rewrite dot_v0 in N; lra]].
  unfold normalized. destruct (Req_EM_T _ _); [|lra]. unfold norm. rewrite E, sqrt_0. lra.
Qed.
Lemma normalized_dot v w : dot (normalized v) w = 0 <-> dot v w = 0.
Proof.
  unfold normalized. destruct (Req_EM_T _ _) as [E|N]; [tauto|]. pose proof (dot_nonneg v). assert (0 < sqrt (dot v v)) by (apply sqrt_lt_R0; lra).
  rewrite dot_comm, dot_vscale, (dot_comm w v). assert (/ sqrt (dot v v) <> 0) by (apply Rinv_neq_0_compat; lra). split; [|intros ->; ring]. intros M. apply Rmult_integral in M as [|]; [lra|assumption].
Qed.
Lemma rotation_norm R v : rotation R -> norm (mvec R v) = norm v.
Proof. intros H. unfold norm. f_equal. transitivity (dot v (mvec (mmul (mT R) R) v)); [vreal|]. rewrite (rotation_l _ H), mvec_I. reflexivity. Qed.
Lemma symmetric_bound R t b1 b2 : rotation R -> norm b1 = 1 -> norm b2 = 1 ->
  let tn := normalized t in
  0 <= (Rabs (dot (normalized (cross tn b1)) (mvec R b2)) + Rabs (dot b1 (normalized (cross tn (mvec R b2))))) / 2 <= 1.
Proof.
  intros HR H1 H2 tn. assert (H3 : norm (mvec R b2) = 1) by now rewrite rotation_norm.
  assert (B : forall u v, norm u <= 1 -> norm v = 1 -> 0 <= Rabs (dot u v) <= 1).
  { intros u v Hu Hv. split; [apply Rabs_pos|]. pose proof (dot_bound u v) as D. rewrite Hv, Rmult_1_r in D. apply Rabs_le. lra. }
  pose proof (B _ _ (normalized_le1 (cross tn b1)) H3). pose proof (B _ _ (normalized_le1 (cross tn (mvec R b2))) H1) as B2. rewrite dot_comm in B2. lra.
Qed.
(** Between a zero and a right angle *)
Theorem C48_epipolar_range R t b1 b2 : rotation R -> norm b1 = 1 -> norm b2 = 1 -> 0 <= EpipolarAngle R t b1 b2 <= PI / 2.
Proof.
  intros HR H1 H2. unfold EpipolarAngle. cbv zeta. pose proof (symmetric_bound R t b1 b2 HR H1 H2) as B. cbv zeta in B. set (x := (_ + _) / 2) in *.
  pose proof (acos_bound x) as A. split; [|lra].
  assert (acos x <= PI / 2); [|lra]. rewrite <- acos_0. destruct (Req_EM_T x 0) as [->|]; [lra|]. apply Rlt_le, acos_decreasing; lra.
Qed.
(** Zero exactly when the two bearings and the translation are in one plane *)
Theorem C48_epipolar_zero R t b1 b2 : rotation R -> norm b1 = 1 -> norm b2 = 1 -> EpipolarAngle R t b1 b2 = 0 <-> dot t (cross b1 (mvec R b2)) = 0.
Proof.
  intros HR H1 H2. unfold EpipolarAngle. cbv zeta. pose proof (symmetric_bound R t b1 b2 HR H1 H2) as B. cbv zeta in B.
  set (tn := normalized t) in *. set (w := mvec R b2) in *.
  assert (T : dot tn (cross b1 w) = 0 <-> dot t (cross b1 w) = 0) by apply normalized_dot.
  assert (T1 : dot (normalized (cross tn b1)) w = 0 <-> dot tn (cross b1 w) = 0) by (rewrite normalized_dot; replace (dot (cross tn b1) w) with (dot tn (cross b1 w)) by (clear; generalize tn w; vreal); tauto).
  assert (T2 : dot b1 (normalized (cross tn w)) = 0 <-> dot tn (cross b1 w) = 0).
  { rewrite dot_comm, normalized_dot. replace (dot (cross tn w) b1) with (- dot tn (cross b1 w)) by (clear; generalize tn w; vreal). lra. }
  pose proof (Rabs_pos (dot (normalized (cross tn b1)) w)) as A1. pose proof (Rabs_pos (dot b1 (normalized (cross tn w)))) as A2. split.
  - intros E. set (x := (_ + _) / 2) in *. assert (X0 : x = 0).
    { destruct (Req_EM_T x 0) as [|N]; [assumption|]. exfalso. assert (acos x < acos 0) by (apply acos_decreasing; lra). rewrite acos_0 in *. lra. }
    apply T, T1. unfold x in X0. destruct (Req_EM_T (dot (normalized (cross tn b1)) w) 0) as [|N]; [assumption|]. apply Rabs_pos_lt in N. lra.
  - intros E. apply T in E. rewrite (proj2 T1 E), (proj2 T2 E), Rabs_R0. replace ((0 + 0) / 2) with 0 by field. rewrite acos_0. ring.
Qed.
(** Two views of a point: zero *)
Corollary C48_epipolar_match R t b1 b2 d1 d2 : rotation R -> norm b1 = 1 -> norm b2 = 1 -> d1 <> 0 -> d2 <> 0 ->
  vscale d1 b1 = vadd t (vscale d2 (mvec R b2)) -> EpipolarAngle R t b1 b2 = 0.
Proof.
  intros HR H1 H2 Hd1 Hd2 E. apply C48_epipolar_zero; [assumption..|].
  assert (Et : t = vsub (vscale d1 b1) (vscale d2 (mvec R b2))) by (rewrite E; generalize (vscale d2 (mvec R b2)); intros; destruct t, v; vunfold; f_equal; ring).
  rewrite Et. generalize (mvec R b2). vreal.
Qed.

(** ** Direct linear transform *)
Lemma residual_cons (r : rt * vec) rays X : let p := apply_rt r.1 X in
  dlt_residual (r :: rays) X = (vx r.2 * vz p - vz r.2 * vx p) ^ 2 + (vy r.2 * vz p - vz r.2 * vy p) ^ 2 + dlt_residual rays X.
Proof. cbn zeta. change (dlt_residual (r :: rays) X) with (foldr (fun x a => x * x + a) 0 (dlt_rows r X) + dlt_residual rays X). unfold dlt_rows. cbn [foldr]. ring. Qed.
Lemma residual_nonneg rays X : 0 <= dlt_residual rays X.
Proof. induction rays as [|r rs IH]; [cbn; lra|]. rewrite residual_cons. cbv zeta. apply Rplus_le_le_0_compat; [|exact IH]. apply Rplus_le_le_0_compat; apply pow2_ge_0. Qed.
Lemma residual_zero rays X (r : rt * vec) : dlt_residual rays X = 0 -> In r rays -> let p := apply_rt r.1 X in
  vx r.2 * vz p - vz r.2 * vx p = 0 /\ vy r.2 * vz p - vz r.2 * vy p = 0.
Proof.
  induction rays as [|q rs IH]; [intros _ []|]. rewrite residual_cons. cbv zeta. pose proof (residual_nonneg rs X) as N.
  intros E Hr. pose proof (pow2_ge_0 (vx q.2 * vz (apply_rt q.1 X) - vz q.2 * vx (apply_rt q.1 X))). pose proof (pow2_ge_0 (vy q.2 * vz (apply_rt q.1 X) - vz q.2 * vy (apply_rt q.1 X))).
  destruct Hr as [->|Hr]; [|apply IH; [lra|assumption]]. split; apply Rsqr_0_uniq; rewrite Rsqr_pow2; lra.
Qed.
(** The views, in their frames, of one point by cameras that look at it with a bearing that is not sideways: every solution of the
    decomposition gives the point. *)
Theorem C48_dlt_exact (rays : list (rt * vec)) P (X : vec4) : (forall r, In r rays -> rotation r.1.1 /\ vz r.2 <> 0 /\ exists d, apply_rt r.1 (P, 1) = vscale d r.2) ->
  (exists r r', In r rays /\ In r' rays /\ cross (mvec (mT r.1.1) r.2) (mvec (mT r'.1.1) r'.2) <> v0) ->
  TriangulateBearingsDLTSolve rays X -> X.2 <> 0 /\ vscale (/ X.2) X.1 = P.
Proof.
  intros Hs (r & r' & Hr & Hr' & Hc) [H1 Hm].
  set (n := sqrt (dot P P + 1)). assert (Hn : 0 < n) by (apply sqrt_lt_R0; pose proof (dot_nonneg P); lra). assert (Hn2 : n * n = dot P P + 1) by (apply sqrt_sqrt; pose proof (dot_nonneg P); lra).
  assert (HY : norm4 (vscale (/ n) P, / n) = 1). { unfold norm4. cbn [fst snd]. rewrite dot_vscale, dot_comm, dot_vscale. replace (_ + _) with ((dot P P + 1) * / (n * n)) by (field; lra). rewrite <- Hn2. field. lra. }
  assert (HZ : dlt_residual rays (vscale (/ n) P, / n) = 0).
  { assert (forall q, In q rays -> let p := apply_rt q.1 (vscale (/ n) P, / n) in vx q.2 * vz p - vz q.2 * vx p = 0 /\ vy q.2 * vz p - vz q.2 * vy p = 0) as HZ.
    { intros q Hq. destruct (Hs q Hq) as (_ & _ & d & E). cbv zeta. assert (F : apply_rt q.1 (vscale (/ n) P, / n) = vscale (/ n * d) q.2).
      { rewrite <- vscale_vscale, <- E. unfold apply_rt. cbn [fst snd]. destruct q as [[R t] b]; cbn [fst snd]. veq. }
      rewrite F. destruct q as [[R t] [x y z]]. cbn [fst snd]. vunfold. split; ring. }
    clear - HZ. induction rays as [|q rs IH]; [reflexivity|]. rewrite residual_cons. cbv zeta. destruct (HZ q (or_introl eq_refl)) as [-> ->]. rewrite IH by (intros; apply HZ; now right). ring. }
  pose proof (Hm _ HY) as L. rewrite HZ in L. assert (R0 : dlt_residual rays X = 0) by (pose proof (residual_nonneg rays X); lra). clear L.
  set (e := vsub X.1 (vscale X.2 P)).
  assert (K : forall q, In q rays -> exists m, e = vscale m (mvec (mT q.1.1) q.2)).
  { intros q Hq. destruct (Hs q Hq) as (HRR & Hz & d & E).
    destruct (residual_zero _ _ _ R0 Hq) as [F1 F2].
    set (p := apply_rt q.1 X) in *. assert (G : p = vscale (vz p / vz q.2) q.2).
    { clear - F1 F2 Hz. destruct p as [px py pz], q as [[R t] [x y z]]. cbn [fst snd] in *. cbv [vx vy vz vscale] in *. f_equal; [|field_simplify_eq; [lra|assumption]|field; assumption]. field_simplify_eq; [lra|assumption]. }
    exists (vz p / vz q.2 - X.2 * d).
    assert (G2 : mvec q.1.1 e = vscale (vz p / vz q.2 - X.2 * d) q.2).
    { transitivity (vsub p (vscale X.2 (apply_rt q.1 (P, 1)))); [unfold p, e, apply_rt; destruct q as [[R t] b], X as [X1 x4]; cbn [fst snd]; veq|]. rewrite E, G at 1. rewrite vscale_vscale. generalize (vz p / vz q.2). intros. destruct q as [[R t] b]; cbn [fst snd]. veq. }
    transitivity (mvec (mT q.1.1) (mvec q.1.1 e)); [rewrite <- mvec_mmul|rewrite G2; destruct q as [[R t] b]; cbn [fst snd]; veq].
    rewrite (rotation_l _ HRR), mvec_I; reflexivity. }
  assert (E0 : e = v0).
  { destruct (K r Hr) as [m1 K1]. destruct (K r' Hr') as [m2 K2]. set (u := mvec (mT r.1.1) r.2) in *. set (v := mvec (mT r'.1.1) r'.2) in *.
    destruct (Req_EM_T m1 0) as [->|N]; [rewrite K1; destruct u; vunfold; f_equal; ring|]. exfalso. apply Hc.
    transitivity (vscale (/ m1) (cross e v)); [rewrite K1; clear - N; destruct u, v; vunfold; f_equal; field; assumption|]. rewrite K2. clear. destruct v; vunfold; f_equal; ring. }
  apply vsub_0 in E0. assert (X4 : X.2 <> 0). { intros Z. unfold norm4 in H1. rewrite E0, Z in H1. rewrite dot_vscale in H1. lra. }
  split; [exact X4|]. rewrite E0, vscale_vscale, Rinv_l, vscale_1 by assumption. reflexivity.
Qed.
(** What is accepted, of a solution with a point that is a number *)
Theorem C48_dlt_sound X (rays : list (rt * vec)) threshold min_angle min_depth P : (forall r, In r rays -> rotation r.1.1 /\ norm r.2 = 1) -> 0 < min_angle -> 0 < min_depth ->
  TriangulateBearingsDLT X rays threshold min_angle min_depth = Some (Some P) ->
  (X.2 <> 0 /\ P = vscale (/ X.2) X.1) /\
  (forall r, In r rays -> min_depth <= dot (apply_rt r.1 (P, 1)) r.2 /\ angle (apply_rt r.1 (P, 1)) r.2 <= threshold) /\
  exists r r', In r rays /\ In r' rays /\ cross (mvec (mT r.1.1) r.2) (mvec (mT r'.1.1) r'.2) <> v0.
Proof.
  intros Hu Ha Hd. unfold TriangulateBearingsDLT. destruct (angle_ok _ _ _) eqn:EA; [|discriminate]. cbn [negb].
  destruct (existsb _ _) eqn:EB; [discriminate|]. intros [= EX].
  destruct (Req_EM_T X.2 0) as [|NX]; [discriminate|]. injection EX as EX. split; [auto|]. split.
  - intros q Hq. assert (HB : bad_view threshold min_depth (Some P) q = false).
    { destruct (bad_view threshold min_depth (Some P) q) eqn:F; [|reflexivity]. exfalso. rewrite <- not_true_iff_false in EB. apply EB. apply existsb_exists. exists q. split; [exact Hq|]. rewrite EX. exact F. }
    cbn in HB. apply orb_false_iff in HB as [HB1 HB2]. destruct (Rlt_dec _ min_depth) as [|N]; [discriminate|]. destruct (Hu q Hq) as [_ Nq].
    assert (Hdep : min_depth <= dot (apply_rt q.1 (P, 1)) q.2) by lra. split; [exact Hdep|].
    assert (HnP : 0 < norm (apply_rt q.1 (P, 1))). { destruct (norm_nonneg (apply_rt q.1 (P, 1))) as [|Z]; [assumption|]. exfalso. symmetry in Z. apply norm_0 in Z. rewrite Z, dot_comm, dot_v0 in Hdep. lra. }
    rewrite angle_computed in HB1 by (try assumption; rewrite Nq; lra). cbn in HB1. destruct (Rlt_dec _ _); [discriminate|]. lra.
  - destruct (angle_ok_spec _ _ _ EA) as (v & w & a & Hv & Hw & E & B). cbn [app] in Hw. apply in_map_iff in Hv as (r & <- & Hr). apply in_map_iff in Hw as (r' & <- & Hr').
    exists r, r'. split; [assumption|]. split; [assumption|]. apply (angle_nonparallel _ _ a); [lra|assumption].
Qed.
(** What is found: perfect views are triangulated to the point, whatever the solution the decomposition gives. *)
Theorem C48_dlt_complete (rays : list (rt * vec)) threshold min_angle min_depth P X : (forall r, In r rays -> rotation r.1.1 /\ norm r.2 = 1 /\ vz r.2 <> 0) ->
  0 < min_angle -> 0 <= threshold -> 
  (forall r, In r rays -> exists d, 0 < d /\ min_depth <= d /\ apply_rt r.1 (P, 1) = vscale d r.2) ->
  (exists r r', In r rays /\ In r' rays /\ min_angle <= angle (mvec (mT r.1.1) r.2) (mvec (mT r'.1.1) r'.2) <= PI - min_angle) ->
  TriangulateBearingsDLTSolve rays X -> TriangulateBearingsDLT X rays threshold min_angle min_depth = Some (Some P).
Proof.
  intros Hu Ha Ht Hs (r & r' & Hr & Hr' & B) HX.
  assert (NT : forall q, In q rays -> norm (mvec (mT q.1.1) q.2) = 1).
  { intros q Hq. destruct (Hu q Hq) as (HR & Nq & _). rewrite rotation_norm; [assumption|]. now apply rotation_T. }
  assert (N1 := NT r Hr). assert (N2 := NT r' Hr'). set (u := mvec (mT r.1.1) r.2) in *. set (v := mvec (mT r'.1.1) r'.2) in *.
  assert (L : - (norm u * norm v) < dot u v).
  { rewrite N1, N2. destruct (Rlt_dec (- (1 * 1)) (dot u v)) as [|N]; [assumption|]. exfalso. pose proof (dot_bound u v) as D. rewrite N1, N2 in D.
    unfold angle in B. rewrite N1, N2 in B. replace (dot u v / (1 * 1)) with (- (1)) in B by (assert (dot u v = -1) by lra; rewrite H; field). rewrite acos_opp, acos_1 in B. lra. }
  assert (E : AngleBetweenVectors u v = Some (angle u v)) by (apply angle_computed; try assumption; lra).
  assert (Hc : cross u v <> v0) by (apply (angle_nonparallel _ _ (angle u v)); [lra|exact E]).
  assert (EA : angle_ok min_angle [] (map (fun r : rt * vec => mvec (mT r.1.1) r.2) rays) = true).
  { destruct (proj1 (elem_of_list_lookup rays r) (proj2 (elem_of_list_In _ _) Hr)) as [i Hi]. destruct (proj1 (elem_of_list_lookup rays r') (proj2 (elem_of_list_In _ _) Hr')) as [j Hj].
    assert (Hne : i <> j). { intros ->. rewrite Hi in Hj. injection Hj as Hj. apply Hc. unfold u, v. rewrite Hj. generalize (mvec (mT r'.1.1) r'.2). veq. }
    assert (Li : map (fun r : rt * vec => mvec (mT r.1.1) r.2) rays !! i = Some u) by (rewrite list_lookup_fmap, Hi; reflexivity). assert (Lj : map (fun r : rt * vec => mvec (mT r.1.1) r.2) rays !! j = Some v) by (rewrite list_lookup_fmap, Hj; reflexivity).
    destruct (decide (j < i)%nat).
    - eapply (angle_ok_complete _ [] _ i j); [exact Li|exact Lj|cbn; lia|exact E|exact B].
    - eapply (angle_ok_complete _ [] _ j i); [exact Lj|exact Li|cbn; lia|rewrite angle_sym; exact E|exact B]. }
  destruct (C48_dlt_exact rays P X) as [X4 XP]; [|exists r, r'; auto|assumption|].
  { intros q Hq. destruct (Hu q Hq) as (? & _ & ?). destruct (Hs q Hq) as (d & _ & _ & Ed). eauto. }
  unfold TriangulateBearingsDLT. rewrite EA. cbn [negb]. destruct (Req_EM_T X.2 0); [contradiction|]. rewrite XP.
  destruct (existsb _ _) eqn:EB; [|reflexivity]. exfalso. apply existsb_exists in EB as (q & Hq & HB).
  destruct (Hs q Hq) as (d & Hd0 & Hd & Ev). destruct (Hu q Hq) as (_ & Nq & _). pose proof (norm1_dot _ Nq) as Dq. cbn in HB. rewrite Ev in HB.
  assert (D1 : dot (vscale d q.2) q.2 = d) by (rewrite dot_comm, dot_vscale, Dq; ring). rewrite D1 in HB.
  assert (NE : norm (vscale d q.2) = d). { unfold norm. rewrite dot_vscale, dot_comm, dot_vscale, Dq. replace (d * (d * 1)) with (d * d) by ring. apply sqrt_square. lra. }
  rewrite angle_computed in HB by (rewrite ?NE, ?Nq, ?D1; lra). unfold angle in HB. rewrite NE, Nq, D1 in HB. replace (d / (d * 1)) with 1 in HB by (field; lra). rewrite acos_1 in HB.
  cbn in HB. apply orb_true_iff in HB as [HB|HB]; [destruct (Rlt_dec threshold 0); [lra|discriminate]|destruct (Rlt_dec d min_depth); [lra|discriminate]].
Qed.
(** Bearings sideways (vz = 0, as a spherical camera has): two perfect views of a point, and a solution of the linear system that is not it. *)
Theorem C48_dlt_sideways_refuted : exists (rays : list (rt * vec)) P (X : vec4), (forall r, In r rays -> rotation r.1.1 /\ norm r.2 = 1 /\ exists d, 0 < d /\ apply_rt r.1 (P, 1) = vscale d r.2) /\
  (exists r r', In r rays /\ In r' rays /\ cross (mvec (mT r.1.1) r.2) (mvec (mT r'.1.1) r'.2) <> v0) /\
  TriangulateBearingsDLTSolve rays X /\ X.2 <> 0 /\ vscale (/ X.2) X.1 <> P /\
  forall threshold min_angle, TriangulateBearingsDLT X rays threshold min_angle 1 = None.
Proof.
  set (r1 := ((mI, v0), Vec 1 0 0)). set (r2 := ((mI, Vec (-1) 1 0), Vec 0 1 0)). exists [r1; r2], (Vec 1 0 0), (v0, 1).
  assert (HI : rotation mI) by (split; [apply mmul_I_l || veq|unfold det; cbn; ring]).
  assert (HN1 : norm (Vec 1 0 0) = 1) by (unfold norm; vunfold; replace (_ + _) with 1 by ring; apply sqrt_1).
  assert (HN2 : norm (Vec 0 1 0) = 1) by (unfold norm; vunfold; replace (_ + _) with 1 by ring; apply sqrt_1).
  assert (E1 : apply_rt r1.1 (Vec 1 0 0, 1) = vscale 1 r1.2) by (unfold apply_rt; cbn [fst snd r1]; vunfold; f_equal; ring).
  assert (E2 : apply_rt r2.1 (Vec 1 0 0, 1) = vscale 1 r2.2) by (unfold apply_rt; cbn [fst snd r2]; vunfold; f_equal; ring).
  split; [|split; [|split; [|split; [|split]]]].
  - intros r [<-|[<-|[]]]; (split; [exact HI|]; split; [assumption|]; exists 1; split; [lra|assumption]).
  - exists r1, r2. split; [now left|]. split; [right; now left|]. cbn [r1 r2 fst snd]. vunfold. intros [= H]. lra.
  - split; [unfold norm4; cbn [fst snd]; rewrite dot_v0; ring|]. intros Y _. pose proof (residual_nonneg [r1; r2] Y). replace (dlt_residual [r1; r2] (v0, 1)) with 0; [assumption|].
    rewrite !residual_cons. cbv zeta. unfold apply_rt. cbn [r1 r2 fst snd]. vunfold. cbn [dlt_residual foldr]. unfold dlt_residual. cbn [foldr]. ring.
  - cbn. lra.
  - cbn [fst snd]. vunfold. intros [= H]. lra.
  - intros threshold min_angle. unfold TriangulateBearingsDLT. destruct (negb _); [reflexivity|]. cbn [snd fst]. destruct (Req_EM_T 1 0); [lra|].
    assert (HB : bad_view threshold 1 (Some (vscale (/ 1) v0)) r1 = true); [|cbn [existsb]; rewrite HB; reflexivity].
    unfold bad_view. apply orb_true_iff. right. cbn [lt_opt]. destruct (Rlt_dec _ 1) as [|N]; [reflexivity|]. exfalso. apply N. unfold apply_rt. cbn [r1 fst snd]. vunfold. lra.
Qed.

(** The hypotheses are met. *)
Lemma unit_examples : norm (Vec 0 0 1) = 1 /\ norm (Vec (-1) 0 0) = 1 /\ norm (Vec (3 / 5) 0 (4 / 5)) = 1.
Proof. unfold norm; vunfold. repeat split; (replace (_ + _) with 1 by field); apply sqrt_1. Qed.
Example C48_example : TriangulateBearingsMidpoint [(v0, Vec 0 0 1); (Vec 1 0 1, Vec (-1) 0 0)] [/ 100; / 100] (/ 10) (/ 1000) = Some (Some (Vec 0 0 1)).
Proof.
  destruct unit_examples as (N1 & N2 & _). pose proof PI2_3_2.
  apply C48_triangulate_complete; [intros q [<-|[<-|[]]]; assumption|lra|cbn; lia|intros t [<-|[<-|[]]]; lra| |].
  - intros q [<-|[<-|[]]]; exists 1; (split; [lra|]; split; [lra|]; unfold on_line; cbn [fst snd]; vunfold; f_equal; ring).
  - exists (v0, Vec 0 0 1), (Vec 1 0 1, Vec (-1) 0 0). split; [now left|]. split; [right; now left|]. cbn [fst snd]. unfold angle. rewrite N1, N2.
    replace (dot _ _) with 0 by (vunfold; ring). replace (0 / (1 * 1)) with 0 by field. rewrite acos_0. lra.
Qed.
Example C48_dlt_example : exists X, TriangulateBearingsDLTSolve [((mI, v0), Vec 0 0 1); ((mI, Vec (3 / 5) 0 (- (1 / 5))), Vec (3 / 5) 0 (4 / 5))] X /\
  TriangulateBearingsDLT X [((mI, v0), Vec 0 0 1); ((mI, Vec (3 / 5) 0 (- (1 / 5))), Vec (3 / 5) 0 (4 / 5))] (/ 100) (acos (4 / 5)) (/ 1000) = Some (Some (Vec 0 0 1)).
Proof.
  set (r1 := ((mI, v0), Vec 0 0 1)). set (r2 := ((mI, Vec (3 / 5) 0 (- (1 / 5))), Vec (3 / 5) 0 (4 / 5))). exists (Vec 0 0 (/ sqrt 2), / sqrt 2).
  destruct unit_examples as (N1 & _ & N2). assert (S0 : 0 < sqrt 2) by (apply sqrt_lt_R0; lra). assert (S2 : sqrt 2 * sqrt 2 = 2) by (apply sqrt_sqrt; lra).
  assert (HI : rotation mI) by (split; [veq|unfold det; cbn; ring]).
  assert (HX : TriangulateBearingsDLTSolve [r1; r2] (Vec 0 0 (/ sqrt 2), / sqrt 2)).
  { split; [unfold norm4; cbn [fst snd]; vunfold; replace (_ + _) with (2 * / (sqrt 2 * sqrt 2)) by (field; lra); rewrite S2; field|].
    intros Y _. pose proof (residual_nonneg [r1; r2] Y). replace (dlt_residual [r1; r2] _) with 0; [assumption|].
    rewrite !residual_cons. cbv zeta. unfold apply_rt. cbn [r1 r2 fst snd]. vunfold. unfold dlt_residual. cbn [foldr]. field. lra. }
  split; [exact HX|]. assert (B : 0 < acos (4 / 5) < PI / 2).
  { split; [|rewrite <- acos_0; apply acos_decreasing; lra]. rewrite <- acos_1. apply acos_decreasing; lra. }
  apply C48_dlt_complete; [|lra|lra| | |exact HX].
  - intros q [<-|[<-|[]]]; cbn [r1 r2 fst snd vz]; (split; [exact HI|]; split; [assumption|]; lra).
  - intros q [<-|[<-|[]]]; exists 1; (split; [lra|]; split; [lra|]; unfold apply_rt; cbn [r1 r2 fst snd]; vunfold; f_equal; field).
  - exists r1, r2. split; [now left|]. split; [right; now left|]. cbn [r1 r2 fst snd]. rewrite mT_I, !mvec_I. unfold angle. rewrite N1, N2.
    replace (dot _ _) with (4 / 5) by (vunfold; field). replace (4 / 5 / (1 * 1)) with (4 / 5) by field. lra.
Qed.
Print Assumptions C48_midpoint_minimises.
Print Assumptions C48_midpoint_defined.
Print Assumptions C48_midpoint_exact.
Print Assumptions C48_triangulate_sound.
Print Assumptions C48_triangulate_complete.
Print Assumptions C48_two_views_agree.
Print Assumptions C48_epipolar_zero.
Print Assumptions C48_dlt_exact.
Print Assumptions C48_dlt_sound.
Print Assumptions C48_dlt_complete.
Print Assumptions C48_dlt_sideways_refuted.
