(** Proofs about the alignment by direct fits *)
From stdpp Require Import prelude gmap strings.
From Coq Require Import Reals Lra Psatz.
From Verif Require Import Base Lin MapModel RotModel RotProofs PlaneProofs PlaneProps TriangModel PoseModel PoseProofs FitModel FitSpec FitProofs FitPlaneProofs FitProps AlignModel AlignSpec.
Local Open Scope R_scope.

(** ** Deviations *)
Lemma sumR_nonneg l : (forall x, x ∈ l -> 0 <= x) -> 0 <= sumR l.
Proof. induction l as [|x l IH]; cbn; intros H; [lra|]. assert (0 <= x) by (apply H; left). assert (0 <= foldr Rplus 0 l) by (apply IH; intros; apply H; by right). lra. Qed.
Lemma inv_length_nonneg {A} (l : list A) : 0 <= / INR (length l).
Proof. destruct l as [|a l]; [cbn; rewrite Rinv_0; lra|]. apply Rlt_le, Rinv_0_lt_compat, lt_0_INR. cbn. lia. Qed.
Lemma std_sq l : std l * std l = mean ((fun x => (x - mean l) * (x - mean l)) <$> l).
Proof.
  unfold std. apply sqrt_sqrt. unfold mean at 1. rewrite fmap_length. apply Rmult_le_pos; [apply inv_length_nonneg|]. apply sumR_nonneg. intros y (x & -> & _)%elem_of_list_fmap. apply Rle_0_sqr.
Qed.
Lemma std_nonneg l : 0 <= std l. Proof. apply sqrt_pos. Qed.
Lemma vsum_coords l : vsum l = Vec (sumR (vx <$> l)) (sumR (vy <$> l)) (sumR (vz <$> l)).
Proof. induction l as [|x l IH]; [done|]. unfold vsum, sumR in *. cbn. rewrite IH. done. Qed.
Lemma vmean_coords l : vmean l = Vec (mean (vx <$> l)) (mean (vy <$> l)) (mean (vz <$> l)).
Proof. unfold vmean. rewrite vsum_coords. unfold mean, vscale. rewrite !fmap_length. done. Qed.
Lemma mean_fmap (f : R -> R) l : mean (f <$> l) = / INR (length l) * sumR (f <$> l).
Proof. unfold mean. by rewrite fmap_length. Qed.
Lemma std_deviation l : norm (std_axes l) = deviation l.
Proof.
  unfold deviation, norm. f_equal. unfold dot, std_axes. cbn [vx vy vz]. rewrite !std_sq. rewrite !mean_fmap, !fmap_length. rewrite scatter_spread.
  unfold spread, centred. rewrite vmean_coords. generalize (mean (vx <$> l)) (mean (vy <$> l)) (mean (vz <$> l)). intros a b c.
  rewrite <- !Rmult_plus_distr_l. f_equal. induction l as [|[x y z] l IH]; [cbn; ring|]. unfold sumR in *. cbn in *. rewrite <- IH. cbv [dot vadd vopp vx vy vz]. ring.
Qed.
Lemma scatter_nonneg l : 0 <= scatter l. Proof. rewrite scatter_spread. apply spread_nonneg. Qed.
Lemma deviation_pos l e : 0 < e -> e <= deviation l -> 0 < scatter l.
Proof.
  intros He H. pose proof (scatter_nonneg l). destruct (Req_dec (scatter l) 0) as [Z|Z]; [|lra]. unfold deviation in H. rewrite Z, Rmult_0_r, sqrt_0 in H. lra.
Qed.
Lemma scatter_all_equal l : all_equal l -> scatter l = 0.
Proof. intros H. rewrite scatter_spread. by apply all_equal_centred. Qed.
Lemma inv10_pos n : 0 < / 10 ^ n. Proof. apply Rinv_0_lt_compat, pow_lt. lra. Qed.

Lemma vadd_cancel x b c : vadd x b = vadd x c -> b = c.
Proof. destruct x, b, c. unfold vadd. cbn. intros [= ???]. f_equal; lra. Qed.
(** ** The direct fit *)
(** two pairs are taken with the second one twice *)
Definition tripled {A} (c : list A) : list A := match c with [p; q] => [p; q; q] | _ => c end.
Lemma elem_tripled {A} (c : list A) x : x ∈ tripled c <-> x ∈ c.
Proof. destruct c as [|a [|b [|d l]]]; cbn; try done. set_solver. Qed.
Lemma fmap_tripled {A B} (f : A -> B) c : f <$> tripled c = tripled (f <$> c).
Proof. by destruct c as [|a [|b [|d l]]]. Qed.
Lemma length_tripled {A} (c : list A) : (2 <= length c)%nat -> (3 <= length (tripled c))%nat.
Proof. destruct c as [|a [|b [|d l]]]; cbn; lia. Qed.
Lemma all_equal_tripled {A} (c : list A) : all_equal (tripled c) <-> all_equal c.
Proof. unfold all_equal. split; intros H x y Hx Hy; apply H; by apply elem_tripled. Qed.
Lemma on_line_tripled c : on_a_line (tripled c) <-> on_a_line c.
Proof. unfold on_a_line. split; intros (a & d & H); exists a, d; intros x Hx; apply H; by apply elem_tripled. Qed.
Lemma spread_pos_ne l : 0 < scatter l -> ~ all_equal l.
Proof. intros H E. apply scatter_all_equal in E. lra. Qed.
Lemma not_single {A} (l : list A) : ~ all_equal l -> (2 <= length l)%nat.
Proof.
  intros H. destruct l as [|a [|b l]]; cbn; try lia; exfalso; apply H; intros x y; [set_solver|]. intros ->%elem_of_list_singleton ->%elem_of_list_singleton. done.
Qed.
Lemma naive_cases svd us c : / 10 ^ 10 <= deviation (snd <$> c) ->
  (2 <= length c)%nat /\ ~ all_equal (snd <$> c) /\
  naive_similarity svd us c = match superimposition_matrix svd (tripled (fst <$> c)) (tripled (snd <$> c)) us with Ok (Some T) => decompose_similarity_transform T | _ => None end.
Proof.
  intros H. pose proof (inv10_pos 10) as He. pose proof (deviation_pos _ _ He H) as Hs. apply spread_pos_ne in Hs as Hn.
  pose proof (not_single _ Hn) as Hl. rewrite fmap_length in Hl. split; [done|]. split; [done|].
  unfold naive_similarity. destruct c as [|[x0 y0] c]; [cbn in Hl; lia|]. rewrite std_deviation. destruct (Rlt_dec _ _) as [L|_]; [lra|]. cbn [orb].
  destruct (length _ =? 1)%nat eqn:E; [apply Nat.eqb_eq in E; lia|]. rewrite <- !fmap_tripled. done.
Qed.
Lemma decompose_fit s r b : 0 < s -> rotation r -> decompose_similarity_transform (mscale s r, b) = Some (s, r, b).
Proof. apply C78_decompose. Qed.
Lemma scatter_tripled_pos l : ~ all_equal l -> 0 < scatter (tripled l).
Proof.
  intros H. pose proof (scatter_nonneg (tripled l)). destruct (Req_dec (scatter (tripled l)) 0) as [Z|]; [|lra]. rewrite scatter_spread in Z. apply centred_zero in Z.
  by apply (proj1 (all_equal_tripled _)) in Z.
Qed.
Lemma naive_least svd (us : bool) c : svd_right svd (tripled (fst <$> c)) (tripled (snd <$> c)) -> / 10 ^ 10 <= deviation (snd <$> c) ->
  (us = true -> ~ all_equal (fst <$> c)) ->
  exists s r b, naive_similarity svd us c = Some (s, r, b) /\ rotation r /\ 0 < s /\
    (if us then s * s * scatter (tripled (fst <$> c)) = scatter (tripled (snd <$> c)) else s = 1) /\
    forall r' b', rotation r' -> squared_error (moved s r b) (tripled c) <= squared_error (moved s r' b') (tripled c).
Proof.
  intros Hs Hd Hu. destruct (naive_cases svd us c Hd) as (Hl & Hy & ->).
  assert (length (tripled (fst <$> c)) = length (tripled (snd <$> c))) as El by (rewrite <- !fmap_tripled, !fmap_length; done).
  destruct (C78_least_squares svd us (tripled (fst <$> c)) (tripled (snd <$> c)) Hs) as (s & r & b & E & Hr & Hp & Hsc & Hb); [apply length_tripled; by rewrite fmap_length|done|by rewrite all_equal_tripled|].
  rewrite E. assert (0 < s) as Hp'.
  { destruct us; [|lra]. pose proof (scatter_tripled_pos _ Hy). destruct (Req_dec s 0) as [->|]; lra. }
  exists s, r, b. rewrite (decompose_fit s r b Hp' Hr). split; [done|]. split; [done|]. split; [done|]. split; [done|].
  assert (forall f, squared_error f (zip (tripled (fst <$> c)) (tripled (snd <$> c))) = squared_error f (tripled c)) as Ez.
  { intros f. rewrite <- !fmap_tripled. generalize (tripled c). intros l. induction l as [|[x y] l IH]; [done|]. cbn. by rewrite IH. }
  intros r' b' Hr'. rewrite <- !Ez. by apply Hb.
Qed.
Lemma fst_moved s a b (c : list (vec * vec)) : (forall x y, (x, y) ∈ c -> y = moved s a b x) -> snd <$> c = moved s a b <$> (fst <$> c).
Proof.
  intros H. rewrite <- list_fmap_compose. apply list_fmap_ext. intros i [x y] E. cbn. apply H. by eapply elem_of_list_lookup_2.
Qed.
Lemma all_equal_fmap {A B} (f : A -> B) l : all_equal l -> all_equal (f <$> l).
Proof. intros H x y (a & -> & Ha)%elem_of_list_fmap (b & -> & Hb)%elem_of_list_fmap. f_equal. by apply H. Qed.
Lemma naive_exact svd (us : bool) s a b c : svd_right svd (tripled (fst <$> c)) (tripled (snd <$> c)) -> / 10 ^ 10 <= deviation (snd <$> c) ->
  (forall x y, (x, y) ∈ c -> y = moved s a b x) -> 0 < s -> rotation a -> (us = false -> s = 1) ->
  exists r b', naive_similarity svd us c = Some (s, r, b') /\ rotation r /\ (forall x y, (x, y) ∈ c -> moved s r b' x = y) /\ (~ on_a_line (fst <$> c) -> r = a /\ b' = b).
Proof.
  intros Hs Hd Hc Hp Ha Hu. destruct (naive_cases svd us c Hd) as (Hl & Hy & E). pose proof (fst_moved s a b c Hc) as Em.
  assert (~ all_equal (fst <$> c)) as Hx. { intros H. apply Hy. rewrite Em. by apply all_equal_fmap. }
  destruct us.
  - rewrite Em, <- (fmap_tripled (moved s a b)) in Hs. destruct (C78_exact svd s a b (tripled (fst <$> c)) Hs) as (r & b' & E' & Hr & Hm & Hn); [apply length_tripled; by rewrite fmap_length|by rewrite all_equal_tripled|done|done|].
    exists r, b'. rewrite E, Em, <- (fmap_tripled (moved s a b)), E'. rewrite (decompose_fit s r b' Hp Hr). split; [done|]. split; [done|]. split.
    + intros x y H. rewrite (Hc x y H). apply Hm. apply elem_tripled. apply elem_of_list_fmap. by exists (x, y).
    + intros H. apply Hn. by rewrite on_line_tripled.
  - specialize (Hu eq_refl) as ->. destruct (naive_least svd false c Hs Hd ltac:(done)) as (s & r & b' & E' & Hr & _ & -> & Hb). exists r, b'. rewrite E'. split; [done|]. split; [done|].
    specialize (Hb a b Ha). assert (squared_error (moved 1 a b) (tripled c) = 0) as Z. { apply error_zero. intros x y H. apply (proj1 (elem_tripled _ _)) in H. symmetry. apply Hc. exact H. }
    assert (squared_error (moved 1 r b') (tripled c) = 0) as Z'. { pose proof (error_nonneg (moved 1 r b') (tripled c)). lra. }
    rewrite error_zero in Z'. assert (forall x y, (x, y) ∈ c -> moved 1 r b' x = y) as Hm. { intros x y H. apply Z'. by apply elem_tripled. }
    split; [done|]. intros Hnl. destruct (not_on_line _ Hnl) as (x0 & x1 & x2 & I0 & I1 & I2 & Hcr).
    assert (forall x, x ∈ fst <$> c -> moved 1 r b' x = moved 1 a b x) as Hx'. { intros x ([x' y] & -> & H)%elem_of_list_fmap. cbn. rewrite (Hm x' y H). by apply Hc. }
    assert (forall q b x y, vsub (moved 1 q b x) (moved 1 q b y) = mvec q (vsub x y)) as Hdm. { intros. unfold moved. vring. }
    assert (r = a) as ->. { apply (two_directions r a (vsub x1 x0) (vsub x2 x0)); try done; rewrite <- (Hdm r b'), <- (Hdm a b), !Hx' by done; done. }
    split; [done|]. pose proof (Hx' _ I0) as H0. unfold moved in H0. by apply vadd_cancel in H0.
Qed.
(** Any two directions of the same length differ by a rotation *)
Lemma some_rotation u v : norm u = norm v -> exists r, rotation r /\ mvec r u = v.
Proof.
  intros H. destruct (veq_dec u v0) as [->|Hu].
  - rewrite norm_v0 in H. exists mI. split; [apply rotation_I|]. rewrite mvec_0. symmetry. apply norm_0. done.
  - destruct (veq_dec v v0) as [->|Hv]; [exfalso; apply Hu; apply norm_0; by rewrite H, norm_v0|].
    destruct (C64_horizontal u Hu) as (ru & _ & Hru & Eu). destruct (C64_horizontal v Hv) as (rv & _ & Hrv & Ev).
    exists (mmul (mT rv) ru). split; [apply rotation_mmul; [by apply rotation_T|done]|].
    rewrite mvec_mmul, Eu, H, <- Ev, <- mvec_mmul, rotation_l by done. apply mvec_I.
Qed.

(** ** Points on a line *)
Lemma scatter_matrix_covariance l : scatter_matrix l = covariance (centred l) (centred l).
Proof.
  unfold scatter_matrix, covariance, centred. change (centroid l) with (vmean l). generalize (vmean l). intros c. induction l as [|p l IH]; [done|].
  cbn [foldr fmap list_fmap zip_with]. rewrite IH. f_equal.
Qed.
Lemma on_line_centred l : on_a_line l -> exists d, forall x, x ∈ centred l -> exists t, x = vscale t d.
Proof.
  intros (c & d & H). exists d. assert (exists n t, vsum l = vadd (vscale (INR n) c) (vscale t d) /\ n = length l) as (n & t & E & ->).
  { induction l as [|x l IH]; [exists 0%nat, 0; split; [|done]; cbn; dvec|]. destruct IH as (n & t & E & ->); [intros; apply H; by right|].
    destruct (H x ltac:(left)) as (t' & E'). exists (length (x :: l)), (t' + t). split; [|done]. unfold vsum in *. cbn [foldr length]. rewrite E, E', S_INR. dvec. }
  intros y (x & -> & Hx)%elem_of_list_fmap. destruct (H x Hx) as (t' & ->). exists (t' - / INR (length l) * t). unfold vmean. rewrite E.
  assert (INR (length l) <> 0) as Hn. { apply not_0_INR. by destruct l; [inversion Hx|]. }
  destruct c, d. unfold vadd, vopp, vscale; cbn. f_equal; field; done.
Qed.
Lemma covariance_line (l : list vec) d : (forall x, x ∈ l -> exists t, x = vscale t d) -> exists k, covariance l l = mscale k (outer d d).
Proof.
  induction l as [|x l IH]; intros H; [exists 0; unfold covariance; cbn; destruct d; unfold mscale, outer, mzero; cbn; f_equal; ring|].
  destruct IH as (k & E); [intros; apply H; by right|]. destruct (H x ltac:(left)) as (t & ->). exists (t * t + k). unfold covariance in *. cbn [zip_with foldr]. rewrite E.
  destruct d. unfold madd, mscale, outer, vscale. cbn. f_equal; ring.
Qed.
Lemma outer_mvec k d v : mvec (mscale k (outer d d)) v = vscale (k * dot d v) d.
Proof. dv. unfold mvec, mscale, outer, vscale, dot; cbn. f_equal; ring. Qed.
Lemma two_lines k d u v e f : vscale (k * dot d u) d = vscale e u -> vscale (k * dot d v) d = vscale f v -> dot u u = 1 -> dot v v = 1 -> dot u v = 0 -> e = 0 \/ f = 0.
Proof.
  intros Hu Hv Nu Nv Huv. destruct (Req_dec e 0) as [|He]; [by left|]. destruct (Req_dec f 0) as [|Hf]; [by right|]. exfalso.
  set (a := k * dot d u) in *. set (b := k * dot d v) in *. clearbody a b.
  assert (dot (vscale a d) (vscale b d) = 0) as Z. { rewrite Hu, Hv. replace (dot (vscale e u) (vscale f v)) with (e * f * dot u v) by dreal. rewrite Huv. ring. }
  assert (a * a * dot d d = e * e) as Ea. { replace (a * a * dot d d) with (dot (vscale a d) (vscale a d)) by dreal. rewrite Hu. replace (dot (vscale e u) (vscale e u)) with (e * e * dot u u) by dreal. rewrite Nu. ring. }
  assert (b * b * dot d d = f * f) as Eb. { replace (b * b * dot d d) with (dot (vscale b d) (vscale b d)) by dreal. rewrite Hv. replace (dot (vscale f v) (vscale f v)) with (f * f * dot v v) by dreal. rewrite Nv. ring. }
  replace (dot (vscale a d) (vscale b d)) with (a * b * dot d d) in Z by dreal.
  assert (a <> 0) by (intros ->; nra). assert (b <> 0) by (intros ->; nra). assert (dot d d <> 0) by (intros E; rewrite E in Ea; nra).
  apply Rmult_integral in Z as [Z|]; [|done]. apply Rmult_integral in Z as [|]; done.
Qed.
Lemma line_detected eigenvalues x : sorted_eigenvalues (scatter_matrix x) (eigenvalues (scatter_matrix x)) -> on_a_line x -> line_of eigenvalues x = true.
Proof.
  rewrite scatter_matrix_covariance. unfold line_of. intros H Hl. destruct (on_line_centred x Hl) as (d & Hd). destruct (covariance_line _ d Hd) as (k & E). rewrite E in *. clear E.
  destruct (eigenvalues _) as [[e0 e1] e2]. destruct H as (_ & a & b & c & (Na & Nb & Nc & Hab & Hbc & Hac) & Ea & Eb & Ec). rewrite outer_mvec in Ea, Eb, Ec.
  pose proof (inv10_pos 10) as He. apply orb_true_iff. left.
  pose proof (two_lines k d a b e0 e1 Ea Eb Na Nb Hab) as H01. pose proof (two_lines k d b c e1 e2 Eb Ec Nb Nc Hbc) as H12. pose proof (two_lines k d a c e0 e2 Ea Ec Na Nc Hac) as H02.
  apply Nat.ltb_lt. destruct (Rlt_dec e0 _), (Rlt_dec e1 _), (Rlt_dec e2 _); try lia; exfalso; destruct H01, H12, H02; subst; lra.
Qed.

(** ** The positions *)
Section Positions.
Context {C B D X O Rf : Type}.
Notation map := (@map C B pose vec D X O Rf).
Variable gps : D -> option vec.
Lemma shot_gps_unique (m : map) i id p q : gps_of_shot gps m i id p -> gps_of_shot gps m i id q -> p = q.
Proof. intros (? & ? & ? & H1 & H2 & H3) (? & ? & ? & H4 & H5 & H6). simplify_eq. done. Qed.
Definition members_gps (m : map) (i : instance pose) : list vec :=
  omap (fun e => s ← m_shots m !! (e.2.1, e.1); gps (sh_data s)) (map_to_list (in_members i)).
Lemma members_gps_spec m i : gps_of_instance gps m i (members_gps m i).
Proof.
  unfold gps_of_instance, members_gps.
  set (f := fun e : string * (bool * string) => s ← m_shots m !! (e.2.1, e.1); gps (sh_data s)).
  exists (fst <$> filter (fun e => is_Some (f e)) (map_to_list (in_members i))). split; [|split].
  - apply NoDup_fmap_fst; [|apply NoDup_filter, NoDup_map_to_list]. intros x y1 y2 [_ H1]%elem_of_list_filter [_ H2]%elem_of_list_filter. apply elem_of_map_to_list in H1, H2. congruence.
  - assert (forall l, (forall e, e ∈ l -> in_members i !! e.1 = Some e.2) -> Forall2 (gps_of_shot gps m i) (fst <$> filter (fun e => is_Some (f e)) l) (omap f l)) as G.
    { induction l as [|e l IH]; intros H; [constructor|]. rewrite filter_cons. cbn [omap list_omap]. destruct (f e) as [p|] eqn:E.
      - rewrite decide_True by eauto. cbn. constructor; [|apply IH; intros; apply H; by right]. specialize (H e ltac:(left)). unfold f in E.
        destruct e as [id [kind rc]]. cbn in *. destruct (m_shots m !! (kind, id)) as [s|] eqn:Es; [|done]. cbn in E. by exists kind, rc, s.
      - rewrite decide_False by (by intros [? ?]). apply IH; intros; apply H; by right. }
    apply G. intros [id e] H. by apply elem_of_map_to_list in H.
  - intros id p (kind & rc & s & H1 & H2 & H3). apply elem_of_list_fmap. exists (id, (kind, rc)). split; [done|]. apply elem_of_list_filter. split; [|by apply elem_of_map_to_list].
    unfold f. cbn. rewrite H2. cbn. eauto.
Qed.
Lemma gps_permutation (m : map) i l l' : gps_of_instance gps m i l -> gps_of_instance gps m i l' -> l ≡ₚ l'.
Proof.
  intros (ids & N & F & H) (ids' & N' & F' & H').
  assert (ids ≡ₚ ids') as P.
  { apply NoDup_Permutation; [done|done|]. intros id. split; intros E.
    - apply elem_of_list_lookup in E as [n E]. destruct (Forall2_lookup_l _ _ _ _ _ F E) as (p & _ & Hp). by eapply H'.
    - apply elem_of_list_lookup in E as [n E]. destruct (Forall2_lookup_l _ _ _ _ _ F' E) as (p & _ & Hp). by eapply H. }
  assert (exists f, l = f <$> ids /\ l' = f <$> ids') as (f & -> & ->); [|by rewrite P].
  exists (fun id => default v0 (e ← in_members i !! id; s ← m_shots m !! (e.1, id); gps (sh_data s))).
  assert (forall ids l, Forall2 (gps_of_shot gps m i) ids l -> l = (fun id => default v0 (e ← in_members i !! id; s ← m_shots m !! (e.1, id); gps (sh_data s))) <$> ids) as G; [|split; by apply G].
  clear. intros ids l F. induction F as [|id p ids l (kind & rc & s & H1 & H2 & H3) F IH]; [done|]. cbn. rewrite H1. cbn. rewrite H2. cbn. rewrite H3. cbn. by f_equal.
Qed.
Lemma vsum_permutation l l' : l ≡ₚ l' -> vsum l = vsum l'.
Proof.
  induction 1; cbn; [done|by f_equal| |congruence]. generalize (foldr vadd v0 l). intros z. destruct x, y, z. unfold vadd. cbn. f_equal; ring.
Qed.
Lemma centroid_permutation l l' : l ≡ₚ l' -> centroid l = centroid l'.
Proof. intros H. unfold centroid. rewrite (Permutation_length H). f_equal. by apply vsum_permutation. Qed.
End Positions.
