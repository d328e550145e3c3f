(** Proofs about the alignment of submodels. *)
From stdpp Require Import prelude gmap strings pretty.
From Coq Require Import Ascii Reals Lra Psatz Lia.
From Verif Require Import Base Lin TextProofs RotModel RotProofs MapModel PoseModel PoseSpec PoseProofs TriangProofs SubAlignModel SubAlignSpec PoseMapProofs RigProofs.
Local Open Scope R_scope.

Lemma dot_self_pos a : 0 < dot a a -> norm a <> 0.
Proof. intros H E. unfold norm in E. apply sqrt_eq_0 in E; lra. Qed.
Lemma dot_self_nonneg a : 0 <= dot a a. Proof. unfold dot. nra. Qed.
Lemma dot_self_0 a : ~ 0 < dot a a -> a = v0.
Proof. intros H. destruct a as [x y z]. unfold dot in H; cbn in H. unfold v0. f_equal; nra. Qed.
Lemma rotate_point a p : aa_rotate_point a p = mvec (vector_to_rotation a) p.
Proof.
  unfold aa_rotate_point. destruct (Rlt_dec 0 (dot a a)) as [H|H].
  - unfold vector_to_rotation. destruct (Req_EM_T (norm a) 0) as [E|_]; [by destruct (dot_self_pos a)|]. fold (norm a). generalize (vscale (/ norm a) a). generalize (norm a). intros n w.
    destruct w, p. unfold angle_axis_matrix, mvec, vadd, vscale, cross, dot; cbn. f_equal; ring.
  - rewrite (dot_self_0 a H), exp_zero. destruct p. unfold mvec, vadd, cross, v0, mI; cbn. f_equal; ring.
Qed.
Definition unit_q (q : R * vec) : Prop := q.1 * q.1 + dot q.2 q.2 = 1.
Lemma dot_vscale k a : dot (vscale k a) (vscale k a) = k * k * dot a a. Proof. unfold dot, vscale; cbn; ring. Qed.
Lemma aa_quaternion a : unit_q (aa_to_quaternion a) /\ qmat (aa_to_quaternion a) = vector_to_rotation a.
Proof.
  unfold aa_to_quaternion. destruct (Rlt_dec 0 (dot a a)) as [H|H].
  - fold (norm a). pose proof (dot_self_pos a H) as Hn. assert (norm a * norm a = dot a a) as Hs by (unfold norm; apply sqrt_def; lra). pose proof (sin2_cos2 (norm a / 2)) as Hsc. unfold Rsqr in Hsc.
    set (n := norm a) in *. set (w := vscale (/ n) a). assert (vscale (sin (n / 2) / n) a = vscale (sin (n / 2)) w) as -> by (unfold w, vscale; cbn; f_equal; unfold Rdiv; ring).
    assert (dot w w = 1) as Hw by (unfold w; rewrite dot_vscale, <- Hs; field; done). split.
    + unfold unit_q. cbn [fst snd]. rewrite dot_vscale, Hw. lra.
    + unfold vector_to_rotation. fold n. destruct (Req_EM_T n 0); [done|]. fold w. assert (cos n = 1 - 2 * (sin (n / 2) * sin (n / 2))) as Ec by (replace n with (2 * (n / 2)) at 1 by field; rewrite cos_2a_sin; ring).
      assert (sin n = 2 * (sin (n / 2) * cos (n / 2))) as Es by (replace n with (2 * (n / 2)) at 1 by field; rewrite sin_2a; ring).
      unfold angle_axis_matrix. rewrite Ec, Es. revert Hsc Hw. generalize (sin (n / 2)), (cos (n / 2)). intros s c Hsc Hw. destruct w as [x y z]. unfold dot in Hw; cbn in Hw. unfold qmat, vscale; cbn.
      assert (c * c = 1 - s * s) as Hc by lra. assert (z * z = 1 - x * x - y * y) as Hz by lra.
      f_equal; try ring; ring_simplify; replace (c ^ 2) with (1 - s * s) by (rewrite <- Hc; ring); replace (z ^ 2) with (1 - x * x - y * y) by (rewrite <- Hz; ring); ring.
  - rewrite (dot_self_0 a H), exp_zero. unfold unit_q, qmat, dot, vscale, v0, mI; cbn. split; [ring|f_equal; ring].
Qed.
Lemma quaternion_product_unit z w : unit_q z -> unit_q w -> unit_q (quaternion_product z w).
Proof.
  destruct z as [z0 [z1 z2 z3]], w as [w0 [w1 w2 w3]]. unfold unit_q, quaternion_product, dot, vadd, vscale, cross; cbn. intros Hz Hw.
  transitivity ((z0 * z0 + (z1 * z1 + z2 * z2 + z3 * z3)) * (w0 * w0 + (w1 * w1 + w2 * w2 + w3 * w3))); [ring|rewrite Hz, Hw; ring].
Qed.
Lemma quaternion_product_mat z w : qmat (quaternion_product z w) = mmul (qmat z) (qmat w).
Proof. destruct z as [z0 [z1 z2 z3]], w as [w0 [w1 w2 w3]]. unfold qmat, quaternion_product, mmul, dot, vadd, vscale, cross; cbn. f_equal; ring. Qed.
Lemma quaternion_log_zero q : unit_q q -> quaternion_to_aa q = v0 <-> qmat q = mI.
Proof.
  destruct q as [w v]. unfold unit_q, quaternion_to_aa. cbn [fst snd]. intros Hu. destruct (Rlt_dec 0 (dot v v)) as [H|H].
  - assert (0 < sqrt (dot v v)) as Hs by (by apply sqrt_lt_R0). split; intros E; exfalso.
    + set (k := 2 * _ / _) in E. assert (k <> 0) as Hk.
      { unfold k. apply Rmult_integral_contrapositive. split; [|apply Rinv_neq_0_compat; lra]. apply Rmult_integral_contrapositive. split; [lra|]. destruct (Rlt_dec w 0) as [Hw|Hw].
        - assert (sqrt (dot v v) / w < 0). { unfold Rdiv. assert (/ w < 0) by (by apply Rinv_lt_0_compat). nra. } pose proof (atan_increasing _ _ H0) as Ha. rewrite atan_0 in Ha. lra.
        - assert (sqrt (dot v v) * sqrt (dot v v) = dot v v) by (apply sqrt_def; lra). pose proof (atan2_pos_range (sqrt (dot v v)) w Hs ltac:(lra)). lra. }
      destruct v as [x y z]. unfold vscale, v0 in E; cbn in E. injection E as E1 E2 E3. unfold dot in H; cbn in H. assert (x = 0) by nra. assert (y = 0) by nra. assert (z = 0) by nra. subst. lra.
    + assert (qmat (1, v0) = mI) as E1 by (unfold qmat, v0, mI; cbn; f_equal; ring). rewrite <- E1 in E. apply qmat_inj in E; [|done|unfold dot, v0; cbn; ring]. destruct E as [E|E].
      * apply (f_equal snd) in E. cbn [snd] in E. rewrite <- E in H. unfold dot, v0 in H; cbn in H. lra.
      * apply (f_equal snd) in E. cbn [snd] in E. assert (v = v0) as ->. { rewrite <- (vopp_opp v), <- E. vring. } unfold dot, v0 in H; cbn in H. lra.
  - pose proof (dot_self_0 v H) as ->. split; intros _.
    + assert (w * w = 1) as Hw by (unfold dot, v0 in Hu; cbn in Hu; lra). unfold qmat, v0, mI; cbn. rewrite Hw. f_equal; ring.
    + unfold vscale, v0; cbn. f_equal; ring.
Qed.
(** ** Zero residuals *)
Definition nonzero (s : vec) : Prop := vx s <> 0 /\ vy s <> 0 /\ vz s <> 0.
Lemma vmul_zero s v : nonzero s -> vmul s v = v0 <-> v = v0.
Proof.
  intros (H1 & H2 & H3). destruct s as [a b c], v as [x y z]. unfold vmul, v0; cbn in *. split.
  - intros [= E1 E2 E3]. apply Rmult_integral in E1, E2, E3. f_equal; tauto.
  - intros [= -> -> ->]. f_equal; ring.
Qed.
Lemma vscale_zero k v : k <> 0 -> vscale k v = v0 <-> v = v0.
Proof. intros H. assert (vscale k v = vmul (Vec k k k) v) as -> by done. by apply vmul_zero. Qed.
Lemma vsub_zero u v : vsub u v = v0 <-> u = v.
Proof. split; [apply vsub_0|]. intros ->. apply vsub_self. Qed.
Lemma mvec_inj A u v : rotation A -> mvec A u = mvec A v -> u = v.
Proof. intros H E. by rewrite <- (mvec_I u), <- (mvec_I v), <- (rotation_l _ H), !mvec_mmul, E. Qed.
Lemma three_I A B D : rotation A -> rotation B -> rotation D -> mmul A (mmul B (mT D)) = mI <-> mmul A B = D.
Proof.
  intros HA HB HD. split; intros E.
  - assert (mmul (mmul A (mmul B (mT D))) D = D) as E1 by (by rewrite E, mmul_I_l). rewrite <- !mmul_assoc, (rotation_l _ HD), mmul_I_r in E1. done.
  - rewrite mmul_assoc, E. by apply rotation_r.
Qed.
(** the aligned pose *)
Definition aligned (a : ra_rec) (p : pose) : pose :=
  let '(s, A, b) := invert_similarity (rr_scale a) (vector_to_rotation (rr_r a)) (rr_t a) in apply_similarity_pose p s A b.
Definition aligned_point (a : ra_rec) (x : vec) : vec :=
  let '(s, A, b) := invert_similarity (rr_scale a) (vector_to_rotation (rr_r a)) (rr_t a) in apply_similarity_point x s A b.
Lemma aligned_valid a p : valid p -> valid (aligned a p).
Proof. intros H. unfold aligned, invert_similarity. apply valid_similarity; [done|]. apply rotation_T, exp_rotation. Qed.
Lemma relative_motion_zero p a i sr st : valid p -> rr_scale a <> 0 -> nonzero sr -> nonzero st ->
  relative_motion_error (get_rotation p) (get_translation p) sr st a i = (v0, v0) <-> aligned a p = pose_of_vector (rs_r i) (rs_t i).
Proof.
  intros Hv Hs Hsr Hst. unfold relative_motion_error. set (A := vector_to_rotation (rr_r a)). set (Ri := vector_to_rotation (rs_r i)). set (Rp := w_rot p).
  assert (rotation A) as HA by apply exp_rotation. assert (rotation Ri) as HRi by apply exp_rotation. assert (rotation Rp) as HRp by apply Hv.
  pose proof (rotation_codec p Hv) as Hc. fold Rp in Hc. destruct (aa_quaternion (get_rotation p)) as [U1 Q1]. destruct (aa_quaternion (rr_r a)) as [U2 Q2]. destruct (aa_quaternion (vopp (rs_r i))) as [U3 Q3].
  rewrite Hc in Q1. fold A in Q2. rewrite exp_opp in Q3. fold Ri in Q3.
  assert (forall x y : vec, (x, y) = (v0, v0) <-> x = v0 /\ y = v0) as Hpair by (intros x y; split; [by intros [= -> ->]|by intros [-> ->]]). rewrite Hpair, !vmul_zero by done. clear Hpair.
  rewrite quaternion_log_zero by (by repeat apply quaternion_product_unit). rewrite !quaternion_product_mat, Q1, Q2, Q3, three_I by done.
  rewrite !rotate_point, !exp_opp, Hc. fold A Ri. unfold get_translation.
  transitivity (mmul Rp A = Ri /\ vadd (w_tr p) (mvec Rp (rr_t a)) = vscale (rr_scale a) (rs_t i)).
  - split; intros [E1 E2]; (split; [done|]).
    + apply (f_equal (mvec Rp)) in E2. rewrite mvec_0, mvec_add, vsub_add, mvec_add, mvec_opp, mvec_scale, <- !mvec_mmul, (rotation_r _ HRp), mvec_I, E1, (rotation_r _ HRi), mvec_I in E2.
      apply vsub_0. rewrite <- E2. destruct (w_tr p), (mvec Rp (rr_t a)), (vscale (rr_scale a) (rs_t i)). unfold vsub, vadd, vopp; cbn. f_equal; ring.
    + apply (mvec_inj Rp); [done|]. rewrite mvec_0, mvec_add, vsub_add, mvec_add, mvec_opp, mvec_scale, <- !mvec_mmul, (rotation_r _ HRp), mvec_I, E1, (rotation_r _ HRi), mvec_I, <- E2.
      destruct (w_tr p), (mvec Rp (rr_t a)). unfold vadd, vopp, v0; cbn. f_equal; ring.
  - assert (aligned a p = pose_of_vector (rs_r i) (rs_t i) <-> w_rot (aligned a p) = Ri /\ w_tr (aligned a p) = rs_t i) as ->.
    { split; [by intros ->|]. intros [E1 E2]. apply valid_ext; [by apply aligned_valid|apply from_w2c_valid, exp_rotation|done|done]. }
    unfold aligned, invert_similarity, apply_similarity_pose. fold A. cbn [w_rot w_tr set_translation set_rotation_matrix]. replace (mT (mT A)) with A by vring. fold Rp.
    assert (forall x y z : Prop, (x -> (y <-> z)) -> (x /\ y <-> x /\ z)) as Hand by tauto. apply Hand. clear Hand. intros E1. rewrite E1.
    assert (mvec Ri (vscale (- (1 / rr_scale a)) (mvec (mT A) (rr_t a))) = vscale (- (1 / rr_scale a)) (mvec Rp (rr_t a))) as ->.
    { rewrite mvec_scale, <- mvec_mmul, <- E1, <- mmul_assoc, (rotation_r _ HA), mmul_I_r. done. }
    split; intros E.
    + assert (rs_t i = vscale (1 / rr_scale a) (vadd (w_tr p) (mvec Rp (rr_t a)))) as -> by (rewrite E, vscale_inv; done).
      destruct (w_tr p), (mvec Rp (rr_t a)). unfold vscale, vadd, vopp; cbn. f_equal; field; done.
    + rewrite <- E. destruct (w_tr p), (mvec Rp (rr_t a)). unfold vscale, vadd, vopp; cbn. f_equal; field; done.
Qed.
Lemma transform_point_aligned a x : rr_scale a <> 0 -> transform_point a x = aligned_point a x.
Proof.
  intros Hs. unfold transform_point, aligned_point, invert_similarity, apply_similarity_point. rewrite rotate_point, exp_opp. set (A := mT _). rewrite mvec_scale, vsub_add, mvec_add, mvec_opp.
  destruct (mvec A x), (mvec A (rr_t a)). unfold vscale, vadd, vopp; cbn. f_equal; field; done.
Qed.
Lemma common_point_zero pa pb sd a b : sd <> 0 -> 0 < rr_scale a -> 0 < rr_scale b ->
  common_point_error pa pb sd a b = v0 <-> aligned_point a pa = aligned_point b pb.
Proof.
  intros Hsd Ha Hb. unfold common_point_error. rewrite vscale_zero; [by rewrite vsub_zero, !transform_point_aligned by lra|]. apply Rmult_integral_contrapositive. split; [|lra]. apply Rmult_integral_contrapositive. split; [lra|by apply Rinv_neq_0_compat].
Qed.
Lemma center_of p : valid p -> vopp (mvec (mT (w_rot p)) (w_tr p)) = get_origin p. Proof. intros (_ & _ & E). unfold get_origin. by rewrite E. Qed.
Lemma shot_center_pose p c : valid p -> shot_center (RAShot (get_rotation p) (get_translation p) c) = get_origin p.
Proof. intros Hv. unfold shot_center; cbn [rs_r rs_t]. rewrite rotate_point, exp_opp, (rotation_codec _ Hv). by apply center_of. Qed.
Lemma absolute_position_zero c sd i : sd <> 0 -> absolute_position_error c sd i = v0 <-> get_origin (pose_of_vector (rs_r i) (rs_t i)) = c.
Proof.
  intros Hsd. unfold absolute_position_error. rewrite vscale_zero by (apply Rmult_integral_contrapositive; split; [lra|by apply Rinv_neq_0_compat]).
  rewrite rotate_point, exp_opp. assert (valid (pose_of_vector (rs_r i) (rs_t i))) as Hv by apply from_w2c_valid, exp_rotation. rewrite <- (center_of _ Hv). cbn [pose_of_vector from_world_to_cam w_rot w_tr].
  generalize (mvec (mT (vector_to_rotation (rs_r i))) (rs_t i)). intros u. split; intros E.
  - destruct u, c. unfold vopp, vadd, v0 in *; cbn in *. injection E as E1 E2 E3. f_equal; lra.
  - rewrite <- E. destruct u. unfold vadd, vopp, v0; cbn. f_equal; ring.
Qed.
Lemma relative_absolute_zero c sd a p k : valid p -> sd <> 0 -> rr_scale a <> 0 ->
  relative_absolute_position_error c sd a (RAShot (get_rotation p) (get_translation p) k) = v0 <-> get_origin (aligned a p) = c.
Proof.
  intros Hv Hsd Hs. unfold relative_absolute_position_error. rewrite vscale_zero by (apply Rmult_integral_contrapositive; split; [lra|by apply Rinv_neq_0_compat]).
  rewrite vsub_zero, shot_center_pose, transform_point_aligned by done. unfold aligned, aligned_point, invert_similarity. rewrite similarity_origin by (done || apply rotation_T, exp_rotation). done.
Qed.
Lemma common_camera_zero pa pb ca cb sc sr a b : valid pa -> valid pb -> sc <> 0 -> sr <> 0 -> rr_scale a <> 0 -> rr_scale b <> 0 ->
  common_camera_error (RAShot (get_rotation pa) (get_translation pa) ca) (RAShot (get_rotation pb) (get_translation pb) cb) sc sr a b = (v0, v0) <->
  w_rot (aligned a pa) = w_rot (aligned b pb) /\ get_origin (aligned a pa) = get_origin (aligned b pb).
Proof.
  intros Ha Hb Hsc Hsr Hsa Hsb. unfold common_camera_error. cbn [rs_r]. assert (forall x, x <> 0 -> 1 / x <> 0) as Hinv by (intros x Hx; apply Rmult_integral_contrapositive; split; [lra|by apply Rinv_neq_0_compat]).
  assert (forall x y : vec, (x, y) = (v0, v0) <-> x = v0 /\ y = v0) as Hpair by (intros x y; split; [by intros [= -> ->]|by intros [-> ->]]). rewrite Hpair, !vscale_zero by auto. clear Hpair.
  rewrite vsub_zero, !shot_center_pose, !transform_point_aligned by done.
  destruct (aa_quaternion (get_rotation pa)) as [U1 Q1]. destruct (aa_quaternion (rr_r a)) as [U2 Q2]. destruct (aa_quaternion (vopp (rr_r b))) as [U3 Q3]. destruct (aa_quaternion (vopp (get_rotation pb))) as [U4 Q4].
  rewrite quaternion_log_zero by (by repeat apply quaternion_product_unit). rewrite !quaternion_product_mat, Q1, Q2, Q3, Q4, !exp_opp, !rotation_codec by done.
  unfold aligned, aligned_point, invert_similarity. rewrite !similarity_origin by (done || apply rotation_T, exp_rotation). unfold apply_similarity_pose. cbn [w_rot set_translation set_rotation_matrix].
  set (A := vector_to_rotation (rr_r a)). set (Bm := vector_to_rotation (rr_r b)). replace (mT (mT A)) with A by vring. replace (mT (mT Bm)) with Bm by vring.
  rewrite <- mmul_assoc, <- (mT_mmul (w_rot pb) Bm). assert (rotation (mmul (w_rot pb) Bm)) as HB by (apply rotation_mmul; [apply Hb|apply exp_rotation]). assert (rotation (mmul (w_rot pa) A)) as HAA by (apply rotation_mmul; [apply Ha|apply exp_rotation]).
  assert (mmul (mmul (w_rot pa) A) (mT (mmul (w_rot pb) Bm)) = mI <-> mmul (w_rot pa) A = mmul (w_rot pb) Bm) as ->; [|done].
  rewrite <- (mmul_I_l (mT (mmul (w_rot pb) Bm))). rewrite three_I by (done || apply rotation_I). by rewrite mmul_I_r.
Qed.

(** ** Names *)
Definition is_digit (a : Ascii.ascii) : Prop := a ∈ ["0"; "1"; "2"; "3"; "4"; "5"; "6"; "7"; "8"; "9"]%char.
Lemma digits_split (l1 l2 r1 r2 : list Ascii.ascii) x : ~ is_digit x -> Forall is_digit l1 -> Forall is_digit l2 -> l1 ++ x :: r1 = l2 ++ x :: r2 -> l1 = l2 /\ r1 = r2.
Proof.
  intros Hx H1. revert l2. induction H1 as [|a l1 Ha _ IH]; intros l2 H2 E; destruct H2 as [|b l2 Hb H2]; cbn in E.
  - by injection E as ->.
  - injection E as -> _. done.
  - injection E as -> _. done.
  - injection E as -> E. destruct (IH l2 H2 E) as [-> ->]. done.
Qed.
Lemma ascii_inj s t : String.list_ascii_of_string s = String.list_ascii_of_string t -> s = t.
Proof. intros H. by rewrite <- (String.string_of_list_ascii_of_string s), H, String.string_of_list_ascii_of_string. Qed.
Lemma name_inj : Inj (=) (=) partial_reconstruction_name.
Proof.
  intros [p n] [q m] E. unfold partial_reconstruction_name in E; cbn [fst snd] in E. apply (f_equal (fun s => reverse (String.list_ascii_of_string s))) in E. rewrite !list_ascii_app, !reverse_app in E.
  change (reverse (String.list_ascii_of_string "_index")) with ["x"; "e"; "d"; "n"; "i"; "_"]%char in E. rewrite <- !app_assoc in E. cbn [app] in E. apply digits_split in E as [E1 E2].
  - apply (inj reverse), ascii_inj in E1. apply (inj pretty) in E1 as ->. injection E2 as E2. apply (inj reverse), ascii_inj in E2 as ->. done.
  - unfold is_digit. intros H. repeat (apply elem_of_cons in H as [H|H]; [done|]). by apply elem_of_nil in H.
  - apply Forall_reverse. exact (pretty_N_digits (N.of_nat n)).
  - apply Forall_reverse. exact (pretty_N_digits (N.of_nat m)).
Qed.

(** ** The problem *)
Definition rel_of (c : constraint) : option constraint := match c with RelativeMotion _ _ _ _ _ _ => Some c | _ => None end.
Definition shot_of (s : view) : ra_shot := RAShot (get_rotation (vi_pose s)) (get_translation (vi_pose s)) false.
Definition motion_of (n : string) (s : view) : constraint := RelativeMotion n (vi_id s) (get_rotation (vi_pose s)) (get_translation (vi_pose s)) soft_scale_r soft_scale_t.
Definition first_of (vs : list view) (id : string) : option view := head (filter (fun s => vi_id s = id) vs).
Lemma first_of_app vs ws id : first_of (vs ++ ws) id = match first_of vs id with Some v => Some v | None => first_of ws id end.
Proof. unfold first_of. rewrite filter_app. by destruct (filter _ vs). Qed.
Lemma first_of_None vs id : first_of vs id = None <-> id ∉ (vi_id <$> vs).
Proof.
  unfold first_of. induction vs as [|v vs IH]; [cbn; split; [by intros _ H%elem_of_nil|done]|]. rewrite filter_cons. rewrite fmap_cons, not_elem_of_cons. case_decide as E; cbn.
  - split; [done|]. intros [H _]. by destruct H.
  - rewrite IH. split; [|tauto]. intros H. split; [|done]. intros ->. by apply E.
Qed.
Lemma first_of_Some vs id v : first_of vs id = Some v -> v ∈ vs /\ vi_id v = id.
Proof. unfold first_of. intros H. apply head_Some_elem_of in H. apply elem_of_list_filter in H. tauto. Qed.
Record seen (vs : list view) (st : problem * gset string) : Prop := {
  seen_added : forall id, id ∈ st.2 <-> id ∈ (vi_id <$> vs);
  seen_shots : forall id, p_shots st.1 !! id = shot_of <$> first_of vs id;
  seen_nodup : NoDup (omap absolute_position_of (p_constraints st.1)).*1.*1;
  seen_gps : forall id c sd, (id, c, sd) ∈ omap absolute_position_of (p_constraints st.1) <-> exists v, first_of vs id = Some v /\ c = vi_gps v /\ sd = vi_sd v }.
Lemma seen_shot n vs st s : seen vs st -> seen (vs ++ [s]) (soft_shot n st s).
Proof.
  destruct st as [p added]. intros [H1 H2 H3 H4]. cbn [fst snd] in *. unfold soft_shot. case_decide as Hin.
  - assert (forall id, first_of (vs ++ [s]) id = first_of vs id) as Hf.
    { intros id. rewrite first_of_app. destruct (first_of vs id) as [|] eqn:E; [done|]. apply first_of_None. cbn. rewrite elem_of_list_singleton. intros ->. apply first_of_None in E. apply E. by apply H1. }
    split; cbn [fst snd add_constraint p_shots p_constraints]; rewrite ?omap_app; cbn; rewrite ?app_nil_r.
    + intros id. rewrite H1, fmap_app, elem_of_app. cbn. rewrite elem_of_list_singleton. split; [tauto|]. intros [?| ->]; [done|by apply H1].
    + intros id. by rewrite H2, Hf.
    + done.
    + intros id c sd. rewrite H4. by setoid_rewrite Hf.
  - assert (first_of vs (vi_id s) = None) as Hn by (apply first_of_None; by rewrite <- H1).
    assert (first_of [s] (vi_id s) = Some s) as Hs by (unfold first_of; rewrite filter_cons; by rewrite decide_True).
    assert (forall id, id <> vi_id s -> first_of (vs ++ [s]) id = first_of vs id) as Hf.
    { intros id Hne. rewrite first_of_app. destruct (first_of vs id); [done|]. apply first_of_None. cbn. rewrite elem_of_list_singleton. congruence. }
    assert (first_of (vs ++ [s]) (vi_id s) = Some s) as Hf' by (by rewrite first_of_app, Hn).
    split; cbn [fst snd add_constraint add_shot p_shots p_constraints]; rewrite ?omap_app; cbn; rewrite ?app_nil_r.
    + intros id. rewrite elem_of_union, elem_of_singleton, H1, fmap_app, elem_of_app. cbn. rewrite elem_of_list_singleton. tauto.
    + intros id. destruct (decide (id = vi_id s)) as [->|Hne]; [by rewrite lookup_insert, Hf'|]. by rewrite lookup_insert_ne, Hf.
    + rewrite !fmap_app. apply NoDup_app. split; [done|]. split; [|apply NoDup_singleton]. cbn. intros id Hid ->%elem_of_list_singleton.
      apply elem_of_list_fmap in Hid as ([i c] & Ei & Hid). cbn in Ei. subst i. apply elem_of_list_fmap in Hid as ([[i' c'] sd] & Ei & Hid). cbn in Ei. injection Ei as <- ->. apply H4 in Hid as (v & Hv & _). congruence.
    + intros id c sd. rewrite elem_of_app, elem_of_list_singleton, H4. destruct (decide (id = vi_id s)) as [->|Hne].
      * rewrite Hf', Hn. split; [intros [(v & ? & _)|[= -> ->]]; [done|eauto]|]. intros (v & [= <-] & -> & ->). by right.
      * rewrite Hf by done. split; [|tauto]. intros [?|[= -> -> ->]]; done.
Qed.
Lemma seen_rec name vs st r : seen vs st -> seen (vs ++ r.2) (soft_rec name st r).
Proof.
  destruct st as [p added]. intros H. unfold soft_rec. assert (seen vs (add_rec p (name r.1) v0 v0 1 false, added)) as H' by (by destruct H; split). clear H. revert H'.
  generalize (add_rec p (name r.1) v0 v0 1 false, added). generalize r.2. intros l st. revert vs st. induction l as [|s l IH]; intros vs st H; cbn [foldl]; [by rewrite app_nil_r|].
  replace (vs ++ s :: l) with ((vs ++ [s]) ++ l) by (by rewrite <- app_assoc). by apply IH, seen_shot.
Qed.
Lemma seen_soft name recs : seen (mjoin recs.*2) (foldl (soft_rec name) (problem0, ∅) recs).
Proof.
  induction recs as [|r recs IH] using rev_ind.
  - split; cbn; [intros id; by rewrite elem_of_empty, elem_of_nil|by intros id; rewrite lookup_empty|constructor|]. intros id c sd. rewrite elem_of_nil. split; [done|by intros (v & ? & _)].
  - rewrite fmap_app, foldl_app, mjoin_app. cbn [foldl fmap list_fmap mjoin list_join]. rewrite app_nil_r. by apply seen_rec.
Qed.
Lemma rel_shot n st s : omap rel_of (p_constraints (soft_shot n st s).1) = omap rel_of (p_constraints st.1) ++ [motion_of n s] /\ p_recs (soft_shot n st s).1 = p_recs st.1.
Proof. destruct st as [p added]. unfold soft_shot. case_decide; cbn [fst snd add_constraint add_shot p_constraints p_recs]; rewrite !omap_app; cbn; by rewrite ?app_nil_r. Qed.
Lemma rel_rec name st r : omap rel_of (p_constraints (soft_rec name st r).1) = omap rel_of (p_constraints st.1) ++ (motion_of (name r.1) <$> r.2) /\
  p_recs (soft_rec name st r).1 = <[name r.1 := RARec v0 v0 1 false]> (p_recs st.1).
Proof.
  destruct st as [p added]. unfold soft_rec. change (omap rel_of (p_constraints (p, added).1)) with (omap rel_of (p_constraints (add_rec p (name r.1) v0 v0 1 false, added).1)).
  change (<[name r.1 := _]> (p_recs (p, added).1)) with (p_recs (add_rec p (name r.1) v0 v0 1 false, added).1).
  generalize (add_rec p (name r.1) v0 v0 1 false, added). generalize r.2. intros l. induction l as [|s l IH]; intros st; cbn [foldl fmap list_fmap]; [by rewrite app_nil_r|].
  destruct (IH (soft_shot (name r.1) st s)) as [-> ->]. destruct (rel_shot (name r.1) st s) as [-> ->]. by rewrite <- app_assoc.
Qed.
Lemma rel_soft name recs : let p := (foldl (soft_rec name) (problem0, ∅) recs).1 in
  omap rel_of (p_constraints p) = mjoin ((fun r => motion_of (name r.1) <$> r.2) <$> recs) /\
  (forall n, p_recs p !! n = if decide (n ∈ name <$> recs.*1) then Some (RARec v0 v0 1 false) else None).
Proof.
  induction recs as [|r recs IH] using rev_ind; cbn zeta in *; [by split|]. rewrite foldl_app. cbn [foldl]. destruct (rel_rec name (foldl (soft_rec name) (problem0, ∅) recs) r) as [-> ->]. destruct IH as [-> IH]. split.
  - rewrite fmap_app, mjoin_app. cbn. by rewrite app_nil_r.
  - intros n. rewrite !fmap_app. cbn. destruct (decide (n = name r.1)) as [->|Hne].
    + rewrite lookup_insert, decide_True; [done|]. apply elem_of_app. right. by apply elem_of_list_singleton.
    + rewrite lookup_insert_ne, IH by done. apply decide_ext. rewrite elem_of_app, elem_of_list_singleton. tauto.
Qed.
Lemma points_frame name pairs p : let p' := add_point_constraints name p pairs in p_recs p' = p_recs p /\ p_shots p' = p_shots p /\
  p_constraints p' = p_constraints p ++ ((fun '((ka, pa), (kb, pb)) => CommonPoint (name ka) pa (name kb) pb (1 / 10)) <$> pairs).
Proof.
  cbn zeta. unfold add_point_constraints. revert p. induction pairs as [|[[ka pa] [kb pb]] pairs IH]; intros p; cbn [foldl fmap list_fmap]; [by rewrite app_nil_r|].
  destruct (IH (add_constraint p (CommonPoint (name ka) pa (name kb) pb (1 / 10)))) as (-> & -> & ->). cbn. by rewrite <- app_assoc.
Qed.

(** ** The files *)
Section Submodels.
Context {C B D X O Rf : Type}.
Notation map := (@map C B pose vec D X O Rf).
Notation files := (gmap string (list map)).
Variable gps : D -> vec * R.
Variable T : key -> R * mat * vec.
Definition moved (k : key) (m : map) : map := let '(s, A, b) := T k in apply_similarity m s A b.
Lemma apply_all_filter ts path (recs : list map) : apply_all ts path recs = apply_all (filter (fun t => t.1.1 = path) ts) path recs.
Proof.
  revert recs. induction ts as [|[k [[s A] b]] ts IH]; intros recs; cbn [apply_all]; [done|]. rewrite filter_cons. cbn [fst]. case_decide as E; [|by apply IH].
  cbn [apply_all]. rewrite decide_True by done. destruct (recs !! k.2); [by apply IH|done].
Qed.
Lemma apply_all_one path (pre rest : list map) :
  apply_all (imap (fun i _ => ((path, (length pre + i)%nat), T (path, (length pre + i)%nat))) rest) path (pre ++ rest) = Ok (pre ++ imap (fun i m => moved (path, (length pre + i)%nat) m) rest).
Proof.
  revert pre. induction rest as [|m rest IH]; intros pre; [done|]. cbn [imap apply_all]. destruct (T (path, (length pre + 0)%nat)) as [[s A] b] eqn:ET. cbn [fst snd]. rewrite decide_True by done.
  rewrite Nat.add_0_r in *. rewrite list_lookup_middle by done. rewrite insert_app_r_alt, Nat.sub_diag by lia. cbn [insert list_insert].
  specialize (IH (pre ++ [apply_similarity m s A b])). rewrite app_length, Nat.add_1_r, <- !app_assoc in IH. cbn [app] in IH. etransitivity; [|etransitivity; [exact IH|]].
  - f_equal. apply imap_ext. intros i x _. unfold compose. cbn. by replace (length pre + S i)%nat with (S (length pre + i)) by lia.
  - do 2 f_equal. unfold moved at 2. rewrite ET. f_equal. apply imap_ext. intros i x _. unfold compose. cbn. by replace (length pre + S i)%nat with (S (length pre + i)) by lia.
Qed.
Definition steps (recs : list (key * list view)) : list (key * (R * mat * vec)) := (fun r => (r.1, T r.1)) <$> recs.
Lemma steps_filter paths (f : files) path recs : NoDup paths -> path ∈ paths -> f !! path = Some recs ->
  filter (fun t => t.1.1 = path) (steps (load_reconstruction_shots gps paths f)) = imap (fun i _ => ((path, i), T (path, i))) recs.
Proof.
  intros Hn Hin Hf. unfold steps, load_reconstruction_shots.
  assert (forall p, filter (fun t : key * (R * mat * vec) => t.1.1 = path) ((fun r : key * list view => (r.1, T r.1)) <$> match f !! p with None => [] | Some rs => imap (fun i m => ((p, i), shots_of gps m)) rs end)
    = if decide (p = path) then imap (fun i _ => ((path, i), T (path, i))) recs else []) as Hone.
  { intros p. case_decide as E.
    - subst p. rewrite Hf, fmap_imap. unfold compose. cbn. clear. assert (forall g : nat -> nat, filter (fun t : key * (R * mat * vec) => t.1.1 = path) (imap (fun i _ => ((path, g i), T (path, g i))) recs) = imap (fun i _ => ((path, g i), T (path, g i))) recs) as H; [|exact (H (fun i => i))].
      induction recs as [|m recs IH]; intros g; [done|]. cbn [imap]. rewrite filter_cons, decide_True by done. f_equal. exact (IH (fun i => g (S i))).
    - destruct (f !! p) as [rs|]; [|done]. rewrite fmap_imap. unfold compose; cbn. assert (forall g : nat -> nat, filter (fun t : key * (R * mat * vec) => t.1.1 = path) (imap (fun i _ => ((p, g i), T (p, g i))) rs) = []) as H; [|exact (H (fun i => i))].
      clear Hf. induction rs as [|m rs IH]; intros g; [done|]. cbn [imap]. rewrite filter_cons, decide_False by done. exact (IH (fun i => g (S i))). }
  induction Hn as [|p paths Hp Hn IH]; [by apply elem_of_nil in Hin|]. cbn [fmap list_fmap mjoin list_join]. rewrite fmap_app, filter_app, Hone. apply elem_of_cons in Hin. case_decide as E.
  - subst p. clear IH Hin. assert (filter (fun t : key * (R * mat * vec) => t.1.1 = path) ((fun r : key * list view => (r.1, T r.1)) <$> mjoin ((fun p => match f !! p with None => [] | Some rs => imap (fun i m => ((p, i), shots_of gps m)) rs end) <$> paths)) = []) as Hz; [|exact (eq_trans (f_equal (app _) Hz) (app_nil_r _))].
    clear Hn. induction paths as [|q paths IH]; [done|]. apply not_elem_of_cons in Hp as [Hq Hp]. cbn [fmap list_fmap mjoin list_join]. rewrite fmap_app, filter_app, Hone, decide_False by done. cbn [app]. by apply IH.
  - destruct Hin as [->|Hin]; [done|]. cbn [app]. by apply IH.
Qed.
Lemma apply_paths_ok ts ps (f : files) (g : string -> list map -> list map) : NoDup ps ->
  (forall path recs, path ∈ ps -> f !! path = Some recs -> apply_all ts path recs = Ok (g path recs)) ->
  exists out, apply_paths ts ps f = Ok out /\ forall path, out !! path = if decide (path ∈ ps) then g path <$> f !! path else None.
Proof.
  intros Hn H. induction Hn as [|p ps Hp Hn IH]; cbn [apply_paths].
  - exists ∅. split; [done|]. intros path. rewrite decide_False by apply not_elem_of_nil. apply lookup_empty.
  - destruct IH as (out & E & Hout); [intros path recs Hin; apply H; by right|]. destruct (f !! p) as [recs|] eqn:Ep.
    + rewrite (H p recs) by (done || by left). cbn [res_bind]. rewrite E. cbn [res_bind]. eexists; split; [done|]. intros path. destruct (decide (path = p)) as [->|Hne].
      * rewrite lookup_insert, decide_True by (by left). by rewrite Ep.
      * rewrite lookup_insert_ne, Hout by done. apply decide_ext. rewrite elem_of_cons. tauto.
    + exists out. split; [done|]. intros path. rewrite Hout. destruct (decide (path = p)) as [->|Hne].
      * rewrite decide_False by done. rewrite decide_True by (by left). by rewrite Ep.
      * apply decide_ext. rewrite elem_of_cons. tauto.
Qed.
Lemma steps_paths paths (f : files) path : path ∈ ((fun t => t.1.1) <$> steps (load_reconstruction_shots gps paths f)) <-> path ∈ paths /\ exists m recs, f !! path = Some (m :: recs).
Proof.
  unfold steps, load_reconstruction_shots. rewrite <- list_fmap_compose. unfold compose; cbn. rewrite elem_of_list_fmap. split.
  - intros ([k vs] & -> & Hin). apply elem_of_list_join in Hin as (l & Hin & Hl). apply elem_of_list_fmap in Hl as (p & -> & Hp). destruct (f !! p) as [rs|] eqn:Ef; [|by apply elem_of_nil in Hin].
    apply elem_of_lookup_imap in Hin as (i & m & E & Hi). injection E as -> ->. cbn. split; [done|]. destruct rs; [done|eauto].
  - intros (Hp & m & rs & Ef). exists ((path, 0%nat), shots_of gps m). split; [done|]. apply elem_of_list_join. eexists. split; [|apply elem_of_list_fmap; by exists path]. rewrite Ef. cbn [imap]. by left.
Qed.
Lemma apply_transformations_ok paths (f : files) : NoDup paths ->
  exists out, apply_transformations (steps (load_reconstruction_shots gps paths f)) f = Ok out /\
  forall path, out !! path = if decide (path ∈ paths) then match f !! path with Some (m :: recs) => Some (imap (fun i m => moved (path, i) m) (m :: recs)) | _ => None end else None.
Proof.
  intros Hn. unfold apply_transformations. destruct (apply_paths_ok (steps (load_reconstruction_shots gps paths f)) (remove_dups ((fun t => t.1.1) <$> steps (load_reconstruction_shots gps paths f))) f (fun path recs => imap (fun i m => moved (path, i) m) recs)) as (out & E & Hout).
  - apply NoDup_remove_dups.
  - intros path recs Hin Hf. rewrite elem_of_remove_dups, steps_paths in Hin. destruct Hin as [Hin _]. rewrite apply_all_filter, (steps_filter paths f path recs Hn Hin Hf). exact (apply_all_one path [] recs).
  - exists out. split; [done|]. intros path. rewrite Hout. case_decide as E1; rewrite elem_of_remove_dups, steps_paths in E1.
    + destruct E1 as (Hp & m & recs & Hf). rewrite decide_True by done. by rewrite Hf.
    + case_decide as Hp; [|done]. destruct (f !! path) as [[|m recs]|] eqn:Hf; [done| |done]. destruct E1; eauto.
Qed.
End Submodels.
