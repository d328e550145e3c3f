(** C79: the alignment of a reconstruction to GPS positions and ground control points by a direct fit *)
From stdpp Require Import prelude gmap strings.
From Coq Require Import Reals Lra Psatz.
From Verif Require Import Base Lin MapModel RotModel RotProofs PoseModel PoseSpec PoseProofs PlaneProofs JsonModel GcpModel GcpProofs TriangModel TriangSpec TriangProps GeoModel AnglesModel
  FitModel FitSpec FitProofs FitPlaneProofs FitProps ResidualModel ResidualSpec AlignModel AlignSpec AlignProofs PoseProps.
Local Open Scope R_scope.

(** ** The fit *)
(** Nothing to align to: no similarity. One position, or all the same: a translation that brings the first point to its position. *)
Theorem C79_nothing svd us : naive_similarity svd us [] = None.
Proof. done. Qed.
Theorem C79_translation svd us x y c : (c = [] \/ deviation (y :: (snd <$> c)) < / 10 ^ 10) ->
  exists b, naive_similarity svd us ((x, y) :: c) = Some (1, mI, b) /\ moved 1 mI b x = y.
Proof.
  intros H. exists (vsub y x). split; [|unfold moved; rewrite mvec_I; destruct x, y; unfold vadd, vscale, vsub; cbn; f_equal; ring].
  unfold naive_similarity. rewrite std_deviation. cbn [fmap list_fmap fst snd] in *. destruct H as [->|H]; [by rewrite orb_true_r|]. destruct (Rlt_dec _ _); [done|]. done.
Qed.
(** Two positions: both points are brought to their positions, whatever they are. *)
Theorem C79_two svd x0 y0 x1 y1 : let c := [(x0, y0); (x1, y1)] in
  svd_right svd [x0; x1; x1] [y0; y1; y1] -> x0 <> x1 -> / 10 ^ 10 <= deviation [y0; y1] ->
  exists s r b, naive_similarity svd true c = Some (s, r, b) /\ rotation r /\ s * norm (vsub x1 x0) = norm (vsub y1 y0) /\ moved s r b x0 = y0 /\ moved s r b x1 = y1.
Proof.
  intros c Hs Hx Hd. set (u := vsub x1 x0). set (v := vsub y1 y0).
  assert (0 < norm u) as Hu. { pose proof (norm_nonneg u). destruct (Req_dec (norm u) 0) as [E|]; [|lra]. apply norm_0 in E. apply sub_eq in E. congruence. }
  assert (0 < norm v) as Hv.
  { pose proof (norm_nonneg v). destruct (Req_dec (norm v) 0) as [E|]; [|lra]. apply norm_0, sub_eq in E as ->. pose proof (deviation_pos _ _ (inv10_pos 10) Hd) as P.
    rewrite scatter_all_equal in P; [lra|]. intros p q Hp Hq. set_solver. }
  set (s := norm v / norm u). assert (0 < s) as Hsp by (by apply Rdiv_lt_0_compat).
  destruct (some_rotation (vscale s u) v) as (a & Ha & Ea). { rewrite norm_vscale, Rabs_pos_eq by lra. unfold s. field. lra. }
  set (b := vsub y0 (vscale s (mvec a x0))).
  destruct (naive_exact svd true s a b c) as (r & b' & E & Hr & Hm & _); [exact Hs|exact Hd| |done|done|done|].
  { intros x y H. unfold c in H. repeat (apply elem_of_cons in H as [H|H]); [injection H as -> ->|injection H as -> ->|inversion H].
    - unfold moved, b. generalize (vscale s (mvec a x0)). vring.
    - unfold moved, b. assert (v = vsub (vscale s (mvec a x1)) (vscale s (mvec a x0))) as E. { rewrite <- Ea. unfold u. vring. }
      unfold v in E. assert (y1 = vadd (vsub (vscale s (mvec a x1)) (vscale s (mvec a x0))) y0) as E2 by (rewrite <- E; vring).
      etrans; [exact E2|]. generalize (vscale s (mvec a x0)) (vscale s (mvec a x1)). vring. }
  exists s, r, b'. repeat split; [done|apply Hr|apply Hr| |apply Hm; left|apply Hm; right; left]. unfold s, u, v. field. fold u. lra.
Qed.
(** In general it is a rotation and a translation that bring the points as near as any other to their positions, for its scale: the one
    that gives the points the scatter of the positions, or 1 (two pairs are taken with the second one twice). *)
Theorem C79_least_squares svd (us : bool) c : let c3 := match c with [p; q] => [p; q; q] | _ => c end in
  svd_right svd (fst <$> c3) (snd <$> c3) -> / 10 ^ 10 <= deviation (snd <$> c) -> (us = true -> ~ all_equal (fst <$> c)) ->
  exists s r b, naive_similarity svd us c = Some (s, r, b) /\ rotation r /\ 0 < s /\
    (if us then s * s * scatter (fst <$> c3) = scatter (snd <$> c3) else s = 1) /\
    forall r' b', rotation r' -> squared_error (moved s r b) c3 <= squared_error (moved s r' b') c3.
Proof.
  intros c3 Hs Hd Hu. change c3 with (tripled c) in *. clear c3. rewrite !fmap_tripled in *. destruct (naive_least svd us c Hs Hd Hu) as (s & r & b & H). exists s, r, b. by rewrite <- !fmap_tripled in *.
Qed.
(** Points that are all the same cannot be scaled to positions that are not: no similarity. *)
Theorem C79_degenerate svd c : / 10 ^ 10 <= deviation (snd <$> c) -> all_equal (fst <$> c) -> naive_similarity svd true c = None.
Proof.
  intros Hd Ha. destruct (naive_cases svd true c Hd) as (Hl & Hy & ->).
  assert (superimposition_matrix svd (tripled (fst <$> c)) (tripled (snd <$> c)) true = Ok None) as ->; [|done].
  apply C78_not_finite; [apply length_tripled; by rewrite fmap_length|rewrite <- !fmap_tripled, !fmap_length; done|]. split; [done|]. by apply all_equal_tripled.
Qed.
(** Positions that are images of the points by a similarity: every point is brought to its position, by that similarity unless they are on a line. *)
Theorem C79_exact svd (us : bool) s a b c : let c3 := match c with [p; q] => [p; q; q] | _ => c end in
  svd_right svd (fst <$> c3) (snd <$> c3) -> / 10 ^ 10 <= deviation (snd <$> c) ->
  (forall x y, (x, y) ∈ c -> y = moved s a b x) -> 0 < s -> rotation a -> (us = false -> s = 1) ->
  exists r b', naive_similarity svd us c = Some (s, r, b') /\ rotation r /\ (forall x y, (x, y) ∈ c -> moved s r b' x = y) /\ (~ on_a_line (fst <$> c) -> r = a /\ b' = b).
Proof. intros c3 Hs. change c3 with (tripled c) in *. clear c3. rewrite !fmap_tripled in Hs. by apply naive_exact. Qed.
(** The method chosen: points on a line, or less than three, are not fitted directly. *)
Theorem C79_method eigenvalues x : sorted_eigenvalues (scatter_matrix x) (eigenvalues (scatter_matrix x)) ->
  detect_alignment eigenvalues x = "orientation_prior"%string \/
  detect_alignment eigenvalues x = "naive"%string /\ (3 <= length x)%nat /\ ~ on_a_line x.
Proof.
  intros He. unfold detect_alignment. destruct (length x <? 3)%nat eqn:El; [by left|]. apply Nat.ltb_ge in El.
  destruct (line_of eigenvalues x) eqn:E; [by left|]. right. split; [done|]. split; [done|]. intros Hl. rewrite line_detected in E by done. done.
Qed.

(** ** The positions *)
Section Map.
Context {C D X O : Type}.
Notation shot := (shot D X O). Notation instance := (instance pose).
Notation map := (@map C similarity pose vec D X O vec).
Variable gps : D -> option vec.
Variable orientation : D -> option Z.
Variable bearing : C -> R * R -> vec.
Variable enumI : gmap string instance -> list (string * instance).
Variable enumS : gmap shot_key shot -> list (shot_key * shot).
Variable svd : svd_of.
Variable svd2 : svd2_of.
Variable eigenvalues : mat -> R * R * R.
Variable eigenvector : list (vec * R) -> vec * R.
Notation constraints := (alignment_constraints gps bearing enumI).
Notation similarity_of := (compute_reconstruction_similarity gps orientation bearing enumI enumS svd svd2 eigenvalues eigenvector).
Notation align := (align_reconstruction gps orientation bearing enumI enumS svd svd2 eigenvalues eigenvector).

(** A rig instance should be at the mean of the GPS positions of its shots. *)
Theorem C79_gps_positions (m : map) i x y : instance_constraint gps m i = Some (x, y) <-> exists l, gps_of_instance gps m i l /\ l <> [] /\ x = get_origin (in_pose i) /\ y = centroid l.
Proof.
  unfold instance_constraint. change (instance_gps gps m i) with (members_gps gps m i). pose proof (members_gps_spec gps m i) as Hm. split.
  - destruct (members_gps gps m i) as [|p l] eqn:E; [done|]. intros [= <- <-]. exists (p :: l). done.
  - intros (l & Hl & Hn & -> & ->). pose proof (gps_permutation gps m i _ _ Hl Hm) as P. destruct (members_gps gps m i) as [|p l'] eqn:E; [by apply Permutation_nil_r in P|].
    rewrite (centroid_permutation _ _ P). done.
Qed.
(** A ground control point that every shot that has it sees at the same place [P], at least 1 mm away, two of them under an angle of at least 1
    degree, is found there. *)
Theorem C79_gcp_triangulated (m : map) p P : (forall c x, norm (bearing c x) = 1) ->
  (forall o s q c, o ∈ gcp_obs p -> m_shots m !! (false, go_shot o) = Some s -> get_pose m (false, go_shot o) = Some q -> m_cameras m !! sh_camera s = Some c ->
     valid q /\ exists d, 1 / 1000 <= d /\ transform q P = vscale d (bearing c (go_projection o))) ->
  (exists r r', r ∈ gcp_rays bearing m (gcp_obs p) /\ r' ∈ gcp_rays bearing m (gcp_obs p) /\ PI / 180 <= TriangSpec.angle r.2 r'.2 <= PI - PI / 180) ->
  triangulate_gcp bearing m p = Some P.
Proof.
  intros Hb Ho (r & r' & Hr & Hr' & Ha). unfold triangulate_gcp. set (rays := gcp_rays bearing m (gcp_obs p)) in *.
  assert (forall q, q ∈ rays -> norm q.2 = 1 /\ exists d, 1 / 1000 <= d /\ sees q d P) as Hq.
  { intros q Hq. unfold rays, gcp_rays in Hq. apply elem_of_list_omap in Hq as (o & Hin & E).
    destruct (m_shots m !! (false, go_shot o)) as [s|] eqn:Es; [|done]. destruct (get_pose m (false, go_shot o)) as [q'|] eqn:Eq; [|done].
    cbn in E. destruct (m_cameras m !! sh_camera s) as [c|] eqn:Ec; [|done]. cbn in E. injection E as <-. destruct (Ho o s q' c Hin Es Eq Ec) as (Hv & d & Hd & Et). cbn [fst snd].
    destruct Hv as (Hrot & Hc & Htr). split; [rewrite rotation_norm by (by apply rotation_T); apply Hb|]. exists d. split; [done|]. split; [lra|].
    unfold on_line. cbn [fst snd]. rewrite <- mvec_scale, <- Et. unfold transform, get_origin. rewrite Htr, mvec_add, <- mvec_mmul, rotation_l, mvec_I by done.
    generalize (mvec (mT (w_rot q')) (w_tr q')). vring. }
  assert (length rays <> 1%nat /\ length rays <> 0%nat) as [L1 L0].
  { split; intros E; [|apply nil_length_inv in E; rewrite E in Hr; inversion Hr]. destruct rays as [|q [|q' rays']] eqn:Er; cbn in E; try lia.
    apply elem_of_list_singleton in Hr as ->. apply elem_of_list_singleton in Hr' as ->. unfold TriangSpec.angle in Ha. pose proof (proj1 (Hq q ltac:(left))) as N. rewrite N in Ha.
    assert (dot q.2 q.2 = 1) as D1. { pose proof (norm_sq q.2) as E1. rewrite N in E1. lra. }
    rewrite D1 in Ha. replace (1 / (1 * 1)) with 1 in Ha by field. rewrite acos_1 in Ha. pose proof PI_RGT_0. lra. }
  destruct (2 <=? length rays)%nat eqn:E2; [|apply Nat.leb_gt in E2; lia].
  rewrite (C48_triangulate_complete rays _ _ _ P); [done|..].
  - intros q Hin. apply elem_of_list_In in Hin. by apply Hq.
  - unfold radians. pose proof PI_RGT_0. lra.
  - by rewrite repeat_length.
  - intros t Ht. apply repeat_spec in Ht. lra.
  - intros q Hin. apply elem_of_list_In in Hin. by apply Hq.
  - exists r, r'. rewrite <- !elem_of_list_In. split; [done|]. split; [done|]. replace (radians 1) with (PI / 180) by (unfold radians; field). done.
Qed.
(** What is used: the ground control points that are found and surveyed, and the rig instances with GPS, as the options say. *)
Theorem C79_constraints cfg (m : map) gcps use_gps c : enumerates enumI -> constraints cfg m gcps use_gps = Ok c -> forall x y,
  (x, y) ∈ c <->
  (bundle_use_gcp cfg = true /\ exists p, p ∈ gcps /\ gcp_constraint bearing m p = Ok (Some (x, y))) \/
  (use_gps = true /\ bundle_use_gps cfg = true /\ exists id i l, m_instances m !! id = Some i /\ gps_of_instance gps m i l /\ l <> [] /\ x = get_origin (in_pose i) /\ y = centroid l).
Proof.
  intros He. unfold alignment_constraints. destruct (if bundle_use_gcp cfg then _ else _) as [g|e] eqn:E; cbn [res_bind]; [|done]. intros [= <-] x y. rewrite elem_of_app. f_equiv.
  - rewrite elem_of_list_omap. destruct (bundle_use_gcp cfg).
    + apply mapR_ok in E. split.
      * intros (o & Hin & ->). split; [done|]. apply elem_of_list_lookup in Hin as [n Hn]. destruct (Forall2_lookup_r _ _ _ _ _ E Hn) as (p & Hp & Ep). exists p. split; [by eapply elem_of_list_lookup_2|done].
      * intros (_ & p & Hp & Ep). exists (Some (x, y)). split; [|done]. apply elem_of_list_lookup in Hp as [n Hn]. destruct (Forall2_lookup_l _ _ _ _ _ E Hn) as (o & Ho & Eo).
        rewrite Ep in Eo. injection Eo as <-. by eapply elem_of_list_lookup_2.
    + injection E as <-. split; [intros (? & H & _); inversion H|by intros [? _]].
  - destruct use_gps; cbn [andb]; [|split; [intros H; inversion H|by intros [? _]]]. destruct (bundle_use_gps cfg); [|split; [intros H; inversion H|by intros (_ & ? & _)]].
    rewrite elem_of_list_omap. split.
    + intros ([id i] & Hin & E'). cbn in E'. apply C79_gps_positions in E' as (l & Hl). split; [done|]. split; [done|]. exists id, i, l. split; [|done].
      rewrite (He (m_instances m)) in Hin. by apply elem_of_map_to_list in Hin.
    + intros (_ & _ & id & i & l & Hi & Hl). exists (id, i). split; [rewrite (He (m_instances m)); by apply elem_of_map_to_list|]. cbn. apply C79_gps_positions. eauto.
Qed.

(** ** The alignment *)
Lemma use_scale_of (m : map) : bool_decide (map_Forall (fun _ i => (size (in_members i) <= 1)%nat) (m_instances m)) = true \/
  bool_decide (map_Forall (fun _ i => (size (in_members i) <= 1)%nat) (m_instances m)) = false /\ exists id i, m_instances m !! id = Some i /\ (1 < size (in_members i))%nat.
Proof.
  destruct (bool_decide _) eqn:E; [by left|]. right. split; [done|]. apply bool_decide_eq_false in E. apply map_not_Forall in E as (id & i & Hi & H); [|apply _].
  exists id, i. split; [done|]. lia.
Qed.
(** With no position nothing is changed. *)
Theorem C79_unchanged cfg (m : map) gcps use_gps : align_method cfg = "naive"%string -> constraints cfg m gcps use_gps = Ok [] -> align cfg m gcps use_gps false = Ok (None, m).
Proof.
  intros Hm Hc. unfold align_reconstruction, compute_reconstruction_similarity. cbn [andb]. rewrite decide_False by congruence. cbn [res_bind]. rewrite decide_False by congruence. rewrite decide_True by done.
  unfold compute_naive_similarity. rewrite Hc. done.
Qed.
(** When the positions are the images of the points by a similarity (of scale 1 if there are rigs of several cameras) and the points are not on a
    line, that similarity is applied to the whole reconstruction: every point, every camera (C14) and every rig instance is where it should be. *)
Theorem C79_aligned cfg (m : map) gcps use_gps c s a b : align_method cfg = "naive"%string ->
  constraints cfg m gcps use_gps = Ok c -> svd_right svd (fst <$> c) (snd <$> c) -> / 10 ^ 10 <= deviation (snd <$> c) -> ~ on_a_line (fst <$> c) ->
  (forall x y, (x, y) ∈ c -> y = moved s a b x) -> 0 < s -> rotation a -> ((exists id i, m_instances m !! id = Some i /\ (1 < size (in_members i))%nat) -> s = 1) ->
  align cfg m gcps use_gps false = Ok (Some (s, a, b), apply_similarity m s a b).
Proof.
  intros Hm Hc Hs Hd Hl He Hp Ha Hu. unfold align_reconstruction, compute_reconstruction_similarity. cbn [andb]. rewrite decide_False by congruence. cbn [res_bind].
  rewrite decide_False by congruence. rewrite decide_True by done. unfold compute_naive_similarity. rewrite Hc. cbn [res_bind].
  set (us := bool_decide (map_Forall (fun _ i => (size (in_members i) <= 1)%nat) (m_instances m))).
  assert (tripled c = c) as Et.
  { destruct c as [|p [|q [|r l]]]; try done. exfalso. apply Hl. destruct p as [p ?], q as [q ?]. exists p, (vsub q p). cbn. intros x Hx. repeat (apply elem_of_cons in Hx as [->|Hx]); [exists 0|exists 1|inversion Hx]; clear; revert p q; vring. }
  destruct (naive_exact svd us s a b c) as (r & b' & E & _ & _ & Hn); [by rewrite <- !fmap_tripled, Et|done|done|done|done| |].
  { intros E. apply Hu. destruct (use_scale_of m) as [E'|[_ E']]; [|done]. fold us in E'. congruence. }
  destruct (Hn Hl) as [-> ->]. rewrite E. cbn. destruct (Req_EM_T s 0); [lra|]. done.
Qed.
(** So is it when the method is to be chosen and the direct fit is. *)
Theorem C79_aligned_auto cfg (m : map) gcps use_gps c s a b : align_method cfg = "auto"%string -> sorted_eigenvalues (scatter_matrix (fst <$> c)) (eigenvalues (scatter_matrix (fst <$> c))) ->
  constraints cfg m gcps use_gps = Ok c -> detect_alignment_constraints gps bearing enumI eigenvalues cfg m gcps use_gps = Ok "naive"%string ->
  svd_right svd (fst <$> c) (snd <$> c) -> / 10 ^ 10 <= deviation (snd <$> c) ->
  (forall x y, (x, y) ∈ c -> y = moved s a b x) -> 0 < s -> rotation a -> ((exists id i, m_instances m !! id = Some i /\ (1 < size (in_members i))%nat) -> s = 1) ->
  align cfg m gcps use_gps false = Ok (Some (s, a, b), apply_similarity m s a b).
Proof.
  intros Hm He Hc Hdet Hs Hd Hx Hp Ha Hu.
  assert (~ on_a_line (fst <$> c)) as Hl. { unfold detect_alignment_constraints in Hdet. rewrite Hc in Hdet. cbn in Hdet. injection Hdet as E. destruct (C79_method eigenvalues _ He) as [E'|(_ & _ & H)]; [congruence|done]. }
  set (cfg' := Config "naive" (align_orientation_prior cfg) (bundle_use_gcp cfg) (bundle_use_gps cfg) (bundle_compensate_gps_bias cfg)).
  pose proof (C79_aligned cfg' m gcps use_gps c s a b eq_refl Hc Hs Hd Hl Hx Hp Ha Hu) as H. rewrite <- H. unfold align_reconstruction, compute_reconstruction_similarity. cbn [andb].
  rewrite decide_True by done. rewrite Hdet. cbn [res_bind]. rewrite decide_False by done. rewrite decide_True by done. cbn [align_method cfg'].
  rewrite decide_False by done. cbn [res_bind]. rewrite decide_False by done. rewrite decide_True by done. done.
Qed.
(** Then each rig instance with GPS is at the mean of its GPS positions. *)
Theorem C79_at_gps cfg (m : map) gcps use_gps c s a b m' : enumerates enumI -> poses_valid m -> rotation a -> constraints cfg m gcps use_gps = Ok c -> (forall x y, (x, y) ∈ c -> y = moved s a b x) ->
  align cfg m gcps use_gps false = Ok (Some (s, a, b), m') -> use_gps = true -> bundle_use_gps cfg = true ->
  forall id i l, m_instances m !! id = Some i -> gps_of_instance gps m i l -> l <> [] ->
  exists i', m_instances m' !! id = Some i' /\ in_members i' = in_members i /\ get_origin (in_pose i') = centroid l.
Proof.
  intros He [_ Hv] Ha Hc Hx Hal Hg Hg' id i l Hi Hl Hn. unfold align_reconstruction in Hal. cbn [andb] in Hal.
  destruct (similarity_of _ _ _ _ _) as [[[[s' a'] b']|]|e]; cbn [res_bind] in Hal; [|done|done]. injection Hal as -> -> -> <-.
  exists (Instance (apply_similarity_pose (in_pose i) s a b) (in_members i)). split; [cbn; by rewrite lookup_fmap, Hi|]. split; [done|]. cbn [in_pose].
  rewrite similarity_origin by (try done; by eapply Hv). symmetry. change (centroid l = moved s a b (get_origin (in_pose i))). apply Hx.
  apply (C79_constraints cfg m gcps use_gps c He Hc). right. split; [done|]. split; [done|]. exists id, i, l. done.
Qed.
(** ** The bias of the GPS of a camera *)
Lemma bias_inverse s A b x : rotation A -> s <> 0 -> sim_transform (bias_of (s, A, b)) (moved s A b x) = x.
Proof.
  intros HA Hs. unfold bias_of, sim_transform, sim_rotation_matrix, sim_translation, similarity_of_vector, pose_of_vector, from_world_to_cam. cbn [sim_pose sim_scale w_rot w_tr].
  rewrite exp_opp. destruct (exp_log A HA) as [-> _]. unfold moved. rewrite mvec_mscale, !mvec_add, mvec_scale, <- mvec_mmul, rotation_l, mvec_I by done.
  generalize (mvec (mT A) b). intros y. destruct x, y. unfold vadd, vscale, vopp. cbn. f_equal; field; done.
Qed.
Lemma set_all_bias_spec (l : list (string * sim)) : forall (m m' : map), set_all_bias m l = Ok m' -> NoDup (fst <$> l) ->
  m' = set_biases m (m_bias m') /\ (forall camera t, (camera, t) ∈ l -> m_bias m' !! camera = Some (bias_of t)) /\ (forall camera, camera ∉ fst <$> l -> m_bias m' !! camera = m_bias m !! camera).
Proof.
  induction l as [|[camera t] l IH]; intros m m' H Hn.
  - injection H as <-. split; [by destruct m|]. split; [intros ?? H; inversion H|done].
  - cbn in H, Hn. apply NoDup_cons in Hn as [Hn1 Hn2]. unfold set_bias in H. destruct (m_bias m !! camera) as [b0|] eqn:Eb; [|done]. cbn in H. apply IH in H as (E & H1 & H2); [|done].
    split; [rewrite E; by destruct m|]. split.
    + intros camera' t' [[= -> ->]|Hin]%elem_of_cons; [rewrite H2 by done; cbn; by rewrite lookup_insert|by apply H1].
    + intros camera' Hni. cbn in Hni. apply not_elem_of_cons in Hni as [Hne Hni]. rewrite H2 by done. cbn. by rewrite lookup_insert_ne.
Qed.
(** When the bias of the GPS is to be corrected, the reconstruction is aligned on the ground control points alone; then the bias of each camera takes the GPS
    positions back to where the shots are: it is the inverse of the similarity that brings the shots of the camera to their GPS positions. Either every camera that has shots
    gets its bias, or none does. *)
Theorem C79_bias cfg (m : map) gcps use_gps t m' : enumerates enumS -> bundle_compensate_gps_bias cfg = true -> align cfg m gcps use_gps true = Ok (t, m') ->
  match t with
  | None => m' = m
  | Some (s, A, b) =>
      exists us, similarity_of cfg m gcps false us = Ok t /\
      let m1 := apply_similarity m s A b in
      m' = set_biases m1 (m_bias m') /\
      (m_bias m' = m_bias m \/
       forall k x, m_shots m !! (false, k) = Some x -> exists s' A' b' bias,
         similarity_of cfg (of_camera m1 (sh_camera x)) [] true us = Ok (Some (s', A', b')) /\ m_bias m' !! sh_camera x = Some bias /\
         (rotation A' -> forall p, sim_transform bias (moved s' A' b' p) = p))
  end.
Proof.
  intros He Hb H. unfold align_reconstruction in H. rewrite Hb in H. cbn [andb] in H. set (us := bool_decide _) in H. clearbody us. unfold set_gps_bias in H.
  destruct (similarity_of cfg m gcps false us) as [r|e] eqn:Er; cbn [res_bind] in H; [|done]. destruct r as [[[s A] b]|]; [|injection H as <- <-; done].
  set (m1 := apply_similarity m s A b) in *. destruct (mapR _ _) as [ts|e] eqn:Et; cbn [res_bind] in H; [|done]. apply mapR_ok in Et.
  destruct (forallb _ ts) eqn:Ef.
  - destruct (set_all_bias m1 _) as [m2|e] eqn:E2; cbn [res_bind] in H; [|done]. injection H as <- <-. exists us. split; [done|]. cbn zeta.
    assert (fst <$> ts = shot_cameras enumS m1) as Efst.
    { clear -Et. induction Et as [|c ct l l' Hc Hl IH]; [done|]. cbn. rewrite IH. f_equal. destruct (similarity_of _ _ _ _ _); [|done]. cbn in Hc. injection Hc as <-. done. }
    assert (NoDup (fst <$> omap (fun ct => t ← ct.2; Some (ct.1, t)) ts)) as Hnd.
    { assert (fst <$> omap (fun ct => t ← ct.2; Some (ct.1, t)) ts = fst <$> ts) as ->; [|rewrite Efst; apply NoDup_remove_dups].
      clear -Ef. induction ts as [|[c [t|]] ts IH]; [done| |done]. cbn in *. by rewrite IH. }
    destruct (set_all_bias_spec _ _ _ E2 Hnd) as (Em & H1 & _). split; [done|]. right. intros k x Hx.
    assert (sh_camera x ∈ shot_cameras enumS m1) as Hin.
    { unfold shot_cameras. apply elem_of_remove_dups, elem_of_list_omap. exists ((false, k), x). split; [|done]. rewrite (He (m_shots m1)). apply elem_of_map_to_list. done. }
    apply elem_of_list_lookup in Hin as [n Hn]. destruct (Forall2_lookup_l _ _ _ _ _ Et Hn) as ([c t] & Hts & Hct).
    destruct (similarity_of cfg (of_camera m1 (sh_camera x)) [] true us) as [t'|e] eqn:Es; cbn [res_bind] in Hct; [|done]. injection Hct as <- ->.
    assert (is_Some t) as [[[s' A'] b'] ->]. { apply elem_of_list_lookup_2 in Hts. pose proof (proj1 (forallb_forall _ _) Ef _ (proj1 (elem_of_list_In _ _) Hts)) as Ef'. cbn in Ef'. by destruct t. }
    exists s', A', b', (bias_of (s', A', b')). split; [done|]. split; [apply H1, elem_of_list_omap; eexists; split; [by eapply elem_of_list_lookup_2|done]|].
    intros HA p. apply bias_inverse; [done|]. intros ->. unfold compute_reconstruction_similarity in Es.
    destruct (if decide (align_method cfg = "auto"%string) then _ else _) as [me|]; cbn [res_bind] in Es; [|done].
    destruct (if decide (me = "orientation_prior"%string) then _ else _) as [[[[s0 A0] b0]|]|]; cbn [res_bind] in Es; [|done|done]. injection Es as Es. cbn in Es. destruct (Req_EM_T s0 0); [done|]. congruence.
  - injection H as <- <-. exists us. split; [done|]. cbn zeta. split; [|by left]. by destruct m.
Qed.
End Map.
(** A ground control point with an altitude gives its position; without, the vertical coordinates are dropped, of the position and of the point found - but the vertical
    of the reconstruction is not known yet: a similarity that brings the point over the position brings the flattened point elsewhere, unless the vertical is already right. *)
Theorem C79_gcp_altitude {C D X O} (bearing : C -> R * R -> vec) (m : @map C similarity pose vec D X O vec) p P lat lon alt : gcp_has_altitude p = true -> triangulate_gcp bearing m p = Some P ->
  gcp_lla p !! "latitude"%string = Some lat -> gcp_lla p !! "longitude"%string = Some lon -> gcp_lla p !! "altitude"%string = Some alt ->
  gcp_constraint bearing m p = Ok (Some (P, let ref := default v0 (m_reference m) in topocentric_from_lla lat lon alt (vx ref) (vy ref) (vz ref))).
Proof.
  intros Ha Ht H1 H2 H3. unfold gcp_constraint. rewrite Ht. rewrite decide_False by (intros E; rewrite E in H1; by rewrite lookup_empty in H1). unfold get_lla_vec. rewrite H1, H2, Ha, H3. done.
Qed.
Theorem C79_no_altitude_refuted {C D X O} (bearing : C -> R * R -> vec) (m : @map C similarity pose vec D X O vec) p P lat lon : gcp_has_altitude p = false -> triangulate_gcp bearing m p = Some P ->
  gcp_lla p !! "latitude"%string = Some lat -> gcp_lla p !! "longitude"%string = Some lon ->
  let ref := default v0 (m_reference m) in let enu := topocentric_from_lla lat lon 0 (vx ref) (vy ref) (vz ref) in
  gcp_constraint bearing m p = Ok (Some (Vec (vx P) (vy P) 0, Vec (vx enu) (vy enu) 0)) /\
  forall s a b, 0 < s -> rotation a -> xy (moved s a b P) = xy enu ->
    (xy (moved s a b (Vec (vx P) (vy P) 0)) = xy enu <-> vz P = 0 \/ xy (mvec a (Vec 0 0 1)) = (0, 0)).
Proof.
  intros Ha Ht H1 H2 ref enu. split.
  - unfold gcp_constraint. rewrite Ht. rewrite decide_False by (intros E; rewrite E in H1; by rewrite lookup_empty in H1). unfold get_lla_vec. rewrite H1, H2, Ha. cbn [res_bind of_option]. done.
  - intros s a b Hs _ E. rewrite <- E. clear E. destruct P as [x y z], a as [a1 a2 a3 a4 a5 a6 a7 a8 a9], b. unfold xy, moved, mvec, dot, vadd, vscale. cbn. split.
    + intros [= E1 E2]. destruct (Req_dec z 0) as [|N]; [by left|right]. assert (s * z <> 0) as Hsz by (apply Rmult_integral_contrapositive; split; lra).
      f_equal; [apply (Rmult_eq_reg_l (s * z)); [|done]; lra|apply (Rmult_eq_reg_l (s * z)); [|done]; lra].
    + intros [-> |[= E1 E2]]; [done|]. assert (a3 = 0) as -> by lra. assert (a6 = 0) as -> by lra. f_equal; ring.
Qed.
Print Assumptions C79_nothing. Print Assumptions C79_translation. Print Assumptions C79_two. Print Assumptions C79_least_squares. Print Assumptions C79_degenerate. Print Assumptions C79_exact.
Print Assumptions C79_method. Print Assumptions C79_gps_positions. Print Assumptions C79_gcp_triangulated. Print Assumptions C79_constraints. Print Assumptions C79_unchanged. Print Assumptions C79_aligned.
Print Assumptions C79_aligned_auto. Print Assumptions C79_at_gps. Print Assumptions C79_bias. Print Assumptions C79_gcp_altitude. Print Assumptions C79_no_altitude_refuted.

(** ** Cases *)
Lemma deviation_ge l e : 0 <= e -> l <> [] -> INR (length l) * (e * e) <= scatter l -> e <= deviation l.
Proof.
  intros He Hl H. unfold deviation. rewrite <- (sqrt_square e) by done. apply sqrt_le_1_alt. assert (0 < INR (length l)) as Hp by (apply lt_0_INR; destruct l; [done|cbn; lia]).
  apply (Rmult_le_reg_l (INR (length l))); [done|]. rewrite <- (Rmult_assoc (INR (length l)) (/ INR (length l)) (scatter l)), Rinv_r by lra. lra.
Qed.
(** Three shots whose GPS positions are a quarter turn, twice as far, and shifted *)
Definition case_shot (camera inst : string) (p : vec) : shot (option vec * option Z) unit unit := Shot camera camera inst (Some p, Some 1%Z) tt ∅ ∅.
Definition at_ (r : mat) (o : vec) : pose := Pose r (vopp (mvec r o)) (mT r) o.
Definition case_map (r : mat) (l : list (string * vec * vec)) : @map unit similarity pose vec (option vec * option Z) unit unit vec :=
  Map {[ "c"%string := tt ]} ∅ {[ "c"%string := pose0 ]} (list_to_map ((fun e => (e.1.1, Instance (at_ r e.1.2) {[ e.1.1 := (false, "c"%string) ]})) <$> l))
      (list_to_map ((fun e => ((false, e.1.1), case_shot "c" e.1.1 e.2)) <$> l)) ∅ None.
Definition three_case : list (string * vec * vec) := (fun e => (e.1, e.2, moved 2 quarter (Vec 1 2 3) e.2)) <$> zip ["a"; "b"; "d"]%string (take 3 seven).
Definition order {A} (l : list string) (m : gmap string A) : list (string * A) := omap (fun k => pair k <$> m !! k) l.
Lemma three_constraints : alignment_constraints fst (fun (_ : unit) _ => v0) (order ["a"; "b"; "d"]%string) (Config "naive" "horizontal" true true false) (case_map mI three_case) [] true =
  Ok ((fun x => (x, moved 2 quarter (Vec 1 2 3) x)) <$> take 3 seven).
Proof.
  unfold alignment_constraints. cbn [bundle_use_gcp bundle_use_gps mapR res_bind andb omap list_omap app].
  assert (forall x, vmean [x] = x) as Hm. { intros x. unfold vmean. cbn [length INR vsum foldr]. rewrite Rinv_1. vring. }
  unfold order, case_map, three_case, seven. cbn [m_instances take zip_with fmap list_fmap fst snd]. unfold instance_constraint, instance_gps. 
  repeat f_equal.
  change (omap (fun i => match instance_gps fst (case_map mI three_case) i.2 with [] => None | l => Some (get_origin (in_pose i.2), vmean l) end) (order ["a"; "b"; "d"]%string (m_instances (case_map mI three_case))) =
    (fun x => (x, moved 2 quarter (Vec 1 2 3) x)) <$> take 3 seven).
  transitivity [(Vec 2 0 0, vmean [moved 2 quarter (Vec 1 2 3) (Vec 2 0 0)]); (Vec (-1) 1 0, vmean [moved 2 quarter (Vec 1 2 3) (Vec (-1) 1 0)]); (Vec (-1) (-1) 0, vmean [moved 2 quarter (Vec 1 2 3) (Vec (-1) (-1) 0)])]; [done|].
  rewrite !Hm. done.
Qed.
Example C79_case svd2 eigenvalues eigenvector : align_reconstruction fst snd (fun (_ : unit) _ => v0) (order ["a"; "b"; "d"]%string) map_to_list svd_quarter svd2 eigenvalues eigenvector
  (Config "naive" "horizontal" true true false) (case_map mI three_case) [] true false =
  Ok (Some (2, quarter, Vec 1 2 3), apply_similarity (case_map mI three_case) 2 quarter (Vec 1 2 3)).
Proof.
  assert (fst <$> ((fun x => (x, moved 2 quarter (Vec 1 2 3) x)) <$> take 3 seven) = take 3 seven) as E1 by done.
  assert (snd <$> ((fun x => (x, moved 2 quarter (Vec 1 2 3) x)) <$> take 3 seven) = moved 2 quarter (Vec 1 2 3) <$> take 3 seven) as E2 by done.
  eapply C79_aligned; [done|apply three_constraints|rewrite E1, E2; apply seven_right; by right|..].
  - rewrite E2. apply deviation_ge; [apply Rlt_le, inv10_pos|done|]. rewrite scatter_spread, spread_moved by (try done; apply quarter_rotation).
    assert (spread (centred (take 3 seven)) = 8) as ->. { unfold seven. cbn [take]. unfold centred, vmean, vsum, spread. cbn. cbv [vadd vopp vscale v0 vx vy vz dot sumR foldr]. field. }
    assert (0 < / 10 ^ 10 <= 1) as [? ?]. { split; [apply inv10_pos|]. rewrite <- Rinv_1. apply Rinv_le_contravar; [lra|]. apply pow_R1_Rle. lra. }
    cbn [length fmap list_fmap take seven INR]. assert (/ 10 ^ 10 * / 10 ^ 10 <= 1) by (rewrite <- (Rmult_1_l 1); apply Rmult_le_compat; lra). lra.
  - rewrite E1. apply three_not_line.
  - intros x y (z & [= -> ->] & _)%elem_of_list_fmap. done.
  - lra.
  - apply quarter_rotation.
  - intros (id & i & Hi & Hsz). exfalso. cbn [case_map m_instances] in Hi. apply elem_of_list_to_map_2 in Hi. apply elem_of_list_fmap in Hi as (e & [= -> ->] & _). cbn in Hsz. rewrite map_size_singleton in Hsz. lia.
Qed.
(** A ground control point one metre in front of two shots one metre apart *)
Definition case_bearing (_ : unit) (x : R * R) : vec := let v := Vec x.1 x.2 1 in vscale (/ norm v) v.
Lemma case_bearing_unit c x : norm (case_bearing c x) = 1.
Proof.
  unfold case_bearing. cbn zeta. assert (0 < norm (Vec x.1 x.2 1)) as H. { unfold norm. apply sqrt_lt_R0. unfold dot; cbn [vx vy vz]. pose proof (Rle_0_sqr x.1) as A. pose proof (Rle_0_sqr x.2) as B. unfold Rsqr in *. lra. }
  rewrite norm_vscale, Rabs_pos_eq by (apply Rlt_le, Rinv_0_lt_compat; done). apply Rinv_l. lra.
Qed.
Definition case_gcp : gcp R := Gcp "p" 0 false [GcpObservation "a" (0, 0) 0; GcpObservation "b" (-1, 0) 0; GcpObservation "nowhere" (0, 0) 0]%string
  {[ "latitude"%string := 0; "longitude"%string := 0 ]} Optimization.
Definition gcp_map := case_map mI [("a"%string, v0, v0); ("b"%string, Vec 1 0 0, v0)].
Lemma norm_001 : norm (Vec 0 0 1) = 1. Proof. apply norm_one. unfold dot; cbn. ring. Qed.
Lemma norm_101 : norm (Vec (-1) 0 1) = sqrt 2. Proof. unfold norm. f_equal. unfold dot; cbn. ring. Qed.
Lemma sqrt2_pos : 0 < sqrt 2. Proof. apply sqrt_lt_R0. lra. Qed.
Lemma at_I_valid o : valid (at_ mI o).
Proof. unfold at_, valid. cbn [w_rot w_tr c_rot c_tr]. split; [apply rotation_I|]. split; [done|]. vring. Qed.
Lemma gcp_map_pose k q : get_pose gcp_map (false, k) = Some q -> k = "a"%string /\ q = at_ mI v0 \/ k = "b"%string /\ q = at_ mI (Vec 1 0 0).
Proof.
  intros H. unfold get_pose in H. destruct (m_shots gcp_map !! (false, k)) as [s|] eqn:Es; [|done]. cbn [mbind option_bind] in H.
  unfold gcp_map, case_map in Es. cbn [m_shots] in Es. apply elem_of_list_to_map_2 in Es. cbn in Es.
  assert (is_identity pose0 = true) as Hid by apply is_identity_0.
  repeat (apply elem_of_cons in Es as [Es|Es]); [injection Es as -> ->; left|injection Es as -> ->; right|inversion Es]; split; try done; cbn [sh_instance sh_rig_camera case_shot] in H; revert H;
    [change (m_instances gcp_map !! "a"%string) with (Some (Instance (at_ mI v0) {["a"%string := (false, "c"%string)]}))|change (m_instances gcp_map !! "b"%string) with (Some (Instance (at_ mI (Vec 1 0 0)) {["b"%string := (false, "c"%string)]}))];
    change (m_rig_cameras gcp_map !! "c"%string) with (Some pose0); cbn [mbind option_bind]; intros [= <-]; unfold shot_get_pose; rewrite Hid; cbn [in_members in_pose]; by rewrite map_size_singleton.
Qed.
Example C79_case_gcp : triangulate_gcp case_bearing gcp_map case_gcp = Some (Vec 0 0 1).
Proof.
  pose proof sqrt2_pos as S2.
  assert (is_identity pose0 = true) as Hid by apply is_identity_0.
  assert (get_pose gcp_map (false, "a"%string) = Some (at_ mI v0)) as Pa.
  { unfold get_pose. change (m_shots gcp_map !! (false, "a"%string)) with (Some (case_shot "c" "a" v0)). cbn [mbind option_bind sh_instance sh_rig_camera case_shot].
    change (m_instances gcp_map !! "a"%string) with (Some (Instance (at_ mI v0) {["a"%string := (false, "c"%string)]})). change (m_rig_cameras gcp_map !! "c"%string) with (Some pose0).
    cbn [mbind option_bind]. unfold shot_get_pose. rewrite Hid. cbn [in_members in_pose]. by rewrite map_size_singleton. }
  assert (get_pose gcp_map (false, "b"%string) = Some (at_ mI (Vec 1 0 0))) as Pb.
  { unfold get_pose. change (m_shots gcp_map !! (false, "b"%string)) with (Some (case_shot "c" "b" v0)). cbn [mbind option_bind sh_instance sh_rig_camera case_shot].
    change (m_instances gcp_map !! "b"%string) with (Some (Instance (at_ mI (Vec 1 0 0)) {["b"%string := (false, "c"%string)]})). change (m_rig_cameras gcp_map !! "c"%string) with (Some pose0).
    cbn [mbind option_bind]. unfold shot_get_pose. rewrite Hid. cbn [in_members in_pose]. by rewrite map_size_singleton. }
  assert (case_bearing tt (0, 0) = Vec 0 0 1) as Ba. { unfold case_bearing. cbn [fst snd]. rewrite norm_001, Rinv_1. vring. }
  apply C79_gcp_triangulated; [apply case_bearing_unit|..].
  - intros o s q c Ho Hs Hq Hc. destruct c. cbn in Ho. repeat (apply elem_of_cons in Ho as [->|Ho]); [..|inversion Ho].
    + cbn in Hq. rewrite Pa in Hq. injection Hq as <-. split; [apply at_I_valid|]. exists 1. split; [lra|]. cbn [go_projection]. rewrite Ba. unfold at_, transform; cbn [w_rot w_tr]. vring.
    + cbn in Hq. rewrite Pb in Hq. injection Hq as <-. split; [apply at_I_valid|]. exists (sqrt 2). split.
      { apply Rle_trans with 1; [lra|]. rewrite <- sqrt_1. apply sqrt_le_1_alt. lra. }
      cbn [go_projection]. unfold case_bearing. cbn [fst snd]. rewrite norm_101. unfold at_, transform; cbn [w_rot w_tr]. unfold mvec, mI, dot, vadd, vopp, vscale; cbn. f_equal; field; lra.
    + cbn in Hq. done.
  - exists (v0, mvec (mT mI) (case_bearing tt (0, 0))), (Vec 1 0 0, mvec (mT mI) (case_bearing tt (-1, 0))).
    unfold gcp_rays. cbn [gcp_obs case_gcp omap list_omap go_shot go_projection].
    change (m_shots gcp_map !! (false, "a"%string)) with (Some (case_shot "c" "a" v0)). change (m_shots gcp_map !! (false, "b"%string)) with (Some (case_shot "c" "b" v0)).
    change (m_shots gcp_map !! (false, "nowhere"%string)) with (@None (shot (option vec * option Z) unit unit)). cbn [mbind option_bind]. rewrite Pa, Pb. cbn [mbind option_bind sh_camera case_shot].
    change (m_cameras gcp_map !! "c"%string) with (Some tt). cbn [mbind option_bind]. split; [left|]. split; [right; left|]. cbn [fst snd].
    assert (mT mI = mI) as -> by vring. rewrite !mvec_I. unfold TriangSpec.angle. rewrite !case_bearing_unit, Ba. unfold case_bearing. cbn [fst snd]. rewrite norm_101.
    replace (dot (Vec 0 0 1) (vscale (/ sqrt 2) (Vec (-1) 0 1)) / (1 * 1)) with (cos (PI / 4)) by (rewrite cos_PI4; unfold dot, vscale; cbn; field; lra).
    pose proof PI_RGT_0. rewrite acos_cos by lra. lra.
Qed.
