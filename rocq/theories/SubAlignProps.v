(** C60: the alignment of submodels. *)
From stdpp Require Import prelude gmap strings pretty.
From Coq Require Import Reals Lra.
From Verif Require Import Base Lin RotModel RotProofs MapModel PoseModel PoseSpec PoseProofs PoseMapProofs SubAlignModel SubAlignSpec SubAlignProofs.
Local Open Scope R_scope.

Lemma sqrt_inv_pos x : 0 < x -> 1 / sqrt x <> 0.
Proof. intros H. pose proof (sqrt_lt_R0 x H). apply Rmult_integral_contrapositive. split; [lra|]. apply Rinv_neq_0_compat. lra. Qed.
Lemma soft_r_nonzero : nonzero soft_scale_r.
Proof. unfold nonzero, soft_scale_r; cbn zeta; cbn [vx vy vz]. assert (1 / sqrt (/ 10 ^ 5) <> 0) by (apply sqrt_inv_pos, Rinv_0_lt_compat, pow_lt; lra). done. Qed.
Lemma soft_t_nonzero : nonzero soft_scale_t.
Proof. unfold nonzero, soft_scale_t; cbn zeta; cbn [vx vy vz]. assert (1 / sqrt (/ 10 ^ 2) <> 0) by (apply sqrt_inv_pos, Rinv_0_lt_compat, pow_lt; lra). done. Qed.

(** Two partial reconstructions never have the same name *)
Theorem C60_names : forall k k', partial_reconstruction_name k = partial_reconstruction_name k' -> k = k'.
Proof. apply name_inj. Qed.

(** The problem that is solved, for any partial reconstructions given as lists of shots: a relative motion for each shot of each of them; one
    position for each shot, that of its first view; every similarity starts as the identity and every shot where it was first seen. *)
Theorem C60_problem : forall (recs : list (key * list view)) pairs, let p := alignment_problem partial_reconstruction_name recs pairs in
  omap relative_motion_of (p_constraints p) =
    mjoin ((fun r => (fun s => (partial_reconstruction_name r.1, vi_id s, get_rotation (vi_pose s), get_translation (vi_pose s))) <$> r.2) <$> recs) /\
  NoDup (omap absolute_position_of (p_constraints p)).*1.*1 /\
  (forall id c sd, (id, c, sd) ∈ omap absolute_position_of (p_constraints p) <-> exists v, first_view recs id = Some v /\ c = vi_gps v /\ sd = vi_sd v) /\
  (forall id, p_shots p !! id = (fun v => RAShot (get_rotation (vi_pose v)) (get_translation (vi_pose v)) false) <$> first_view recs id) /\
  (forall k, is_Some (p_recs p !! partial_reconstruction_name k) <-> k ∈ recs.*1) /\
  (forall n a, p_recs p !! n = Some a -> a = RARec v0 v0 1 false).
Proof.
  intros recs pairs p. unfold p, alignment_problem. destruct (points_frame partial_reconstruction_name pairs (add_camera_constraints_soft partial_reconstruction_name problem0 recs)) as (E1 & E2 & E3).
  rewrite E1, E2, E3. unfold add_camera_constraints_soft. destruct (seen_soft partial_reconstruction_name recs) as [_ H2 H3 H4]. destruct (rel_soft partial_reconstruction_name recs) as [R1 R2].
  set (q := (foldl (soft_rec partial_reconstruction_name) (problem0, ∅) recs).1) in *. clear E1 E2 E3.
  assert (forall A (g : constraint -> option A), (forall a b c d e, g (CommonPoint a b c d e) = None) -> omap g (p_constraints q ++ ((fun '((ka, pa), (kb, pb)) => CommonPoint (partial_reconstruction_name ka) pa (partial_reconstruction_name kb) pb (1 / 10)) <$> pairs)) = omap g (p_constraints q)) as Hg.
  { intros A g Hg. rewrite omap_app. assert (omap g ((fun '((ka, pa), (kb, pb)) => CommonPoint (partial_reconstruction_name ka) pa (partial_reconstruction_name kb) pb (1 / 10)) <$> pairs) = []) as ->; [|by rewrite app_nil_r].
    induction pairs as [|[[ka pa] [kb pb]] l IH]; [done|]. cbn. by rewrite Hg. }
  rewrite !Hg by done. split; [|split; [done|split; [done|split; [done|split]]]].
  - assert (forall l : list constraint, omap relative_motion_of l = omap relative_motion_of (omap rel_of l)) as Hrel. { induction l as [|c l IH]; [done|]. destruct c; cbn; by rewrite ?IH. }
    rewrite Hrel, R1. clear. induction recs as [|r recs IH]; [done|]. cbn [fmap list_fmap mjoin list_join]. rewrite omap_app. f_equal; [|exact IH]. generalize r.2. intros l. induction l as [|s l IH']; [done|]. cbn. by f_equal.
  - intros k. rewrite R2. case_decide as E.
    + split; [intros _|by eauto]. apply elem_of_list_fmap in E as (k' & Ek & Hk). apply name_inj in Ek as ->. done.
    + split; [by intros []|]. intros Hk. destruct E. apply elem_of_list_fmap. eauto.
  - intros n a. rewrite R2. case_decide; [by intros [= <-]|done].
Qed.

Section Submodels.
Context {C B D X O Rf : Type}.
Notation map := (@map C B pose vec D X O Rf).
Notation files := (gmap string (list map)).
Variable gps : D -> vec * R.

Lemma elem_of_shots_of (m : map) v : v ∈ shots_of gps m <-> exists s, m_shots m !! (false, vi_id v) = Some s /\ shot_pose compose m (false, vi_id v) = Some (vi_pose v) /\ vi_gps v = (gps (sh_data s)).1 /\ vi_sd v = (gps (sh_data s)).2.
Proof.
  unfold shots_of. rewrite elem_of_list_omap. split.
  - intros ([[pano id] s] & Hin & E). apply elem_of_map_to_list in Hin. destruct pano; [done|]. apply bind_Some in E as (p & Hp & E). injection E as <-. cbn. eauto.
  - intros (s & Hs & Hp & Hg & Hd). exists ((false, vi_id v), s). split; [by apply elem_of_map_to_list|]. rewrite Hp. cbn. rewrite <- Hg, <- Hd. by destruct v.
Qed.
Lemma elem_of_load paths (f : files) path i m recs : path ∈ paths -> f !! path = Some recs -> recs !! i = Some m -> ((path, i), shots_of gps m) ∈ load_reconstruction_shots gps paths f.
Proof.
  intros Hp Hf Hi. unfold load_reconstruction_shots. apply elem_of_list_join. eexists. split; [|apply elem_of_list_fmap; by exists path]. rewrite Hf. apply elem_of_lookup_imap. by exists i, m.
Qed.
Lemma load_elem paths (f : files) k vs : (k, vs) ∈ load_reconstruction_shots gps paths f -> exists recs m, k.1 ∈ paths /\ f !! k.1 = Some recs /\ recs !! k.2 = Some m /\ vs = shots_of gps m.
Proof.
  unfold load_reconstruction_shots. intros Hin. apply elem_of_list_join in Hin as (l & Hin & Hl). apply elem_of_list_fmap in Hl as (p & -> & Hp). destruct (f !! p) as [rs|] eqn:Ef; [|by apply elem_of_nil in Hin].
  apply elem_of_lookup_imap in Hin as (i & m & E & Hi). injection E as -> ->. eauto 10.
Qed.
Definition problem_of (paths : list string) pairs (f : files) : problem := alignment_problem partial_reconstruction_name (load_reconstruction_shots gps paths f) pairs.
(** the poses in the files are those of cameras (C12) *)
Definition rigid_files (f : files) : Prop := forall path recs i m, f !! path = Some recs -> recs !! i = Some m -> poses_valid m.

Lemma solved_scale paths pairs f p k : solution (problem_of paths pairs f) p -> k ∈ (load_reconstruction_shots gps paths f).*1 -> 1 / 10 <= rr_scale (the_rec p (partial_reconstruction_name k)).
Proof.
  intros (_ & Hd & _ & _ & _ & Hs) Hk. destruct (C60_problem (load_reconstruction_shots gps paths f) pairs) as (_ & _ & _ & _ & H5 & H6). fold (problem_of paths pairs f) in *.
  apply H5 in Hk as [a Ha]. pose proof (H6 _ _ Ha) as ->. assert (partial_reconstruction_name k ∈ dom (p_recs p)) as [a' Ha']%elem_of_dom by (rewrite Hd; apply elem_of_dom; eauto).
  unfold the_rec. rewrite Ha'. cbn. by eapply Hs.
Qed.

(** Whatever the solver answers, the aligned files are those of the submodels with a reconstruction, and each partial reconstruction in them
    is the original one moved by a similarity: no shape is changed (C14). *)
Theorem C60_similarity : forall solve paths pairs (f : files), NoDup paths -> solution (problem_of paths pairs f) (solve (problem_of paths pairs f)) ->
  exists out, align_submodels gps solve paths pairs f = Ok out /\
    (forall path, is_Some (out !! path) <-> path ∈ paths /\ exists m recs, f !! path = Some (m :: recs)) /\
    (forall path recs recs', f !! path = Some recs -> out !! path = Some recs' -> length recs' = length recs) /\
    (forall path recs recs' i m m', f !! path = Some recs -> out !! path = Some recs' -> recs !! i = Some m -> recs' !! i = Some m' ->
       exists s A b, 0 < s <= 10 /\ rotation A /\ m' = apply_similarity m s A b /\
         forall x, apply_similarity_point x s A b = common_frame (solve (problem_of paths pairs f)) (path, i) x).
Proof.
  intros solve paths pairs f Hn Hsol. set (p := solve (problem_of paths pairs f)) in *. unfold align_submodels. fold (problem_of paths pairs f). fold p.
  destruct (apply_transformations_ok gps (transformation partial_reconstruction_name p) paths f Hn) as (out & E & Hout). exists out. split; [exact E|]. clear E. split; [|split].
  - intros path. rewrite Hout. case_decide as Hp; [|split; [by intros []|tauto]]. destruct (f !! path) as [[|m recs]|]; (split; [intros [? Hx]; try done; eauto|intros (_ & m' & recs' & [=]); subst; eauto]).
  - intros path recs recs' Hf Ho. rewrite Hout in Ho. case_decide; [|done]. rewrite Hf in Ho. destruct recs; [done|]. injection Ho as <-. cbn. by rewrite imap_length.
  - intros path recs recs' i m m' Hf Ho Hi Hi'. rewrite Hout in Ho. case_decide as Hp; [|done]. rewrite Hf in Ho. destruct recs as [|m0 recs]; [done|]. apply (inj Some) in Ho. subst recs'. rewrite list_lookup_imap, Hi in Hi'. injection Hi' as <-.
    pose proof (solved_scale paths pairs f p (path, i) Hsol) as Hs. assert ((path, i) ∈ (load_reconstruction_shots gps paths f).*1) as Hk by (apply elem_of_list_fmap; eexists; split; [|by eapply elem_of_load]; done). specialize (Hs Hk).
    unfold moved, transformation, invert_similarity. set (a := the_rec p _) in *. eexists _, _, _. split; [|split; [|split; [reflexivity|]]].
    + split; [apply Rdiv_lt_0_compat; lra|]. unfold Rdiv. rewrite Rmult_1_l. replace 10 with (/ (1 / 10)) by field. apply Rinv_le_contravar; lra.
    + apply rotation_T, exp_rotation.
    + intros x. unfold apply_similarity_point, common_frame. fold a. rewrite vsub_add, mvec_add, mvec_opp. destruct (mvec _ x), (mvec _ (rr_t a)). unfold vscale, vadd, vopp; cbn. f_equal; field; lra.
Qed.

(** The relative motions that the solver minimises vanish exactly when every shot of every aligned partial reconstruction is where the solver
    puts the shot. *)
Theorem C60_aligned : forall solve paths pairs (f : files), NoDup paths -> rigid_files f -> solution (problem_of paths pairs f) (solve (problem_of paths pairs f)) ->
  let p := solve (problem_of paths pairs f) in
  exists out, align_submodels gps solve paths pairs f = Ok out /\
    ((forall c, c ∈ p_constraints p -> is_relative_motion c -> vanishes p c) <->
     (forall path recs' i m' id q, out !! path = Some recs' -> recs' !! i = Some m' -> shot_pose compose m' (false, id) = Some q -> q = solved_pose p id)).
Proof.
  intros solve paths pairs f Hn Hv Hsol p. unfold align_submodels. fold (problem_of paths pairs f). fold p.
  destruct (apply_transformations_ok gps (transformation partial_reconstruction_name p) paths f Hn) as (out & E & Hout). exists out. split; [exact E|]. clear E. fold p in Hsol.
  assert (forall path recs i m id q, path ∈ paths -> f !! path = Some recs -> recs !! i = Some m -> shot_pose compose m (false, id) = Some q ->
    vanishes p (RelativeMotion (partial_reconstruction_name (path, i)) id (get_rotation q) (get_translation q) soft_scale_r soft_scale_t) <-> aligned (the_rec p (partial_reconstruction_name (path, i))) q = solved_pose p id) as Heq.
  { intros path recs i m id q Hp Hf Hi Hq. assert ((path, i) ∈ (load_reconstruction_shots gps paths f).*1) as Hk by (apply elem_of_list_fmap; eexists; split; [|by eapply elem_of_load]; done).
    pose proof (solved_scale paths pairs f p (path, i) Hsol Hk) as Hs. assert (valid q) as Hvq.
    { destruct (Hv _ _ _ _ Hf Hi) as [V1 V2]. unfold shot_pose in Hq. apply bind_Some in Hq as (s & _ & Hq). apply bind_Some in Hq as (inst & Hinst & Hq). apply bind_Some in Hq as (rc & Hrc & Hq). injection Hq as <-. apply valid_compose; eauto. }
    unfold solved_pose. rewrite <- (relative_motion_zero q _ _ soft_scale_r soft_scale_t Hvq) by (apply soft_r_nonzero || apply soft_t_nonzero || lra). unfold vanishes, residual. destruct (relative_motion_error _ _ _ _ _ _) as [x y].
    rewrite !Forall_cons, Forall_nil. split; [by intros (-> & -> & _)|by intros [= -> ->]]. }
  pose proof (rel_soft partial_reconstruction_name (load_reconstruction_shots gps paths f)) as [Hrel _]. cbn zeta in Hrel.
  destruct (points_frame partial_reconstruction_name pairs (add_camera_constraints_soft partial_reconstruction_name problem0 (load_reconstruction_shots gps paths f))) as (_ & _ & Hc).
  assert (forall c, c ∈ p_constraints p /\ is_relative_motion c <-> exists k vs s, (k, vs) ∈ load_reconstruction_shots gps paths f /\ s ∈ vs /\ c = motion_of (partial_reconstruction_name k) s) as Hin.
  { intros c. destruct Hsol as (-> & _). unfold problem_of, alignment_problem. rewrite Hc. transitivity (c ∈ omap rel_of (p_constraints (add_camera_constraints_soft partial_reconstruction_name problem0 (load_reconstruction_shots gps paths f)))).
    - rewrite elem_of_app, elem_of_list_omap. split.
      + intros [[H|H] H']; [exists c; split; [done|]; by destruct c|]. apply elem_of_list_fmap in H as ([[ka pa] [kb pb]] & -> & _). done.
      + intros (c' & H & E). destruct c'; try done. injection E as <-. split; [by left|done].
    - unfold add_camera_constraints_soft. rewrite Hrel. rewrite elem_of_list_join. split.
      + intros (l & H & Hl). apply elem_of_list_fmap in Hl as ([k vs] & -> & Hl). apply elem_of_list_fmap in H as (s & -> & H). eauto 10.
      + intros (k & vs & s & H & Hs & ->). eexists. split; [|apply elem_of_list_fmap; eexists; split; [reflexivity|exact H]]. apply elem_of_list_fmap. eauto. }
  split.
  - intros Hz path recs' i m' id q Ho Hi' Hq. rewrite Hout in Ho. case_decide as Hp; [|done]. destruct (f !! path) as [[|m0 recs]|] eqn:Hf; [done| |done]. apply (inj Some) in Ho. subst recs'. rewrite list_lookup_imap in Hi'. destruct ((m0 :: recs) !! i) as [m|] eqn:Hi; [|done]. injection Hi' as <-.
    unfold moved, transformation, invert_similarity in Hq. rewrite apply_similarity_pose_of in Hq; [|apply rotation_T, exp_rotation|by eapply Hv]. destruct (shot_pose compose m (false, id)) as [q0|] eqn:Hq0; [|done]. injection Hq as <-.
    transitivity (aligned (the_rec p (partial_reconstruction_name (path, i))) q0); [done|]. apply (Heq path (m0 :: recs) i m id q0 Hp Hf Hi Hq0).
    assert (exists v, v ∈ shots_of gps m /\ vi_id v = id /\ vi_pose v = q0) as (v & Hvin & <- & <-).
    { destruct (m_shots m !! (false, id)) as [s|] eqn:Hs; [|unfold shot_pose in Hq0; by rewrite Hs in Hq0]. exists (View id q0 (gps (sh_data s)).1 (gps (sh_data s)).2). split; [|done]. apply elem_of_shots_of. exists s. done. }
    apply Hz; [|done]. apply Hin. exists (path, i), (shots_of gps m), v. split; [by eapply elem_of_load|done].
  - intros Hz c Hc1 Hc2. destruct (proj1 (Hin c) (conj Hc1 Hc2)) as (k & vs & s & Hk & Hs & ->). apply load_elem in Hk as (recs & m & Hp & Hf & Hi & ->). destruct k as [path i]. cbn [fst snd] in *.
    apply elem_of_shots_of in Hs as (sh & Hsh & Hq & _). unfold motion_of. apply (Heq path recs i m _ _ Hp Hf Hi Hq).
    assert (out !! path = Some (imap (fun i m => moved (transformation partial_reconstruction_name p) (path, i) m) recs)) as Ho. { rewrite Hout, decide_True, Hf by done. by destruct recs. }
    eapply (Hz path _ i _ (vi_id s) _ Ho); [rewrite list_lookup_imap, Hi; reflexivity|]. unfold moved, transformation, invert_similarity.
    rewrite apply_similarity_pose_of by (apply rotation_T, exp_rotation || by eapply Hv). by rewrite Hq.
Qed.

(** ... so then the copies of a shot in several submodels coincide. *)
Corollary C60_common_shots : forall solve paths pairs (f : files), NoDup paths -> rigid_files f -> solution (problem_of paths pairs f) (solve (problem_of paths pairs f)) ->
  let p := solve (problem_of paths pairs f) in (forall c, c ∈ p_constraints p -> is_relative_motion c -> vanishes p c) ->
  exists out, align_submodels gps solve paths pairs f = Ok out /\
    forall path1 recs1 i1 m1 path2 recs2 i2 m2 id q1 q2, out !! path1 = Some recs1 -> recs1 !! i1 = Some m1 -> out !! path2 = Some recs2 -> recs2 !! i2 = Some m2 ->
      shot_pose compose m1 (false, id) = Some q1 -> shot_pose compose m2 (false, id) = Some q2 -> q1 = q2.
Proof.
  intros solve paths pairs f Hn Hv Hsol p Hz. destruct (C60_aligned solve paths pairs f Hn Hv Hsol) as (out & E & H). exists out. split; [done|].
  intros path1 recs1 i1 m1 path2 recs2 i2 m2 id q1 q2 H1 H2 H3 H4 H5 H6. rewrite (proj1 H Hz _ _ _ _ _ _ H1 H2 H5). symmetry. by apply (proj1 H Hz _ _ _ _ _ _ H3 H4 H6).
Qed.

(** If there are similarities, of scale at most ten, that bring all the copies together, zero is reached:
    the solver's parameters can express any such alignment, and it is then the alignment that is applied. *)
Theorem C60_attained : forall paths pairs (f : files) (g : key -> R * mat * vec) (w : string -> pose), NoDup paths -> rigid_files f ->
  (forall k, let '(s, A, b) := g k in 0 < s <= 10 /\ rotation A) -> (forall id, valid (w id)) ->
  (forall path recs i m id q, f !! path = Some recs -> recs !! i = Some m -> shot_pose compose m (false, id) = Some q ->
     let '(s, A, b) := g (path, i) in apply_similarity_pose q s A b = w id) ->
  exists p, solution (problem_of paths pairs f) p /\ (forall c, c ∈ p_constraints p -> is_relative_motion c -> vanishes p c) /\
    forall k x, k ∈ (load_reconstruction_shots gps paths f).*1 -> common_frame p k x = let '(s, A, b) := g k in apply_similarity_point x s A b.
Proof.
  intros paths pairs f g w Hn Hv Hg Hw Hgw. set (P := problem_of paths pairs f).
  destruct (C60_problem (load_reconstruction_shots gps paths f) pairs) as (H1 & _ & _ & H4 & H5 & H6). fold (problem_of paths pairs f) in *. fold P in H1, H4, H5, H6.
  set (rec_of := fun k => let '(s, A, b) := invert_similarity (g k).1.1 (g k).1.2 (g k).2 in RARec (rotation_to_vector A) b s false).
  set (recs' := list_to_map ((fun k => (partial_reconstruction_name k, rec_of k)) <$> (load_reconstruction_shots gps paths f).*1) : gmap string ra_rec).
  assert (forall k, k ∈ (load_reconstruction_shots gps paths f).*1 -> recs' !! partial_reconstruction_name k = Some (rec_of k)) as Hrec.
  { intros k Hk. unfold recs'. generalize ((load_reconstruction_shots gps paths f).*1), Hk. clear. intros l Hk. induction l as [|k' l IH]; [by apply elem_of_nil in Hk|]. cbn. destruct (decide (k' = k)) as [->|Hne]; [by rewrite lookup_insert|].
    rewrite lookup_insert_ne by (by intros E%name_inj). apply IH. apply elem_of_cons in Hk as [->|]; done. }
  set (shots' := map_imap (fun id (_ : ra_shot) => Some (RAShot (get_rotation (w id)) (get_translation (w id)) false)) (p_shots P)).
  set (p := Problem recs' shots' (p_constraints P)). exists p.
  assert (forall n a, p_recs P !! n = Some a -> exists k, k ∈ (load_reconstruction_shots gps paths f).*1 /\ n = partial_reconstruction_name k) as Hnames.
  { intros n a Hn'. unfold P, problem_of, alignment_problem in Hn'. destruct (points_frame partial_reconstruction_name pairs (add_camera_constraints_soft partial_reconstruction_name problem0 (load_reconstruction_shots gps paths f))) as (E & _ & _). rewrite E in Hn'. unfold add_camera_constraints_soft in Hn'.
    destruct (rel_soft partial_reconstruction_name (load_reconstruction_shots gps paths f)) as [_ R2]. rewrite R2 in Hn'. case_decide as Hin; [|done]. apply elem_of_list_fmap in Hin as (k & -> & Hk). eauto. }
  assert (solution P p) as Hsol.
  { split; [done|]. split; [|split; [|split; [|split]]].
    - apply set_eq. intros n. rewrite !elem_of_dom. split.
      + intros [a Ha]. cbn in Ha. unfold recs' in Ha. apply elem_of_list_to_map_2 in Ha. apply elem_of_list_fmap in Ha as (k & E & Hk). injection E as -> _. by apply H5.
      + intros [a Ha]. destruct (Hnames n a Ha) as (k & Hk & ->). exists (rec_of k). by apply Hrec.
    - apply set_eq. intros n. rewrite !elem_of_dom. cbn. unfold shots'. rewrite map_lookup_imap. destruct (p_shots P !! n) as [x|]; cbn; [|done]. split; by eauto.
    - intros n a Ha Hc. pose proof (H6 _ _ Ha) as ->. done.
    - intros n a Ha Hc. rewrite H4 in Ha. destruct (first_view _ n); [|done]. injection Ha as <-. done.
    - intros n a a' Ha _ Ha'. destruct (Hnames n a Ha) as (k & Hk & ->). cbn in Ha'. rewrite (Hrec k Hk) in Ha'. injection Ha' as <-. unfold rec_of, invert_similarity. cbn. pose proof (Hg k) as Hgk. destruct (g k) as [[s A] b]. cbn. destruct Hgk as [Hs _].
      apply Rmult_le_reg_r with s; [lra|]. replace (1 / s * s) with 1 by (field; lra). lra. }
  assert (forall k, k ∈ (load_reconstruction_shots gps paths f).*1 -> let '(s, A, b) := g k in invert_similarity (rr_scale (the_rec p (partial_reconstruction_name k))) (vector_to_rotation (rr_r (the_rec p (partial_reconstruction_name k)))) (rr_t (the_rec p (partial_reconstruction_name k))) = (s, A, b)) as Hinv.
  { intros k Hk. pose proof (Hg k) as Hgk. destruct (g k) as [[s A] b] eqn:Egk. destruct Hgk as [Hs HA]. unfold the_rec. cbn [p p_recs]. rewrite (Hrec k Hk). cbn [default from_option]. unfold Datatypes.id. unfold rec_of. rewrite Egk. unfold invert_similarity. cbn [fst snd rr_scale rr_r rr_t Datatypes.id].
    destruct (exp_log (mT A)) as [-> _]; [by apply rotation_T|]. rewrite mT_T. f_equal; [f_equal; field; lra|]. rewrite mvec_scale, <- mvec_mmul, (rotation_r _ HA), mvec_I. destruct b. unfold vscale; cbn. f_equal; field; lra. }
  split; [done|split].
  - destruct (C60_aligned (fun _ => p) paths pairs f Hn Hv Hsol) as (out & Eout & Hiff). apply Hiff. intros path rs i m' id q Ho Hi' Hq. unfold align_submodels in Eout. cbn beta in Eout.
    destruct (apply_transformations_ok gps (transformation partial_reconstruction_name p) paths f Hn) as (out' & E & Hout). unfold steps in E. rewrite Eout in E. injection E as <-.
    rewrite Hout in Ho. case_decide as Hp; [|done]. destruct (f !! path) as [[|m0 recs]|] eqn:Hf; [done| |done]. apply (inj Some) in Ho. subst rs. rewrite list_lookup_imap in Hi'. destruct ((m0 :: recs) !! i) as [m|] eqn:Hi; [|done]. injection Hi' as <-.
    assert ((path, i) ∈ (load_reconstruction_shots gps paths f).*1) as Hk by (apply elem_of_list_fmap; eexists; split; [|by eapply elem_of_load]; done).
    pose proof (Hinv _ Hk) as Hi2. pose proof (Hg (path, i)) as Hgk. pose proof (Hgw path (m0 :: recs) i m) as Hgw'. destruct (g (path, i)) as [[s A] b] eqn:Egk. destruct Hgk as [Hs HA]. unfold moved, transformation in Hq. rewrite Hi2 in Hq. rewrite apply_similarity_pose_of in Hq by (done || by eapply Hv).
    destruct (shot_pose compose m (false, id)) as [q0|] eqn:Hq0; [|done]. injection Hq as <-. rewrite (Hgw' id q0) by done.
    unfold solved_pose, the_shot. cbn [p p_shots]. unfold shots'. rewrite map_lookup_imap, H4. assert (is_Some (first_view (load_reconstruction_shots gps paths f) id)) as [v ->]; [|cbn; by rewrite (pose_codec _ (Hw id))].
    unfold first_view. destruct (first_of (mjoin (snd <$> load_reconstruction_shots gps paths f)) id) as [v|] eqn:Ef; [by exists v|]. exfalso. apply first_of_None in Ef. apply Ef.
    destruct (m_shots m !! (false, id)) as [s0|] eqn:Hs0; [|unfold shot_pose in Hq0; by rewrite Hs0 in Hq0]. apply elem_of_list_fmap. exists (View id q0 (gps (sh_data s0)).1 (gps (sh_data s0)).2). split; [done|].
    apply elem_of_list_join. exists (shots_of gps m). split; [apply elem_of_shots_of; by exists s0|]. apply elem_of_list_fmap. exists ((path, i), shots_of gps m). split; [done|by eapply elem_of_load].
  - intros k x Hk. pose proof (Hinv k Hk) as Hi2. pose proof (solved_scale paths pairs f p k Hsol Hk) as Hs. destruct (g k) as [[s A] b]. unfold common_frame. set (a := the_rec p _) in *. unfold invert_similarity in Hi2. injection Hi2 as <- <- <-.
    unfold apply_similarity_point. rewrite vsub_add, mvec_add, mvec_opp. destruct (mvec _ x), (mvec _ (rr_t a)). unfold vscale, vadd, vopp; cbn. f_equal; field; lra.
Qed.

(** A pair of points is brought together, and a shot put on its GPS position, exactly when their residuals vanish. *)
Theorem C60_points : forall paths pairs (f : files) p ka pa kb pb, solution (problem_of paths pairs f) p ->
  ((ka, pa), (kb, pb)) ∈ pairs -> ka ∈ (load_reconstruction_shots gps paths f).*1 -> kb ∈ (load_reconstruction_shots gps paths f).*1 ->
  exists c, c ∈ p_constraints p /\ (vanishes p c <-> common_frame p ka pa = common_frame p kb pb).
Proof.
  intros paths pairs f p ka pa kb pb Hsol Hin Ha Hb. pose proof (solved_scale paths pairs f p ka Hsol Ha) as Hsa. pose proof (solved_scale paths pairs f p kb Hsol Hb) as Hsb.
  exists (CommonPoint (partial_reconstruction_name ka) pa (partial_reconstruction_name kb) pb (1 / 10)). split.
  - destruct Hsol as (-> & _). unfold problem_of, alignment_problem. destruct (points_frame partial_reconstruction_name pairs (add_camera_constraints_soft partial_reconstruction_name problem0 (load_reconstruction_shots gps paths f))) as (_ & _ & ->). apply elem_of_app. right. apply elem_of_list_fmap. by exists ((ka, pa), (kb, pb)).
  - unfold vanishes, residual. rewrite Forall_singleton, common_point_zero by lra. assert (forall k x, 1 / 10 <= rr_scale (the_rec p (partial_reconstruction_name k)) -> aligned_point (the_rec p (partial_reconstruction_name k)) x = common_frame p k x) as Hap.
    { intros k x Hk. unfold aligned_point, invert_similarity, common_frame, apply_similarity_point. set (a := the_rec p (partial_reconstruction_name k)) in *. rewrite vsub_add, mvec_add, mvec_opp. destruct (mvec _ x), (mvec _ (rr_t a)). unfold vscale, vadd, vopp; cbn. f_equal; field; lra. }
    by rewrite !Hap.
Qed.
Theorem C60_gps : forall p id c sd, sd <> 0 -> vanishes p (AbsolutePosition id c sd) <-> get_origin (solved_pose p id) = c.
Proof. intros p id c sd Hsd. unfold vanishes, residual. by rewrite Forall_singleton, absolute_position_zero. Qed.
End Submodels.

(** The two other kinds of constraints of hard alignment, on a shot held at a pose *)
Theorem C60_hard_gps : forall p a id q k c sd, valid q -> p_shots p !! id = Some (RAShot (get_rotation q) (get_translation q) k) -> sd <> 0 -> rr_scale (the_rec p a) <> 0 ->
  vanishes p (RelativeAbsolutePosition a id c sd) <-> (let r := the_rec p a in vscale (1 / rr_scale r) (mvec (mT (vector_to_rotation (rr_r r))) (vsub (get_origin q) (rr_t r))) = c).
Proof.
  intros p a id q k c sd Hq Hs Hsd Hsc. unfold vanishes, residual. rewrite Forall_singleton. unfold the_shot. rewrite Hs. cbn [default from_option]. unfold Datatypes.id. rewrite relative_absolute_zero by done. cbn zeta. set (r := the_rec p a) in *.
  unfold aligned, invert_similarity. rewrite similarity_origin by (done || apply rotation_T, exp_rotation). rewrite vsub_add, mvec_add, mvec_opp.
  assert (forall u v : vec, u = v -> (u = c <-> v = c)) as Hiff by (by intros ? ? ->). apply Hiff. 
  unfold apply_similarity_point. destruct (mvec _ (get_origin q)), (mvec _ (rr_t r)). unfold vscale, vadd, vopp; cbn. f_equal; field; done.
Qed.

(** ... and on a pair of copies of a shot *)
Theorem C60_common_camera : forall p a b ia ib qa qb ka kb sc sr, valid qa -> valid qb -> p_shots p !! ia = Some (RAShot (get_rotation qa) (get_translation qa) ka) ->
  p_shots p !! ib = Some (RAShot (get_rotation qb) (get_translation qb) kb) -> sc <> 0 -> sr <> 0 -> rr_scale (the_rec p a) <> 0 -> rr_scale (the_rec p b) <> 0 ->
  vanishes p (CommonCamera a ia b ib sc sr) <->
  (let move n q := let r := the_rec p n in let '(s, A, t) := invert_similarity (rr_scale r) (vector_to_rotation (rr_r r)) (rr_t r) in apply_similarity_pose q s A t in move a qa = move b qb).
Proof.
  intros p a b ia ib qa qb ka kb sc sr Ha Hb Hia Hib Hsc Hsr Hra Hrb. unfold vanishes, residual, the_shot. rewrite Hia, Hib. cbn [default from_option]. unfold Datatypes.id.
  pose proof (common_camera_zero qa qb ka kb sc sr (the_rec p a) (the_rec p b) Ha Hb Hsc Hsr Hra Hrb) as H. destruct (common_camera_error _ _ _ _ _ _) as [x y]. rewrite !Forall_cons, Forall_nil.
  transitivity ((x, y) = (v0, v0)); [split; [by intros (-> & -> & _)|by intros [= -> ->]]|]. rewrite H. clear H. change (let move n q := _ in _) with (aligned (the_rec p a) qa = aligned (the_rec p b) qb).
  split; [|intros E; split; [exact (f_equal w_rot E)|exact (f_equal get_origin E)]]. intros [E1 E2]. pose proof (aligned_valid (the_rec p a) qa Ha) as V1. pose proof (aligned_valid (the_rec p b) qb Hb) as V2. apply valid_ext; try done.
  rewrite <- (center_of _ V1), <- (center_of _ V2), E1 in E2. apply (f_equal vopp) in E2. rewrite !vopp_opp in E2. eapply mvec_inj; [|exact E2]. apply rotation_T. apply V2.
Qed.

(** ... but hard alignment names a shot by putting the names of the reconstruction and of the image together, and these names are not kept
    apart: two shots of two reconstructions are one to the solver. *)
Theorem C60_hard_names_refuted : exists (recs : list (key * list view)) k1 k2 s1 s2, (k1, [s1]) ∈ recs /\ (k2, [s2]) ∈ recs /\ k1 <> k2 /\ vi_pose s1 <> vi_pose s2 /\
  size (p_shots (add_camera_constraints_hard partial_reconstruction_name problem0 recs)) = 1%nat.
Proof.
  exists [(("s", 1%nat), [View "1a.jpg" pose0 v0 1]); (("s", 11%nat), [View "a.jpg" (pose_of_vector v0 (Vec 1 0 0)) v0 1])], ("s", 1%nat), ("s", 11%nat), (View "1a.jpg" pose0 v0 1), (View "a.jpg" (pose_of_vector v0 (Vec 1 0 0)) v0 1).
  split; [by left|]. split; [by right; left|]. split; [done|]. split.
  - cbn. intros E. apply (f_equal (fun p => vx (w_tr p))) in E. cbn in E. lra.
  - unfold add_camera_constraints_hard, hard_rec, hard_shot; cbn [foldl fst snd vi_id]. cbn -[insert size]. assert (partial_reconstruction_name ("s", 1%nat) +:+ "1a.jpg" = "s_index11a.jpg") as -> by done. assert (partial_reconstruction_name ("s", 11%nat) +:+ "a.jpg" = "s_index11a.jpg") as -> by done.
    rewrite insert_insert. match goal with |- size (<[_ := ?x]> _) = _ => generalize x end. intros x. rewrite map_size_insert_None by apply lookup_empty. by rewrite map_size_empty.
Qed.

(** Two submodels, the second twice as large and moved, with a rig of two shots in common *)
Definition ex_rec : @map unit unit pose vec unit unit unit unit :=
  Map ∅ ∅ {["front" := pose0]} {["i" := Instance (pose_of_vector (Vec 1 2 3) (Vec 4 5 6)) ∅; "j" := Instance (pose_of_vector (Vec 0 1 0) (Vec 1 1 1)) ∅]}
    {[(false, "a") := Shot "c" "front" "i" tt tt ∅ ∅; (false, "b") := Shot "c" "front" "j" tt tt ∅ ∅]} ∅ None.
Definition ex_files : gmap string (list (@map unit unit pose vec unit unit unit unit)) :=
  {["s0" := [ex_rec]; "s1" := [apply_similarity ex_rec 2 (vector_to_rotation (Vec 1 0 0)) (Vec 1 2 3)]]}.
Example C60_example : exists p, NoDup ["s0"; "s1"] /\ rigid_files ex_files /\ solution (problem_of (fun _ => (v0, 1)) ["s0"; "s1"] [] ex_files) p /\
  (forall c, c ∈ p_constraints p -> is_relative_motion c -> vanishes p c) /\ common_frame p ("s1", 0%nat) (Vec 1 2 3) = v0.
Proof.
  assert (poses_valid ex_rec) as Hv.
  { split.
    - intros id q Hq. cbn in Hq. apply lookup_singleton_Some in Hq as [_ <-]. apply valid_pose0.
    - intros id q Hq. cbn [ex_rec m_instances] in Hq. apply lookup_insert_Some in Hq as [[_ <-]|[_ Hq]]; [apply from_w2c_valid, exp_rotation|]. apply lookup_singleton_Some in Hq as [_ <-]. apply from_w2c_valid, exp_rotation. }
  assert (rotation (vector_to_rotation (Vec 1 0 0))) as Hr by apply exp_rotation.
  assert (rigid_files ex_files) as Hrf.
  { intros path recs i m Hf Hi. unfold ex_files in Hf. apply lookup_insert_Some in Hf as [[_ <-]|[_ Hf]].
    - apply list_lookup_singleton_Some in Hi as [_ <-]. done.
    - apply lookup_singleton_Some in Hf as [_ <-]. apply list_lookup_singleton_Some in Hi as [_ <-]. by apply apply_similarity_valid. }
  assert (NoDup ["s0"; "s1"]) as Hn by (repeat constructor; set_solver).
  set (w := fun id => default pose0 (shot_pose compose ex_rec (false, id))).
  set (g := fun k : key => if decide (k.1 = "s0") then (1, mI, v0) else invert_similarity 2 (vector_to_rotation (Vec 1 0 0)) (Vec 1 2 3)).
  assert (forall id q, shot_pose compose ex_rec (false, id) = Some q -> valid q) as Hsp.
  { intros id q Hq. unfold shot_pose in Hq. apply bind_Some in Hq as (s & _ & Hq). apply bind_Some in Hq as (inst & Hinst & Hq). apply bind_Some in Hq as (rc & Hrc & Hq). injection Hq as <-. destruct Hv. apply valid_compose; eauto. }
  destruct (C60_attained (fun _ => (v0, 1)) ["s0"; "s1"] [] ex_files g w) as (p & Hsol & Hz & Hc).
  - done.
  - done.
  - intros k. unfold g. case_decide; [split; [lra|apply rotation_I]|]. unfold invert_similarity. split; [lra|by apply rotation_T].
  - intros id. unfold w. destruct (shot_pose compose ex_rec (false, id)) as [q|] eqn:E; [by eapply Hsp|apply valid_pose0].
  - intros path recs i m id q Hf Hi Hq. unfold ex_files in Hf. apply lookup_insert_Some in Hf as [[<- <-]|[Hne Hf]].
    + apply list_lookup_singleton_Some in Hi as [-> <-]. unfold g, w. cbn [fst]. rewrite decide_True by done. rewrite Hq. cbn [default from_option]. unfold Datatypes.id. pose proof (Hsp _ _ Hq) as Hq'.
      apply valid_ext; [by apply valid_similarity; [|apply rotation_I]|done| |]; unfold apply_similarity_pose; cbn; destruct q as [[] [] [] []]; cbn; unfold mmul, mT, mI, mvec, v0, vopp, vadd, vscale; cbn; f_equal; ring.
    + apply lookup_singleton_Some in Hf as [<- <-]. apply list_lookup_singleton_Some in Hi as [-> <-]. unfold g, w. cbn [fst]. rewrite decide_False by done. rewrite apply_similarity_pose_of in Hq by done.
      destruct (shot_pose compose ex_rec (false, id)) as [q0|] eqn:E; [|done]. injection Hq as <-. cbn [default from_option]. unfold Datatypes.id. apply (similarity_pose_undo q0 2 (vector_to_rotation (Vec 1 0 0)) (Vec 1 2 3)); [by eapply Hsp|done|lra].
  - exists p. split; [done|split; [done|split; [done|split; [done|]]]]. rewrite Hc.
    + unfold g. cbn [fst]. rewrite decide_False by done. unfold invert_similarity, apply_similarity_point. destruct (mvec (mT (vector_to_rotation (Vec 1 0 0))) (Vec 1 2 3)). unfold vadd, vscale, v0; cbn. f_equal; field.
    + apply elem_of_list_fmap. exists (("s1", 0%nat), shots_of (fun _ => (v0, 1)) (apply_similarity ex_rec 2 (vector_to_rotation (Vec 1 0 0)) (Vec 1 2 3))). split; [done|]. eapply elem_of_load; [by right; left|unfold ex_files; by rewrite lookup_insert_ne, lookup_singleton|done].
Qed.
Example C60_example_shared : exists q1 q2, shot_pose compose ex_rec (false, "a") = Some q1 /\ shot_pose compose (apply_similarity ex_rec 2 (vector_to_rotation (Vec 1 0 0)) (Vec 1 2 3)) (false, "a") = Some q2.
Proof. eexists _, _. split; unfold shot_pose; cbn -[compose apply_similarity_pose]; reflexivity. Qed.
Print Assumptions C60_aligned.
Print Assumptions C60_attained.
Print Assumptions C60_example.
