(** C83, C84: cleaned and pruned depth maps *)
From stdpp Require Import prelude.
From Coq Require Import Reals Lra Psatz Sorted.
From Verif Require Import Base Lin PixelModel RecProofs DenseModel DenseSpec DenseProofs DenseProps CleanProofs.
Local Open Scope R_scope.

(** ** C83: cleaning *)
Definition view_agrees (threshold : R) (X : vec) (o : depth_view) : Prop := agrees (LinearInterpolation (dv_depth o)) (dv_K o) (dv_R o) (dv_t o) X threshold.
Definition point_of (v : depth_view) (i j : Z) : vec := Backproject (IZR j) (IZR i) (im_at (dv_depth v) i j) (dv_K v) (dv_R v) (dv_t v).
(** The point of a pixel is the one the view sees there, at the depth of the pixel *)
Theorem C83_point v i j X : det (dv_K v) <> 0 -> rotation (dv_R v) -> seen (dv_K v) (dv_R v) (dv_t v) X (IZR j) (IZR i) (im_at (dv_depth v) i j) <-> X = point_of v i j.
Proof. intros. by apply C81_backproject. Qed.
Lemma clean_at th n first others i j : im_at (Clean th n first others) i j = if (n <=? consistent_views th first others i j)%nat then im_at (dv_depth first) i j else 0.
Proof. done. Qed.
Lemma enough th n first others i j : (n <= consistent_views th first others i j)%nat <-> at_least (n - 1) (view_agrees th (point_of first i j)) others.
Proof.
  unfold consistent_views. cbv zeta. pose proof (filter_at_least (fun o => consistent th (point_of first i j) o = true) (view_agrees th (point_of first i j)) others (n - 1)
    ltac:(intros; apply consistent_agrees)) as E. rewrite <-E. unfold point_of. lia.
Qed.
(** A depth is kept when at least all but one of the views asked for agree about its point, and is 0 else; the size is the same *)
Theorem C83_clean th n first others i j :
  (at_least (n - 1) (view_agrees th (point_of first i j)) others -> im_at (Clean th n first others) i j = im_at (dv_depth first) i j) /\
  (~ at_least (n - 1) (view_agrees th (point_of first i j)) others -> im_at (Clean th n first others) i j = 0) /\
  im_rows (Clean th n first others) = im_rows (dv_depth first) /\ im_cols (Clean th n first others) = im_cols (dv_depth first).
Proof.
  rewrite clean_at, <-enough. split; [|split; [|done]].
  - intros H. by rewrite (proj2 (Nat.leb_le _ _) H).
  - intros H. destruct (n <=? _)%nat eqn:E; [|done]. apply Nat.leb_le in E. done.
Qed.
Lemma at_least_mono {A} n m (P Q : A -> Prop) l l' : (m <= n)%nat -> l `sublist_of` l' -> (forall a, P a -> Q a) -> at_least n P l -> at_least m Q l'.
Proof.
  intros Hm Hl HPQ H. destruct (H) as (ks & ND & L & Hk).
  assert (forall l l' : list A, l `sublist_of` l' -> forall ks, NoDup ks -> (forall k, k ∈ ks -> exists a, l !! k = Some a /\ P a) ->
    exists ks', NoDup ks' /\ length ks' = length ks /\ forall k, k ∈ ks' -> exists a, l' !! k = Some a /\ P a) as G.
  { clear. intros l l' Hl. assert (exists f : nat -> nat, (forall x y, f x = f y -> x = y) /\ forall k a, l !! k = Some a -> l' !! f k = Some a) as (f & Inj & Hf).
    { induction Hl as [|a l l' _ (f & I & F)|a l l' _ (f & I & F)].
      - exists (fun k => k). split; [done|done].
      - exists (fun k => match k with 0 => 0 | S k => S (f k) end)%nat. split; [intros [|x] [|y]; [done|lia|lia|intros [= E]; by rewrite (I _ _ E)]|]. intros [|k] b; [done|]. apply F.
      - exists (fun k => S (f k)). split; [intros x y [= E]; by apply I|]. intros k b. apply F. }
    intros ks ND H. exists (f <$> ks). split; [by apply NoDup_fmap_2|]. split; [by rewrite fmap_length|]. intros k (k' & -> & Hk')%elem_of_list_fmap. destruct (H k' Hk') as (a & ? & ?). eauto. }
  destruct (G l l' Hl ks ND Hk) as (ks' & ND' & L' & Hk'). exists ks'. split; [done|]. split; [lia|]. intros k Hin. destruct (Hk' k Hin) as (a & ? & ?). eauto.
Qed.
(** Cleaning with more views, with a greater tolerance, or asking for fewer views, keeps at least as much *)
Theorem C83_monotone th th' n n' first others others' i j : th <= th' -> (n' <= n)%nat -> others `sublist_of` others' ->
  im_at (Clean th n first others) i j <> 0 -> im_at (Clean th' n' first others') i j = im_at (dv_depth first) i j.
Proof.
  intros Ht Hn Ho H. apply C83_clean. rewrite clean_at in H. destruct (n <=? _)%nat eqn:E; [|done]. apply Nat.leb_le, enough in E. revert E. apply at_least_mono; [lia|done|].
  intros o (x & y & d & S & D & B). exists x, y, d. split; [done|]. split; [done|]. pose proof z_epsilon_pos. nra.
Qed.
(** A point that enough views see just at the depth they have there is kept *)
Theorem C83_exact th n first others i j : 0 < th ->
  at_least (n - 1) (fun o => exists x y d, seen (dv_K o) (dv_R o) (dv_t o) (point_of first i j) x y d /\ / 10 ^ 8 <= d /\ LinearInterpolation (dv_depth o) y x = d) others ->
  im_at (Clean th n first others) i j = im_at (dv_depth first) i j.
Proof.
  intros Ht H. apply C83_clean. revert H. apply at_least_mono; [lia|done|]. intros o (x & y & d & S & D & E). exists x, y, d. split; [done|]. split; [done|]. rewrite E, Rminus_diag_eq, Rabs_R0 by done.
  pose proof z_epsilon_pos. nra.
Qed.
(** A view with no depth where it sees the point, as outside its image, does not agree *)
Theorem C83_no_depth th X o x y d : th <= 1 -> seen (dv_K o) (dv_R o) (dv_t o) X x y d -> LinearInterpolation (dv_depth o) y x = 0 -> ~ view_agrees th X o.
Proof.
  intros Ht S Z (x' & y' & d' & S' & D & B). pose proof z_epsilon_pos as P. unfold seen in *. rewrite S in S'. injection S' as E1 E2 ->.
  assert (x = x') as -> by (apply (Rmult_eq_reg_l d'); lra). assert (y = y') as -> by (apply (Rmult_eq_reg_l d'); lra). rewrite Z in B. unfold Rminus in B. rewrite Rplus_0_l, Rabs_Ropp, Rabs_right in B by lra. nra.
Qed.
(** so without other views all is removed when two views are asked for, and nothing when one is *)
Theorem C83_alone th n first i j : (n <= 1)%nat -> im_at (Clean th n first []) i j = im_at (dv_depth first) i j.
Proof. intros H. apply C83_clean. exists []. split; [constructor|]. split; [cbn; lia|]. by intros k ?%elem_of_nil. Qed.
Theorem C83_alone_removed th n first i j : (2 <= n)%nat -> im_at (Clean th n first []) i j = 0.
Proof. intros H. apply C83_clean. intros (ks & _ & L & Hk). destruct ks as [|k ks]; [cbn in L; lia|]. destruct (Hk k) as (? & ? & _); [left|done]. Qed.
(** Cleaning again changes nothing *)
Theorem C83_idempotent th n first others i j :
  let cleaned := DepthView (dv_K first) (dv_R first) (dv_t first) (Clean th n first others) in im_at (Clean th n cleaned others) i j = im_at (Clean th n first others) i j.
Proof.
  cbv zeta. rewrite (clean_at th n (DepthView _ _ _ _)). cbn [dv_depth]. rewrite clean_at. destruct (n <=? consistent_views th first others i j)%nat eqn:E; [|by match goal with |- (if ?b then _ else _) = _ => destruct b end].
  assert (consistent_views th (DepthView (dv_K first) (dv_R first) (dv_t first) (Clean th n first others)) others i j = consistent_views th first others i j) as ->.
  { unfold consistent_views. cbv zeta. cbn [dv_depth dv_K dv_R dv_t]. rewrite clean_at, E. done. }
  by rewrite E.
Qed.
(** A point that the other view sees exactly, on its last column, does not count as seen *)
Theorem C83_last_column_refuted : exists first other i j, IsInsideImage (dv_depth other) i j = true /\ im_at (dv_depth other) i j = 1 /\
  seen (dv_K other) (dv_R other) (dv_t other) (point_of first i j) (IZR j) (IZR i) 1 /\ im_at (dv_depth first) i j = 1 /\ im_at (Clean (1 / 100) 2 first [other]) i j = 0.
Proof.
  set (v := DepthView mI mI v0 (Image 3 3 (fun _ _ => 1))). exists v, v, 1%Z, 2%Z. assert (det mI <> 0) as HD by (unfold det; cbn; lra).
  assert (seen mI mI v0 (point_of v 1 2) (IZR 2) (IZR 1) 1) as S by (apply (C83_point v 1 2); [done|apply rotation_I|done]).
  split; [done|]. split; [done|]. split; [exact S|]. split; [done|]. apply C83_clean. intros (ks & _ & L & Hk). destruct ks as [|k ks]; [cbn in L; lia|].
  destruct (Hk k) as (o & Ho & Ag); [left|]. apply list_lookup_singleton_Some in Ho as [_ <-]. revert Ag. apply (C83_no_depth _ _ _ (IZR 2) (IZR 1) 1); [lra|exact S|].
  apply C81_interpolation_outside. intros [[_ H] _]. apply lt_IZR in H. cbn in H. lia.
Qed.
Example C83_case : exists first other i j, im_at (dv_depth first) i j = 1 /\ im_at (Clean (1 / 100) 2 first [other]) i j = 1.
Proof.
  set (v := DepthView mI mI v0 (Image 3 3 (fun _ _ => 1))). exists v, v, 1%Z, 1%Z. split; [done|]. assert (det mI <> 0) as HD by (unfold det; cbn; lra).
  rewrite (C83_exact (1 / 100) 2 v [v] 1 1); [done|lra|]. exists [0%nat]. split; [apply NoDup_singleton|]. split; [done|]. intros k ->%elem_of_list_singleton. exists v. split; [done|].
  exists (IZR 1), (IZR 1), 1. split; [apply (C83_point v 1 1); [done|apply rotation_I|done]|]. split; [apply (Rle_trans _ (/ 1)); [apply Rinv_le_contravar; lra|lra]|].
  rewrite C81_interpolation_pixel by (cbn; lia). done.
Qed.

(** ** C84: pruning *)
Definition depth_of (v : prune_view) (i j : Z) : R := im_at (pv_depth v) i j.
Definition resolution_of (v : prune_view) (i j : Z) : R := resolution (m11 (pv_K v)) (depth_of v i j) (pv_plane v i j).
(** A view has a finer pixel for a point: at the pixel where it sees the point it has a depth that is not much less than that of the point, with a better resolution *)
Definition has_finer (threshold : R) (X : vec) (res : R) (o : prune_view) : Prop := exists x y d i j,
  seen (pv_K o) (pv_R o) (pv_t o) X x y d /\ / 10 ^ 8 <= d /\ pixel_at x y i j /\ (0 <= i < im_rows (pv_depth o))%Z /\ (0 <= j < im_cols (pv_depth o))%Z /\
  (1 - threshold) * d < depth_of o i j /\ res < resolution_of o i j.
(** the position of the point in the view is not left of, or above, the first pixel, nor very far off *)
Definition regular (X : vec) (o : prune_view) : Prop := forall x y d, seen (pv_K o) (pv_R o) (pv_t o) X x y d -> / 10 ^ 8 <= d -> reachable_index x /\ reachable_index y.
Lemma area_resolution v i j : area v i j = resolution_of v i j.
Proof. unfold area, resolution_of, resolution, normalized, depth_of, Rdiv. cbn [vz vscale]. ring. Qed.
Lemma removes_finer th X a o : th < 1 -> regular X o -> removes th X a o = true <-> has_finer th X a o.
Proof.
  intros Ht Reg. pose proof z_epsilon_pos as P. unfold removes, has_finer, z_epsilon. cbv zeta. split.
  - destruct (Rlt_dec _ _) as [|L]; [done|]. set (p := Project X (pv_K o) (pv_R o) (pv_t o)) in *.
    assert (seen (pv_K o) (pv_R o) (pv_t o) X (vx p / vz p) (vy p / vz p) (vz p)) as S by (apply project_seen; fold p; lra).
    destruct (Reg _ _ _ S ltac:(lra)) as [RX RY]. destruct (index_ok _ RX) as (j & -> & BX). destruct (index_ok _ RY) as (i & -> & BY).
    unfold IsInsideImage. destruct (bool_decide _) eqn:I; [|done]. apply bool_decide_eq_true in I as [I1 I2]. destruct (Rlt_dec _ _) as [D|]; [|done].
    assert (0 < im_at (pv_depth o) i j) as DP by nra. destruct (Req_EM_T _ 0) as [|_]; [lra|]. destruct (Rlt_dec _ _) as [A|]; [|done]. intros _.
    exists (vx p / vz p), (vy p / vz p), (vz p), i, j. split; [done|]. split; [lra|]. split; [split; lra|]. split; [done|]. split; [done|]. split; [unfold depth_of; lra|]. by rewrite <-area_resolution.
  - intros (x & y & d & i & j & S & D & [PX PY] & I1 & I2 & Dp & A). destruct (Reg _ _ _ S D) as [RX RY]. assert (d <> 0) as D0 by lra. rewrite (seen_project _ _ _ _ _ _ _ D0 S). cbn [vx vy vz].
    destruct (Rlt_dec _ _); [lra|]. replace (d * y / d) with y by (field; lra). replace (d * x / d) with x by (field; lra).
    destruct (index_ok _ RX) as (j' & -> & BX). destruct (index_ok _ RY) as (i' & -> & BY). rewrite (index_unique _ _ _ BX PX), (index_unique _ _ _ BY PY).
    unfold IsInsideImage. rewrite bool_decide_true by done. unfold depth_of in Dp. destruct (Rlt_dec _ _); [|lra]. destruct (Req_EM_T _ 0); [done|]. rewrite area_resolution. destruct (Rlt_dec _ _); [done|lra].
Qed.
Lemma zrange_sorted a b : StronglySorted Z.lt (zrange a b).
Proof.
  unfold zrange. generalize (Z.to_nat (b - a)). intros n. assert (forall m, StronglySorted Z.lt ((fun k => (a + Z.of_nat k)%Z) <$> seq m n)) as G; [|apply G].
  induction n as [|n IH]; intros m; [constructor|]. cbn. constructor; [apply IH|]. apply Forall_fmap, Forall_forall. intros k [Hk _]%elem_of_seq. cbn. lia.
Qed.
Lemma grid_sorted rs cs : StronglySorted Z.lt rs -> StronglySorted Z.lt cs -> StronglySorted row_major (grid rs cs).
Proof.
  intros Hr Hc. unfold grid. induction Hr as [|r rs Hr IH Hall]; [constructor|]. cbn.
  assert (forall l l' : list (Z * Z), StronglySorted row_major l -> StronglySorted row_major l' -> (forall a b, a ∈ l -> b ∈ l' -> row_major a b) -> StronglySorted row_major (l ++ l')) as App.
  { clear. intros l l' Hl Hl'. induction Hl as [|a l Hl IH Ha]; intros H; [done|]. cbn. constructor; [apply IH; intros; apply H; [by right|done]|].
    apply Forall_app. split; [done|]. apply Forall_forall. intros b Hb. apply H; [left|done]. }
  apply App; [|exact IH|].
  - clear -Hc. induction Hc as [|c cs Hc IH Ha]; [constructor|]. cbn. constructor; [done|]. apply Forall_fmap. eapply Forall_impl; [exact Ha|]. intros c' Hc'. right. cbn. lia.
  - intros a b (c & -> & _)%elem_of_list_fmap (r' & (c' & -> & _)%elem_of_list_fmap & Hr')%elem_of_list_bind. left. cbn. rewrite Forall_forall in Hall. by apply Hall.
Qed.
Lemma filter_sorted {A} (rel : A -> A -> Prop) (P : A -> Prop) `{forall a, Decision (P a)} l : StronglySorted rel l -> StronglySorted rel (filter P l).
Proof.
  induction 1 as [|a l Hl IH Ha]; [constructor|]. rewrite filter_cons. destruct (decide (P a)); [|done]. constructor; [done|]. apply Forall_forall. intros b [_ Hb]%elem_of_list_filter. rewrite Forall_forall in Ha. by apply Ha.
Qed.
(** The output has, from top to bottom and left to right, one point for each pixel with a depth for which no other view has a finer pixel: the point seen there, the
    normal of its plane, of length 1, in the frame of the world, its colour and its label *)
Theorem C84_prune th first others : th < 1 -> (forall i j o, (0 <= i < im_rows (pv_depth first))%Z -> (0 <= j < im_cols (pv_depth first))%Z -> o ∈ others -> regular (pixel_point first i j) o) ->
  exists l, StronglySorted row_major l /\
  (forall i j, (i, j) ∈ l <-> (0 <= i < im_rows (pv_depth first))%Z /\ (0 <= j < im_cols (pv_depth first))%Z /\ 0 < depth_of first i j /\
     forall o, o ∈ others -> ~ has_finer th (pixel_point first i j) (resolution_of first i j) o) /\
  Forall2 (fun ij p => cp_point p = pixel_point first ij.1 ij.2 /\ cp_normal p = mvec (mT (pv_R first)) (vscale (/ norm (pv_plane first ij.1 ij.2)) (pv_plane first ij.1 ij.2)) /\
     cp_color p = pv_color first ij.1 ij.2 /\ cp_label p = pv_label first ij.1 ij.2) l (Prune th first others).
Proof.
  intros Ht Reg. exists (filter (fun ij => keeps th first others ij.1 ij.2 = true) (pixels (pv_depth first))). split; [|split].
  - apply filter_sorted. unfold pixels. apply grid_sorted; apply zrange_sorted.
  - intros i j. rewrite elem_of_list_filter. unfold pixels. rewrite grid_elem, !zrange_elem. cbn [fst snd]. unfold keeps, depth_of.
    split.
    + intros [H [I J]]. split; [done|]. split; [done|]. apply andb_true_iff in H as [H1 H2]. destruct (Rle_dec _ _); [done|]. split; [lra|]. intros o Ho F.
      apply negb_true_iff in H2. assert (existsb (removes th (pixel_point first i j) (area first i j)) others = true) as X; [|by rewrite X in H2].
      apply existsb_exists. exists o. split; [by apply elem_of_list_In|]. rewrite area_resolution. apply removes_finer; [done|by apply Reg|done].
    + intros (I & J & D & F). split; [|done]. apply andb_true_iff. split; [destruct (Rle_dec _ _); [lra|done]|]. apply negb_true_iff. destruct (existsb _ _) eqn:X; [|done].
      apply existsb_exists in X as (o & Ho%elem_of_list_In & X). rewrite area_resolution in X. apply removes_finer in X; [|done|by apply Reg]. by apply F in X.
  - unfold Prune. apply Forall2_fmap_r. generalize (filter (fun ij => keeps th first others ij.1 ij.2 = true) (pixels (pv_depth first))). intros l. induction l; constructor; [done|done].
Qed.
Theorem C84_point v i j X : det (pv_K v) <> 0 -> rotation (pv_R v) -> seen (pv_K v) (pv_R v) (pv_t v) X (IZR j) (IZR i) (depth_of v i j) <-> X = pixel_point v i j.
Proof. intros. by apply C81_backproject. Qed.
Theorem C84_normal v i j : rotation (pv_R v) -> pv_plane v i j <> v0 ->
  let n := cp_normal (cloud_point_of v i j) in dot n n = 1 /\ exists c, 0 < c /\ mvec (pv_R v) n = vscale c (pv_plane v i j).
Proof.
  intros HR N. cbn. set (q := pv_plane v i j) in *. assert (norm q <> 0) as Nq by (intros E; by apply N, norm_0). assert (0 < norm q) as P by (pose proof (norm_nonneg q); lra). split.
  - rewrite dot_mvec by (by apply rotation_T). unfold normalized. assert (dot (vscale (/ norm q) q) (vscale (/ norm q) q) = / norm q * / norm q * dot q q) as -> by (unfold dot, vscale; cbn; ring).
    rewrite <-norm_sq. field. done.
  - exists (/ norm q). split; [by apply Rinv_0_lt_compat|]. by rewrite <-mvec_mmul, (rotation_r _ HR), mvec_I.
Qed.
(** Alone, a view keeps all its depths *)
Theorem C84_alone th first i j : (0 <= i < im_rows (pv_depth first))%Z -> (0 <= j < im_cols (pv_depth first))%Z -> 0 < depth_of first i j -> cloud_point_of first i j ∈ Prune th first [].
Proof.
  intros I J D. unfold Prune. apply elem_of_list_fmap. exists (i, j). split; [done|]. apply elem_of_list_filter. split.
  - unfold keeps. cbn. unfold depth_of in D. destruct (Rle_dec _ _); [lra|done].
  - unfold pixels. rewrite grid_elem, !zrange_elem. done.
Qed.
(** ** Nothing is lost: when each view is pruned with some of the others, from every pixel with a depth a chain of ever finer pixels leads to one that is in the output of its view *)
Section Chain.
Variable th : R.
Variable views : list prune_view.
Variable neighbours : nat -> list nat.
Definition others_of (k : nat) : list prune_view := omap (fun k' => views !! k') (neighbours k).
(** a pixel of a view, and what it is replaced by *)
Definition located : Type := nat * (Z * Z).
Definition valid (a : located) (v : prune_view) : Prop :=
  views !! a.1 = Some v /\ (0 <= a.2.1 < im_rows (pv_depth v))%Z /\ (0 <= a.2.2 < im_cols (pv_depth v))%Z /\ 0 < depth_of v a.2.1 a.2.2.
Definition replaced_by (a b : located) : Prop := b.1 ∈ neighbours a.1 /\ exists v w, valid a v /\ valid b w /\
  exists x y d, seen (pv_K w) (pv_R w) (pv_t w) (pixel_point v a.2.1 a.2.2) x y d /\ (1 - th) * d < depth_of w b.2.1 b.2.2 /\ resolution_of v a.2.1 a.2.2 < resolution_of w b.2.1 b.2.2.
Definition weight (a : located) : R := match views !! a.1 with Some v => resolution_of v a.2.1 a.2.2 | None => 0 end.
Definition in_output (a : located) : Prop := exists v, valid a v /\ cloud_point_of v a.2.1 a.2.2 ∈ Prune th v (others_of a.1).
Definition is_kept (a : located) : Prop := match views !! a.1 with Some v => keeps th v (others_of a.1) a.2.1 a.2.2 = true | None => False end.
Definition locations : list located := k ← seq 0 (length views); match views !! k with Some v => (fun ij => (k, ij)) <$> filter (fun ij => (if Rlt_dec 0 (depth_of v ij.1 ij.2) then true else false) = true) (pixels (pv_depth v)) | None => [] end.
Lemma locations_elem a : a ∈ locations <-> exists v, valid a v.
Proof.
  destruct a as [k [i j]]. unfold locations, valid. rewrite elem_of_list_bind. cbn [fst snd]. split.
  - intros (k' & H & Hk). destruct (views !! k') as [v|] eqn:E; [|by apply elem_of_nil in H]. apply elem_of_list_fmap in H as ([i' j'] & [= -> -> ->] & [D H]%elem_of_list_filter).
    exists v. unfold pixels in H. rewrite grid_elem, !zrange_elem in H. cbn in D. destruct (Rlt_dec _ _); [|done]. tauto.
  - intros (v & E & I & J & D). exists k. rewrite E. split; [|apply elem_of_seq; apply lookup_lt_Some in E; lia]. apply elem_of_list_fmap. exists (i, j). split; [done|]. apply elem_of_list_filter. cbn.
    split; [destruct (Rlt_dec _ _); [done|lra]|]. unfold pixels. rewrite grid_elem, !zrange_elem. done.
Qed.
Theorem C84_nothing_lost a v : th < 1 -> valid a v -> exists b, leads weight replaced_by a b /\ in_output b.
Proof.
  intros Ht Ha. destruct (chain_ends weight replaced_by is_kept locations) with (a := a) as (b & Hb & L & G).
  - intros c (w & Hc)%locations_elem NK. destruct Hc as (E & I & J & D). unfold is_kept in NK. rewrite E in NK.
    assert (exists o, o ∈ others_of c.1 /\ removes th (pixel_point w c.2.1 c.2.2) (area w c.2.1 c.2.2) o = true) as (o & Ho & X).
    { unfold keeps in NK. destruct (Rle_dec _ _); [unfold depth_of in D; lra|]. cbn in NK. destruct (existsb _ _) eqn:X; [|done]. apply existsb_exists in X as (o & Ho & X). exists o. split; [by apply elem_of_list_In|done]. }
    unfold others_of in Ho. apply elem_of_list_omap in Ho as (k' & Hk' & Eo). unfold removes in X. cbv zeta in X. destruct (Rlt_dec _ _) as [|Z]; [done|].
    set (p := Project _ _ _ _) in *. set (ju := to_int (trunc (vx p / vz p + 1 / 2))) in *. set (iv := to_int (trunc (vy p / vz p + 1 / 2))) in *.
    unfold IsInsideImage in X. destruct (bool_decide _) eqn:II; [|done]. apply bool_decide_eq_true in II as [I1 I2]. destruct (Rlt_dec _ _) as [Dp|]; [|done]. pose proof z_epsilon_pos as P. unfold z_epsilon in Z.
    assert (0 < im_at (pv_depth o) iv ju) as DP by nra. destruct (Req_EM_T _ 0) as [|_]; [lra|]. destruct (Rlt_dec _ _) as [A|]; [|done]. rewrite !area_resolution in A.
    assert (valid (k', (iv, ju)) o) as Vo by (split; [done|]; split; [done|]; split; [done|exact DP]).
    exists (k', (iv, ju)). split; [apply locations_elem; by exists o|]. split.
    + split; [done|]. exists w, o. split; [done|]. split; [done|]. eexists _, _, _. split; [apply project_seen; fold p; lra|]. split; [fold p; exact Dp|exact A].
    + unfold weight. cbn [fst snd]. rewrite E, Eo. exact A.
  - intros c. unfold is_kept. destruct (views !! c.1) as [w|]; [|right; intros []]. destruct (keeps _ _ _ _ _); [by left|right; intros H; discriminate H].
  - apply locations_elem. by exists v.
  - exists b. split; [done|]. apply locations_elem in Hb as (w & Hw). exists w. split; [done|]. destruct Hw as (E & I & J & D). unfold is_kept in G. rewrite E in G.
    unfold Prune. apply elem_of_list_fmap. exists b.2. split; [done|]. apply elem_of_list_filter. split; [done|]. destruct b as [k [i j]]. unfold pixels. cbn [fst snd] in *. rewrite grid_elem, !zrange_elem. done.
Qed.
End Chain.
(** ** What is not so *)
Definition flat (K : mat) (depth : R) : prune_view := PruneView K mI v0 (Image 3 3 (fun _ _ => depth)) (fun _ _ => Vec 0 0 (-1)) (fun _ _ => (0, 0, 0)%Z) (fun _ _ => 0%Z).
Lemma flat_resolution K d i j : m11 K = 1 -> resolution_of (flat K d) i j = / d.
Proof.
  intros E. unfold resolution_of, resolution, depth_of. cbn. rewrite E. assert (norm (Vec 0 0 (-1)) = 1) as -> by (unfold norm, dot; cbn; replace (0 * 0 + 0 * 0 + -1 * -1) with 1 by ring; apply sqrt_1). unfold Rdiv. rewrite Rinv_1. ring.
Qed.
(** Two views of the same pixels keep both copies: neither is finer *)
Theorem C84_same_view th v i j : th < 1 -> regular (pixel_point v i j) v -> det (pv_K v) <> 0 -> rotation (pv_R v) -> / 10 ^ 8 <= depth_of v i j ->
  ~ has_finer th (pixel_point v i j) (resolution_of v i j) v.
Proof.
  intros Ht Reg HK HR D (x & y & d & i' & j' & S & D' & [PX PY] & _ & _ & _ & A). pose proof z_epsilon_pos as P.
  pose proof (proj2 (C84_point v i j (pixel_point v i j) HK HR) eq_refl) as S2. unfold seen in *. rewrite S2 in S. injection S as E1 E2 E3.
  assert (x = IZR j) as -> by (apply (Rmult_eq_reg_l d); [rewrite <-E1, E3; ring|lra]). assert (y = IZR i) as -> by (apply (Rmult_eq_reg_l d); [rewrite <-E2, E3; ring|lra]).
  assert (j' = j) as -> by (apply (index_unique (IZR j)); lra). assert (i' = i) as -> by (apply (index_unique (IZR i)); lra). lra.
Qed.
Theorem C84_duplicates_refuted : exists v w, v <> w /\ cloud_point_of v 1 1 = cloud_point_of w 1 1 /\ cloud_point_of v 1 1 ∈ Prune (1 / 100) v [w] /\ cloud_point_of w 1 1 ∈ Prune (1 / 100) w [v].
Proof.
  set (v := flat mI 1). set (w := PruneView mI mI v0 (Image 4 4 (fun _ _ => 1)) (fun _ _ => Vec 0 0 (-1)) (fun _ _ => (0, 0, 0)%Z) (fun _ _ => 0%Z)). exists v, w.
  split; [unfold v, w, flat; intros [= E]; discriminate|]. split; [done|].
  assert (forall a b : prune_view, pv_plane a = (fun _ _ => Vec 0 0 (-1)) -> pv_plane b = (fun _ _ => Vec 0 0 (-1)) -> (forall i j, depth_of a i j = 1) -> (forall i j, depth_of b i j = 1) -> m11 (pv_K a) = 1 -> m11 (pv_K b) = 1 ->
    (1 < im_rows (pv_depth a))%Z -> (1 < im_cols (pv_depth a))%Z -> cloud_point_of a 1 1 ∈ Prune (1 / 100) a [b]) as G.
  { clear. intros a b Pa Pb Da Db Ka Kb R1 C1. unfold Prune. apply elem_of_list_fmap. exists (1, 1)%Z. split; [done|]. apply elem_of_list_filter. split; [|unfold pixels; rewrite grid_elem, !zrange_elem; lia].
    cbn [fst snd]. unfold keeps. specialize (Da 1%Z 1%Z). unfold depth_of in *. destruct (Rle_dec _ _); [lra|]. cbn. rewrite orb_false_r. unfold removes. cbv zeta. destruct (Rlt_dec _ _); [done|].
    destruct (IsInsideImage _ _ _); [|done]. destruct (Rlt_dec _ _); [|done]. rewrite Db. destruct (Req_EM_T _ 0); [lra|]. rewrite !area_resolution. unfold resolution_of, depth_of. rewrite Pa, Pb, Da, Db, Ka, Kb. destruct (Rlt_dec _ _); [lra|done]. }
  split; apply G; done.
Qed.
(** A point seen more than a pixel and a quarter left of the image is compared with its first column, and removed *)
Theorem C84_outside_refuted : exists v w X x y d, seen (pv_K w) (pv_R w) (pv_t w) X x y d /\ x = -5 / 4 /\ removes (1 / 100) X (resolution_of v 1 1) w = true /\ ~ has_finer (1 / 100) X (resolution_of v 1 1) w.
Proof.
  set (v := flat mI 2). set (w := flat mI 1). exists v, w, (Vec (-5 / 4) 0 1), (-5 / 4), 0, 1.
  assert (seen mI mI v0 (Vec (-5 / 4) 0 1) (-5 / 4) 0 1) as S by (unfold seen, in_view, mvec, vadd, mI, v0; cbn; f_equal; lra). split; [exact S|]. split; [done|].
  assert (0 < / 10 ^ 8 <= 1) as [P Q] by (split; [apply z_epsilon_pos|apply (Rle_trans _ (/ 1)); [apply Rinv_le_contravar; lra|lra]]). split.
  - unfold removes. cbv zeta. change (pv_K w) with mI. change (pv_R w) with mI. change (pv_t w) with v0. assert (Project (Vec (-5 / 4) 0 1) mI mI v0 = Vec (1 * (-5 / 4)) (1 * 0) 1) as -> by exact S.
    cbn [vx vy vz]. unfold z_epsilon. destruct (Rlt_dec _ _); [lra|].
    assert (trunc (1 * (-5 / 4) / 1 + 1 / 2) = 0%Z) as ->.
    { unfold trunc. destruct (Rle_dec _ _); [lra|]. destruct (base_Int_part (- (1 * (-5 / 4) / 1 + 1 / 2))) as [A B]. set (k := Int_part _) in *. assert (IZR k < 1) as U by lra. assert (-1 < IZR k) as L by lra. apply lt_IZR in U, L. lia. }
    assert (trunc (1 * 0 / 1 + 1 / 2) = 0%Z) as -> by (apply trunc_unique; lra). change (to_int 0) with 0%Z. assert (IsInsideImage (pv_depth w) 0 0 = true) as -> by done. cbn [pv_depth w flat im_at].
    destruct (Rlt_dec _ _); [|lra]. destruct (Req_EM_T _ _); [lra|]. rewrite area_resolution. unfold v, w. rewrite !flat_resolution by done. destruct (Rlt_dec _ _); [done|lra].
  - intros (x & y & d & i & j & S' & _ & [PX _] & _ & Hj & _). unfold seen in S, S'. change (pv_K w) with mI in S'. change (pv_R w) with mI in S'. change (pv_t w) with v0 in S'. rewrite S in S'. injection S' as E1 _ <-.
    assert (x = -5 / 4) as -> by lra. assert (IZR j <= -1 / 2) as U by lra. assert (0 <= IZR j) by (apply IZR_le; lia). lra.
Qed.
(** and one seen 2^32 pixels to the right of a pixel, with it *)
Theorem C84_far_refuted : exists v w X x y d, seen (pv_K w) (pv_R w) (pv_t w) X x y d /\ x = 4294967296 /\ removes (1 / 100) X (resolution_of v 1 1) w = true /\ ~ has_finer (1 / 100) X (resolution_of v 1 1) w.
Proof.
  set (v := flat mI 2). set (w := flat mI 1). exists v, w, (Vec 4294967296 0 1), 4294967296, 0, 1.
  assert (seen mI mI v0 (Vec 4294967296 0 1) 4294967296 0 1) as S by (unfold seen, in_view, mvec, vadd, mI, v0; cbn; f_equal; lra). split; [exact S|]. split; [done|].
  assert (0 < / 10 ^ 8 <= 1) as [P Q] by (split; [apply z_epsilon_pos|apply (Rle_trans _ (/ 1)); [apply Rinv_le_contravar; lra|lra]]). split.
  - unfold removes. cbv zeta. change (pv_K w) with mI. change (pv_R w) with mI. change (pv_t w) with v0. assert (Project (Vec 4294967296 0 1) mI mI v0 = Vec (1 * 4294967296) (1 * 0) 1) as -> by exact S.
    cbn [vx vy vz]. unfold z_epsilon. destruct (Rlt_dec _ _); [lra|].
    assert (trunc (1 * 4294967296 / 1 + 1 / 2) = 4294967296%Z) as -> by (apply trunc_unique; lra). assert (trunc (1 * 0 / 1 + 1 / 2) = 0%Z) as -> by (apply trunc_unique; lra).
    change (to_int 0) with 0%Z. change (to_int 4294967296) with 0%Z. assert (IsInsideImage (pv_depth w) 0 0 = true) as -> by done. cbn [pv_depth w flat im_at].
    destruct (Rlt_dec _ _); [|lra]. destruct (Req_EM_T _ _); [lra|]. rewrite area_resolution. unfold v, w. rewrite !flat_resolution by done. destruct (Rlt_dec _ _); [done|lra].
  - intros (x & y & d & i & j & S' & _ & [PX _] & _ & Hj & _). unfold seen in S, S'. change (pv_K w) with mI in S'. change (pv_R w) with mI in S'. change (pv_t w) with v0 in S'. rewrite S in S'. injection S' as E1 _ <-.
    assert (x = 4294967296) as -> by lra. cbn in Hj. assert (IZR j <= 2) by (apply IZR_le; lia). lra.
Qed.
Example C84_case : exists v w i j, regular (pixel_point v i j) w /\ has_finer (1 / 100) (pixel_point v i j) (resolution_of v i j) w /\ 0 < depth_of v i j.
Proof.
  set (v := flat mI 2). set (w := PruneView mI mI (Vec 0 0 (-1)) (Image 3 3 (fun _ _ => 1)) (fun _ _ => Vec 0 0 (-1)) (fun _ _ => (0, 0, 0)%Z) (fun _ _ => 0%Z)). exists v, w, 1%Z, 1%Z.
  assert (pixel_point v 1 1 = Vec 2 2 2) as E.
  { symmetry. apply C84_point; [unfold det; cbn; lra|apply rotation_I|]. unfold seen, in_view, mvec, vadd, mI, v0. cbn. f_equal; lra. }
  assert (seen mI mI (Vec 0 0 (-1)) (Vec 2 2 2) 2 2 1) as S by (unfold seen, in_view, mvec, vadd, mI, v0; cbn; f_equal; lra).
  assert (0 < / 10 ^ 8 <= 1) as [P Q] by (split; [apply z_epsilon_pos|apply (Rle_trans _ (/ 1)); [apply Rinv_le_contravar; lra|lra]]). rewrite E. split_and!.
  - intros x y d S' _. unfold seen in S, S'. cbn [pv_K pv_R pv_t w] in S'. rewrite S in S'. injection S' as E1 E2 <-. unfold reachable_index. lra.
  - exists 2, 2, 1, 2%Z, 2%Z. split; [exact S|]. split; [done|]. split; [split; lra|]. split; [cbn; lia|]. split; [cbn; lia|]. split; [unfold depth_of; cbn; lra|].
    unfold v. rewrite flat_resolution by done. change (resolution_of w 2 2) with (resolution_of (flat mI 1) 2 2). rewrite flat_resolution by done. lra.
  - unfold depth_of. cbn. lra.
Qed.

Print Assumptions C83_point.
Print Assumptions C83_clean.
Print Assumptions C83_monotone.
Print Assumptions C83_exact.
Print Assumptions C83_no_depth.
Print Assumptions C83_alone.
Print Assumptions C83_alone_removed.
Print Assumptions C83_idempotent.
Print Assumptions C83_last_column_refuted.
Print Assumptions C84_prune.
Print Assumptions C84_point.
Print Assumptions C84_normal.
Print Assumptions C84_alone.
Print Assumptions C84_nothing_lost.
Print Assumptions C84_same_view.
Print Assumptions C84_duplicates_refuted.
Print Assumptions C84_outside_refuted.
Print Assumptions C84_far_refuted.
