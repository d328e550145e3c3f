(** C80: the alignment of a reconstruction with a prior on the orientation of the cameras *)
From stdpp Require Import prelude gmap strings.
From Coq Require Import Reals Lra Psatz.
From Verif Require Import Base Lin MapModel RotModel RotProofs PoseModel PoseSpec PoseProofs PlaneProofs PlaneProps JsonModel GcpModel TriangModel GeoModel AnglesModel AnglesSpec
  FitModel FitSpec FitProofs FitPlaneProofs FitProps AlignModel AlignSpec AlignProofs AlignPriorProofs AlignProps.
Local Open Scope R_scope.

(** ** The directions *)
(** The first two are those of the upright picture, for every orientation tag. *)
Theorem C80_directions r o x y z : get_horizontal_and_vertical_directions r o = (x, y, z) -> x = picture_right r o /\ y = picture_bottom r o.
Proof. intros E. pose proof (directions_picture r o) as H. rewrite E in H. by injection H. Qed.
(** The third is the viewing direction, except for the tags 2, 5 and 7, for which it is its opposite. *)
Theorem C80_front_refuted r o x y z : get_horizontal_and_vertical_directions r o = (x, y, z) -> z = if decide (o ∈ [2; 5; 7]%Z) then vopp (viewing r) else viewing r.
Proof. intros E. pose proof (directions_front r o) as H. by rewrite E in H. Qed.

(** ** The plane *)
Definition eigenvector_right (eigenvector : list (vec * R) -> vec * R) (prior : string) (shots : list (vec * mat * option Z)) : Prop :=
  let rows := plane_rows (centred ((fun s => s.1.1) <$> shots)) (mjoin (fst <$> omap (fun s => prior_vectors prior s.1.2 <$> s.2) shots)) in
  smallest_eigenvector rows (eigenvector rows).
Lemma in_vectors {A} (f : list vec * list vec -> list vec) prior (shots : list (vec * mat * option Z)) v (_ : A) :
  v ∈ mjoin (f <$> omap (fun s => prior_vectors prior s.1.2 <$> s.2) shots) <-> exists o r t, (o, r, Some t) ∈ shots /\ v ∈ f (prior_vectors prior r t).
Proof.
  rewrite elem_of_list_join. split.
  - intros (l & Hv & (p & -> & Hp)%elem_of_list_fmap). apply elem_of_list_omap in Hp as ([[o r] t] & Hin & E). cbn in E. destruct t as [t|]; [|done]. injection E as <-. by exists o, r, t.
  - intros (o & r & t & Hin & Hv). exists (f (prior_vectors prior r t)). split; [done|]. apply elem_of_list_fmap. exists (prior_vectors prior r t). split; [done|]. apply elem_of_list_omap. by exists (o, r, Some t).
Qed.
Lemma plane_general eigenvector prior shots up : eigenvector_right eigenvector prior shots -> dot up up = 1 ->
  (forall p q, p ∈ shots -> q ∈ shots -> dot p.1.1 up = dot q.1.1 up) ->
  (forall o r t, (o, r, Some t) ∈ shots -> (forall v, v ∈ (prior_vectors prior r t).1 -> dot v up = 0) /\ (exists v, (prior_vectors prior r t).2 = [v] /\ 0 < dot v up) /\
     (forall v, v ∈ horizontals prior r t -> v ∈ (prior_vectors prior r t).1 \/ vopp v ∈ (prior_vectors prior r t).1)) ->
  (exists o r t, (o, r, Some t) ∈ shots) -> (exists v w, known_level (.∈ shots) prior v /\ known_level (.∈ shots) prior w /\ cross v w <> v0) ->
  estimate_ground_plane eigenvector prior shots = Some (up, 0).
Proof.
  intros He Hup Hh Hp (o0 & r0 & t0 & H0) (v & w & Hv & Hw & Hc). unfold estimate_ground_plane.
  assert (forall u, known_level (.∈ shots) prior u -> forall n, (forall x, x ∈ centred ((fun s => s.1.1) <$> shots) ++ mjoin (fst <$> omap (fun s => prior_vectors prior s.1.2 <$> s.2) shots) -> dot x n = 0) -> dot u n = 0) as G.
  { intros u [(p & q & Ip & Iq & ->)|(o & r & t & Hin & Hu)] n Hn.
    - pose proof (Hn (vadd p.1.1 (vopp (vmean ((fun s => s.1.1) <$> shots))))) as H1. pose proof (Hn (vadd q.1.1 (vopp (vmean ((fun s => s.1.1) <$> shots))))) as H2.
      assert (forall p, p ∈ shots -> vadd p.1.1 (vopp (vmean ((fun s => s.1.1) <$> shots))) ∈ centred ((fun s => s.1.1) <$> shots)) as Hin.
      { intros p' Hp'. apply elem_of_list_fmap. exists p'.1.1. split; [done|]. apply elem_of_list_fmap. by exists p'. }
      specialize (H1 ltac:(apply elem_of_app; left; by apply Hin)). specialize (H2 ltac:(apply elem_of_app; left; by apply Hin)). revert H1 H2. generalize (vmean ((fun s : vec * mat * option Z => s.1.1) <$> shots)).
      generalize p.1.1 q.1.1. clear. intros [] [] []. unfold dot, vsub, vadd, vopp; cbn. intros. lra.
    - destruct (Hp o r t Hin) as (_ & _ & Hor). destruct (Hor u Hu) as [Hi|Hi].
      + apply Hn, elem_of_app. right. apply (in_vectors fst _ _ _ tt). by exists o, r, t.
      + assert (dot (vopp u) n = 0) as E by (apply Hn, elem_of_app; right; apply (in_vectors fst _ _ _ tt); by exists o, r, t).
        revert E. destruct u, n. unfold dot, vopp; cbn. lra. }
  apply plane_found; try done.
  - intros E. apply fmap_nil_inv in E. subst. inversion H0.
  - intros p q (p' & -> & Hp')%elem_of_list_fmap (q' & -> & Hq')%elem_of_list_fmap. by apply Hh.
  - intros x (o & r & t & Hin & Hx)%(in_vectors fst _ _ _ tt). by apply (Hp o r t).
  - destruct (Hp o0 r0 t0 H0) as (_ & (u & Eu & _) & _). intros E. assert (u ∈ []) as Hu; [|inversion Hu]. rewrite <- E. apply (in_vectors snd _ _ _ tt). exists o0, r0, t0. split; [done|]. rewrite Eu. left.
  - intros x (o & r & t & Hin & Hx)%(in_vectors snd _ _ _ tt). destruct (Hp o r t Hin) as (_ & (u & Eu & Hu) & _). rewrite Eu in Hx. by apply elem_of_list_singleton in Hx as ->.
  - exists v, w. split; [|done]. intros n Hn. split; by apply G.
Qed.
Lemma horizontals_prior prior r t : (prior = "no_roll" \/ prior = "horizontal" \/ prior = "vertical")%string -> forall v, v ∈ horizontals prior r t -> v ∈ (prior_vectors prior r t).1 \/ vopp v ∈ (prior_vectors prior r t).1.
Proof.
  intros Hp v. pose proof (directions_picture r t) as E1. pose proof (directions_front r t) as E2. unfold horizontals, prior_vectors.
  destruct (get_horizontal_and_vertical_directions r t) as [[x y] z]. cbn in E1, E2. injection E1 as -> ->.
  destruct (decide (prior = "no_roll"%string)); [by left|]. destruct (decide (prior = "horizontal"%string)).
  - cbn. intros [->|Hv]%elem_of_cons; [left; left|]. apply elem_of_list_singleton in Hv as ->. destruct (decide (t ∈ _)); subst z; [right|left]; right; left.
  - destruct (decide (prior = "vertical"%string)); [by left|]. exfalso. naive_solver.
Qed.
Lemma prior_holds_known prior up r t : prior_holds prior up r t -> (prior = "no_roll" \/ prior = "horizontal" \/ prior = "vertical")%string.
Proof. unfold prior_holds. repeat case_decide; auto; done. Qed.
(** The plane found is the horizontal one, with the normal upward, when the cameras are all at the same height and those with an orientation tag are as the option says. *)
Theorem C80_plane eigenvector prior shots up : eigenvector_right eigenvector prior shots -> levelled (.∈ shots) prior up -> estimate_ground_plane eigenvector prior shots = Some (up, 0).
Proof.
  intros He (Hup & Hh & Hp & Ht & Hd). apply plane_general; try done. intros o r t Hin. specialize (Hp o r t Hin). destruct (prior_vectors_up _ _ _ _ Hp) as [H1 H2]. repeat split; try done.
  apply horizontals_prior. by eapply prior_holds_known.
Qed.
(** For cameras that look down and have the tags 2, 5 or 7 (mirrored), it is upside down. *)
Theorem C80_mirrored_refuted eigenvector shots up : eigenvector_right eigenvector "vertical" shots -> dot up up = 1 ->
  (forall p q, p ∈ shots -> q ∈ shots -> dot p.1.1 up = dot q.1.1 up) -> (forall o r t, (o, r, Some t) ∈ shots -> looks_down up r t /\ t ∈ [2; 5; 7]%Z) ->
  (exists o r t, (o, r, Some t) ∈ shots) -> (exists v w, known_level (.∈ shots) "vertical" v /\ known_level (.∈ shots) "vertical" w /\ cross v w <> v0) ->
  estimate_ground_plane eigenvector "vertical" shots = Some (vopp up, 0).
Proof.
  intros He Hup Hh Hp Ht Hd. assert (forall v, dot v (vopp up) = - dot v up) as Ho by dreal. assert (forall v, dot (vopp v) (vopp up) = dot v up) as Ho' by dreal.
  apply plane_general; try done.
  - by rewrite Ho'.
  - intros p q H1 H2. rewrite !Ho. f_equal. by apply Hh.
  - intros o r t Hin. destruct (Hp o r t Hin) as [(H1 & H2 & H3) Htag]. repeat split; [..|apply horizontals_prior; auto].
    + pose proof (directions_picture r t) as E1. unfold prior_vectors. destruct (get_horizontal_and_vertical_directions r t) as [[x y] z]. cbn in E1. injection E1 as -> ->.
      rewrite !decide_False, decide_True by done. cbn. intros v [-> | ->%elem_of_list_singleton]%elem_of_cons; rewrite Ho; lra.
    + pose proof (directions_front r t) as E2. unfold prior_vectors. destruct (get_horizontal_and_vertical_directions r t) as [[x y] z]. cbn in E2.
      rewrite !decide_False, decide_True by done. cbn. eexists. split; [done|]. subst z. rewrite decide_True by done. rewrite Ho'. assert (dot (vopp (viewing r)) up = - dot (viewing r) up) as -> by (clear; generalize (viewing r); dreal). lra.
Qed.
(** Without any tag nothing tells up from down: the opposite is as right an answer of the eigenvalue solver. *)
Theorem C80_untagged_refuted eigenvector prior shots n d : eigenvector_right eigenvector prior shots -> (forall o r t, (o, r, Some t) ∉ shots) ->
  estimate_ground_plane eigenvector prior shots = Some (n, d) -> (n, d) <> (Vec 0 0 1, 0) ->
  exists eigenvector', eigenvector_right eigenvector' prior shots /\ estimate_ground_plane eigenvector' prior shots = Some (vopp n, - d).
Proof.
  intros He Hno E Hn. exists (fun rows => (vopp (eigenvector rows).1, - (eigenvector rows).2)).
  assert (forall rows p, squared_product rows (vopp p.1, - p.2) = squared_product rows p) as Hsq.
  { intros rows p. unfold squared_product. induction rows as [|[a b] rows IH]; [done|]. cbn [foldr]. rewrite IH. f_equal. destruct p as [p e], a, p. unfold product, dot, vopp; cbn. ring. }
  split.
  - destruct He as [Hu Hm]. split; [unfold unit4 in *; cbn; rewrite <- Hu; destruct (eigenvector _) as [[] ?]; unfold dot, vopp; cbn; ring|]. intros q Hq. rewrite Hsq. by apply Hm.
  - unfold estimate_ground_plane, fit_plane in *. set (verts := mjoin (snd <$> _)) in *. assert (verts = []) as Ev.
    { destruct verts as [|v l] eqn:Ev; [done|]. exfalso. assert (v ∈ verts) as Hin by (rewrite Ev; left). apply (in_vectors snd _ _ _ tt) in Hin as (o & r & t & Hin & _). by eapply Hno. }
    rewrite Ev in *. destruct (centred _) as [|c0 cs]; [done|]. set (p := eigenvector _) in *. cbn [fst snd].
    assert (close_to_zero (vopp p.1) = close_to_zero p.1) as Ec. { unfold close_to_zero. destruct p.1. unfold vopp; cbn. by rewrite !Rabs_Ropp. }
    rewrite Ec. destruct (close_to_zero p.1); [injection E as <- <-; done|]. injection E as E. rewrite E. done.
Qed.
(** A path that climbs tilts the plane, although every picture is as the option says. *)
Definition east_camera : mat := Mat 1 0 0 0 0 (-1) 0 1 0.
Definition slope : list (vec * mat * option Z) := [(v0, east_camera, Some 1%Z); (Vec 2 0 2, east_camera, Some 1%Z)].
Theorem C80_slope_refuted : (forall o r t, (o, r, Some t) ∈ slope -> rotation r /\ prior_holds "horizontal" (Vec 0 0 1) r t) /\
  forall eigenvector, eigenvector_right eigenvector "horizontal" slope -> exists p, estimate_ground_plane eigenvector "horizontal" slope = Some p /\ vx p.1 <> 0.
Proof.
  split.
  { intros o r t H. assert (r = east_camera /\ t = 1%Z) as [-> ->] by (unfold slope in H; repeat (apply elem_of_cons in H as [H|H]); [by injection H|by injection H|inversion H]).
    split; [split; [unfold mmul, mT, mI; cbn; f_equal; ring|unfold det; cbn; ring]|]. unfold prior_holds. rewrite decide_False, decide_True by done. unfold looks_horizontally, no_roll, dot, picture_right, picture_bottom, viewing; cbn. lra. }
  intros eigenvector [Hu Hm]. unfold estimate_ground_plane.
  assert (centred ((fun s => s.1.1) <$> slope) = [Vec (-1) 0 (-1); Vec 1 0 1]) as Ec. { unfold centred, vmean, slope. cbn. unfold vadd, vopp, vscale, v0; cbn. repeat f_equal; field. }
  rewrite Ec in *. set (vectors := mjoin (fst <$> _)) in *. assert (vectors = [Vec 1 0 0; Vec 0 1 0; Vec 1 0 0; Vec 0 1 0]) as Ev by done.
  set (verts := mjoin (snd <$> _)) in *. assert (verts = [Vec 0 0 1; Vec 0 0 1]) as Ew.
  { change verts with [vopp (Vec 0 0 (-1)); vopp (Vec 0 0 (-1))]. unfold vopp; cbn. repeat f_equal; ring. }
  rewrite Ev, Ew in *. clear vectors verts Ev Ew. unfold fit_plane. set (rows := plane_rows _ _) in *. 
  assert (forall n d, squared_product rows (n, d) = 3 * ((vx n + vz n) * (vx n + vz n)) + 2 * (d * d) + 3 * (vx n * vx n + vy n * vy n)) as F.
  { unfold rows, plane_rows. set (l := mjoin _). set (s := 1 / _). assert (s * s = 3 / 2) as Hs.
    { assert (std l * std l = 2 / 3) as E. { rewrite std_sq. unfold l, mean. cbn. field. }
      pose proof (std_nonneg l) as Hp. pose proof (inv10_pos 8) as He. assert (/ 10 ^ 8 <= / 10) as He2.
      { apply Rinv_le_contravar; [lra|]. replace (10 ^ 8) with (10 * 10 ^ 7) by ring. assert (1 <= 10 ^ 7) by (apply pow_R1_Rle; lra). lra. }
      unfold s. rewrite Rmax_right by nra. assert (std l <> 0) by nra. replace (1 / std l * (1 / std l)) with (/ (std l * std l)) by (field; done). rewrite E. field. }
    clearbody s. intros [x y z] d. unfold squared_product, product; cbn. unfold dot; cbn.
    transitivity (s * s * (2 * ((x + z) * (x + z)) + 2 * (x * x + y * y)) + 2 * (d * d)); [ring|]. rewrite Hs. field. }
  specialize (Hm (Vec (- (3 / 5)) 0 (4 / 5), 0)). rewrite F in Hm. unfold unit4, dot in *. cbn [fst snd vx vy vz] in Hm. specialize (Hm ltac:(field)). clearbody rows. destruct (eigenvector rows) as [n d]. cbn [fst snd] in *. rewrite F in Hm. clear F Ec.
  destruct (close_to_zero n) eqn:Ec.
  { exfalso. unfold close_to_zero in Ec. destruct (Rle_dec (Rabs (vx n)) _) as [Hx|]; [|done]. destruct (Rle_dec (Rabs (vy n)) _) as [Hy|]; [|done]. destruct (Rle_dec (Rabs (vz n)) _) as [Hz|]; [|done].
    assert (0 < / 10 ^ 8 <= / 10) as [He1 He2].
    { split; [apply inv10_pos|]. apply Rinv_le_contravar; [lra|]. replace (10 ^ 8) with (10 * 10 ^ 7) by ring. assert (1 <= 10 ^ 7) by (apply pow_R1_Rle; lra). lra. }
    set (e := / 10 ^ 8) in *. clearbody e. assert (forall w, Rabs w <= e -> w * w <= / 100) as G.
    { intros w Hw. destruct (Rcase_abs w) as [N|N]; [rewrite Rabs_left in Hw by done|rewrite Rabs_right in Hw by done]; nra. }
    specialize (G _ Hx) as G1; specialize (G _ Hy) as G2; specialize (G _ Hz) as G3. pose proof (Rle_0_sqr (vx n + vz n)) as S1. pose proof (Rle_0_sqr (vx n)) as S2. pose proof (Rle_0_sqr (vy n)) as S3. unfold Rsqr in *. lra. }
  destruct n as [x y z]. cbn [vx vy vz] in *. eexists. split; [done|]. cbn [fst vx]. unfold vscale. cbn [vx]. cbn [fmap list_fmap sumR foldr]. unfold dot. cbn [vx vy vz].
  pose proof (Rle_0_sqr y) as S1. pose proof (Rle_0_sqr x) as S2. pose proof (Rle_0_sqr z) as S3. unfold Rsqr in *.
  assert (x <> 0) as Hx. { intros ->. nra. } assert (z <> 0) as Hz. { intros ->. nra. }
  unfold sign. destruct (Rlt_dec _ _); [lra|]. destruct (Rlt_dec _ _); [lra|]. exfalso. apply Hz. lra.
Qed.

(** ** The fit *)
(** With no position the reconstruction is only levelled. *)
Theorem C80_no_position svd2 us r : prior_similarity svd2 us r [] = Some (1, r, v0).
Proof. done. Qed.
Lemma spread_axes l e : 0 < e -> 2 * e <= deviation l -> e <= vmax (std_axes l).
Proof.
  intros He H. destruct (Rle_dec e (vmax (std_axes l))) as [|N]; [done|exfalso]. apply Rnot_le_lt in N. rewrite <- std_deviation in H.
  assert (norm (std_axes l) * norm (std_axes l) = dot (std_axes l) (std_axes l)) as E by apply norm_sq. unfold vmax, dot in *. cbn [std_axes vx vy vz] in *.
  pose proof (std_nonneg (vx <$> l)). pose proof (std_nonneg (vy <$> l)). pose proof (std_nonneg (vz <$> l)).
  pose proof (Rmax_l (std (vx <$> l)) (Rmax (std (vy <$> l)) (std (vz <$> l)))). pose proof (Rmax_r (std (vx <$> l)) (Rmax (std (vy <$> l)) (std (vz <$> l)))).
  pose proof (Rmax_l (std (vy <$> l)) (std (vz <$> l))). pose proof (Rmax_r (std (vy <$> l)) (std (vz <$> l))). pose proof (norm_nonneg (std_axes l)).
  set (a := std (vx <$> l)) in *. set (b := std (vy <$> l)) in *. set (c := std (vz <$> l)) in *. set (k := norm _) in *. clearbody a b c k.
  assert (a * a < e * e) by nra. assert (b * b < e * e) by nra. assert (c * c < e * e) by nra. nra.
Qed.
Lemma scatter_fmap_rotation r l : rotation r -> l <> [] -> deviation (mvec r <$> l) = deviation l.
Proof.
  intros Hr Hl. unfold deviation. rewrite fmap_length. f_equal. f_equal. rewrite !scatter_spread. 
  assert (mvec r <$> l = moved 1 r v0 <$> l) as ->. { apply list_fmap_ext. intros i x _. unfold moved. generalize (mvec r x). vring. }
  rewrite spread_moved by done. ring.
Qed.
(** A rotation that keeps the vertical turns around it *)
Lemma turn_about_vertical q : rotation q -> mvec q (Vec 0 0 1) = Vec 0 0 1 -> exists t, q = Mat (cos t) (- sin t) 0 (sin t) (cos t) 0 0 0 1.
Proof.
  intros Hq E. pose proof (rotation_l q Hq) as Hl. destruct Hq as [Ho Hd]. destruct q as [a b c d e f g h i]. unfold mvec, dot in E. cbn in E. injection E as E1 E2 E3.
  assert (c = 0) as -> by lra. assert (f = 0) as -> by lra. assert (i = 1) as -> by lra. unfold mmul, mT, mI, det in *. cbn in *. injection Ho as O1 O2 O3 O4 O5 O6 O7 O8 O9. 
  assert (g = 0 /\ h = 0) as [-> ->]. { destruct (two_squares g h 0) as [? ?]; [lra|lra|done]. }
  assert (a * a + b * b = 1) as U by lra. destruct (unit_angle a d) as (t & Hc & Hs); [injection Hl; intros; lra|]. exists t. rewrite Hc, Hs.
  assert (e = a /\ b = - d) as [-> ->]; [|done]. injection Hl as L1 L2 L3 L4 L5 L6 L7 L8 L9.
  assert ((e - a) * (e - a) + (b + d) * (b + d) + 0 = 0) as Z; [|destruct (two_squares _ _ 0 Z) as [? ?]; [lra|split; lra]].
  replace ((e - a) * (e - a) + (b + d) * (b + d) + 0) with ((a * a + d * d) + (b * b + e * e) - 2 * (a * e - b * d)) by ring. lra.
Qed.
Lemma same_turn r a up : rotation r -> rotation a -> mvec r up = Vec 0 0 1 -> mvec a up = Vec 0 0 1 ->
  exists t, a = mmul (Mat (cos t) (- sin t) 0 (sin t) (cos t) 0 0 0 1) r.
Proof.
  intros Hr Ha Er Ea. destruct (turn_about_vertical (mmul a (mT r))) as (t & Et).
  - apply rotation_mmul; [done|by apply rotation_T].
  - rewrite mvec_mmul. rewrite <- Er at 1. rewrite <- (mvec_mmul (mT r) r), rotation_l, mvec_I by done. exact Ea.
  - exists t. rewrite <- Et, <- mmul_assoc, rotation_l by done. symmetry. apply mmul_I_r.
Qed.

Lemma xy_moved s t b x r : xy (moved s (mmul (Mat (cos t) (- sin t) 0 (sin t) (cos t) 0 0 0 1) r) b x) = moved2 s t (vx b, vy b) (xy (mvec r x)).
Proof. unfold moved. rewrite mvec_mmul. destruct (mvec r x) as [p q w], b. unfold moved2, xy, vadd, vscale, mvec, dot; cbn. f_equal; ring. Qed.
Lemma z_moved s t b x r : vz (moved s (mmul (Mat (cos t) (- sin t) 0 (sin t) (cos t) 0 0 0 1) r) b x) = s * vz (mvec r x) + vz b.
Proof. unfold moved. rewrite mvec_mmul. destruct (mvec r x) as [p q w], b. unfold vadd, vscale, mvec, dot; cbn. ring. Qed.
Lemma matrix_of_turn m s t b : (forall x, vadd2 (mvec2 m x) b = moved2 s t b x) -> m = mscale2 s (turn2 t).
Proof.
  intros H. pose proof (H (1, 0)) as H1. pose proof (H (0, 1)) as H2. destruct m as [a c d e], b as [b1 b2]. unfold vadd2, mvec2, moved2, mscale2, turn2 in *. cbn in *.
  injection H1 as ? ?. injection H2 as ? ?. f_equal; lra.
Qed.
Lemma mean_affine s k l : l <> [] -> mean ((fun x => s * x + k) <$> l) = s * mean l + k.
Proof.
  intros H. unfold mean. rewrite fmap_length. assert (sumR ((fun x => s * x + k) <$> l) = s * sumR l + INR (length l) * k) as ->; [|field; by apply inr_ne].
  clear. induction l as [|x l IH]; [cbn; ring|]. cbn [length]. rewrite S_INR. unfold sumR in *. cbn [fmap list_fmap foldr] in *. rewrite IH. ring.
Qed.
(** Positions that are the images of the points by a similarity that keeps the vertical: that similarity is found, however few the points and even if they are on a line
    (not a vertical one). *)
Theorem C80_exact svd2 (us : bool) r c up s a b : rotation r -> mvec r up = Vec 0 0 1 -> rotation a -> mvec a up = Vec 0 0 1 -> 0 < s -> (us = false -> s = 1) ->
  (forall x y, (x, y) ∈ c -> y = moved s a b x) -> svd2_right svd2 (xy <$> (mvec r <$> (fst <$> c))) (xy <$> (snd <$> c)) ->
  2 / 10 ^ 8 <= deviation (fst <$> c) -> 2 / 100 <= deviation (snd <$> c) -> (exists x x', x ∈ fst <$> c /\ x' ∈ fst <$> c /\ cross (vsub x x') up <> v0) ->
  prior_similarity svd2 us r c = Some (s, a, b).
Proof.
  intros Hr Er Ha Ea Hs Hus Hc Hsvd Hd1 Hd2 (x1 & x2 & I1 & I2 & Hx).
  destruct (same_turn r a up Hr Ha Er Ea) as (t & Et).
  assert (xy (mvec r x1) <> xy (mvec r x2)) as Hne.
  { intros E. apply Hx. assert (mvec r (cross (vsub x1 x2) up) = v0) as E'.
    { rewrite <- cross_rotation by done. rewrite Er. replace (mvec r (vsub x1 x2)) with (vsub (mvec r x1) (mvec r x2)) by (clear; vring). unfold xy in E. destruct (mvec r x1), (mvec r x2). cbn in E. injection E as -> ->. unfold cross, vsub, v0; cbn. f_equal; ring. }
    transitivity (mvec (mT r) (mvec r (cross (vsub x1 x2) up))); [by rewrite <- mvec_mmul, rotation_l, mvec_I|]. rewrite E'. vring. }
  assert (c <> []) as Hcne. { intros ->. inversion I1. }
  assert (fst <$> c <> []) as Hcne'. { intros E. apply Hcne. by apply fmap_nil_inv in E. }
  assert (xy <$> (snd <$> c) = moved2 s t (vx b, vy b) <$> (xy <$> (mvec r <$> (fst <$> c)))) as Exy.
  { rewrite (fst_moved s a b c Hc), <- !list_fmap_compose. apply list_fmap_ext. intros i p _. cbn. rewrite Et. apply xy_moved. }
  assert (~ all_equal (xy <$> (mvec r <$> (fst <$> c)))) as Hna.
  { intros H. apply Hne. apply H; apply elem_of_list_fmap; eexists; (split; [done|]); apply elem_of_list_fmap; by eexists. }
  destruct (plane_exact svd2 us s t (vx b, vy b) (xy <$> (mvec r <$> (fst <$> c)))) as (m & Em & Hm); [by rewrite <- Exy|by apply not_single|done|done|done|].
  apply matrix_of_turn in Hm. subst m. rewrite <- Exy in Em. unfold prior_similarity. destruct c as [|c0 cs] eqn:Ec; [done|]. rewrite <- Ec in *. clear Ec c0 cs.
  pose proof (not_single _ Hna) as Hlen. rewrite !fmap_length in Hlen.
  destruct (length (mvec r <$> (fst <$> c)) <? 2)%nat eqn:El; [rewrite !fmap_length in El; apply Nat.ltb_lt in El; lia|]. cbn [orb].
  destruct (Rlt_dec (vmax (std_axes (mvec r <$> (fst <$> c)))) (/ 10 ^ 8)) as [N|_].
  { exfalso. assert (/ 10 ^ 8 <= vmax (std_axes (mvec r <$> (fst <$> c)))); [|lra]. apply spread_axes; [apply inv10_pos|]. rewrite scatter_fmap_rotation by done. unfold Rdiv in Hd1. lra. }
  destruct (Rlt_dec (vmax (std_axes (snd <$> c))) (1 / 100)) as [N|_].
  { exfalso. assert (1 / 100 <= vmax (std_axes (snd <$> c))); [|lra]. apply spread_axes; [lra|]. lra. }
  cbn [orb]. rewrite Em. assert (sqrt (det2 (mscale2 s (turn2 t))) = s) as ->.
  { replace (det2 (mscale2 s (turn2 t))) with (s * s); [apply sqrt_square; lra|]. unfold det2, mscale2, turn2; cbn. pose proof (cs1 t). nra. }
  destruct (Req_EM_T s 0); [lra|]. unfold mscale2, turn2; cbn [a11 a12 a21 a22 fst snd]. 
  assert (mean (vz <$> (snd <$> c)) = s * mean (vz <$> (mvec r <$> (fst <$> c))) + vz b) as ->.
  { rewrite <- mean_affine by (intros E; apply Hcne'; by do 2 apply fmap_nil_inv in E). f_equal. rewrite (fst_moved s a b c Hc), <- !list_fmap_compose. apply list_fmap_ext. intros i p _. cbn. rewrite Et. apply z_moved. }
  f_equal. f_equal; [f_equal|destruct b; cbn; f_equal; ring]. rewrite Et. f_equal. f_equal; field; done.
Qed.
(** In general: the scale is positive, the rotation levels the plane, and the centroid of the points goes to the centroid of the positions (at scale 1 if the scale is known),
    but for two points that are more than 1 km away. *)
Theorem C80_level svd2 (us : bool) r c s A b : rotation r -> svd2_right svd2 (xy <$> (mvec r <$> (fst <$> c))) (xy <$> (snd <$> c)) ->
  prior_similarity svd2 us r c = Some (s, A, b) ->
  0 < s /\ rotation A /\ (forall v, vz (mvec A v) = vz (mvec r v)) /\
  (c <> [] -> length c <> 2%nat \/ norm (vsub (centroid (snd <$> c)) (centroid (mvec r <$> (fst <$> c)))) <= 1000 ->
   moved s A b (centroid (fst <$> c)) = centroid (snd <$> c) /\ (us = false -> s = 1)).
Proof.
  intros Hr Hsvd. unfold prior_similarity. destruct c as [|c0 cs] eqn:Ec; [intros [= <- <- <-]; split; [lra|]; done|]. rewrite <- Ec in *. assert (c <> []) as Hne by (by subst). clear Ec c0 cs.
  assert (centroid (mvec r <$> (fst <$> c)) = mvec r (centroid (fst <$> c))) as Ecen.
  { assert (mvec r <$> (fst <$> c) = moved 1 r v0 <$> (fst <$> c)) as ->. { apply list_fmap_ext. intros i x _. unfold moved. generalize (mvec r x). vring. }
    change centroid with vmean. rewrite vmean_moved by (intros E; apply Hne; by apply fmap_nil_inv in E). unfold moved. generalize (mvec r (vmean (fst <$> c))). vring. }
  assert (forall k, vadd (vscale 1 k) (vsub (vmean (snd <$> c)) k) = vmean (snd <$> c)) as Hadd by (generalize (vmean (snd <$> c)); vring).
  destruct (_ || _) eqn:Ecase.
  - destruct (_ && _) eqn:Eclamp.
    + intros [= <- <- <-]. apply andb_true_iff in Eclamp as [E2 E3]. rewrite !fmap_length in E2. apply Nat.eqb_eq in E2.
      destruct (Rlt_dec 1000 (norm (vsub (vmean (snd <$> c)) (vmean (mvec r <$> (fst <$> c)))))) as [H|]; [|done]. split; [apply Rdiv_lt_0_compat; lra|]. split; [done|]. split; [done|].
      intros _ [?|H']; [done|]. change centroid with vmean in H'. lra.
    + intros [= <- <- <-]. split; [lra|]. split; [done|]. split; [done|]. intros _ _. split; [|done]. unfold moved. rewrite <- Ecen. apply Hadd.
  - destruct (affine_matrix_from_points_2d _ _ _ _) as [[[m b2]|]|] eqn:E; [|done..]. destruct (fit2_spec _ _ _ _ _ _ Hsvd E) as (k & t & -> & Hk & Eb & _ & _ & _ & Hsc).
    assert (sqrt (det2 (mscale2 k (turn2 t))) = k) as ->.
    { replace (det2 (mscale2 k (turn2 t))) with (k * k); [by apply sqrt_square|]. unfold det2, mscale2, turn2; cbn. pose proof (cs1 t). nra. }
    destruct (Req_EM_T k 0) as [|Hk0]; [done|]. unfold mscale2, turn2; cbn [a11 a12 a21 a22].
    assert (Mat (k * cos t / k) (k * - sin t / k) 0 (k * sin t / k) (k * cos t / k) 0 0 0 1 = Mat (cos t) (- sin t) 0 (sin t) (cos t) 0 0 0 1) as -> by (f_equal; field; done).
    intros [= <- <- <-]. split; [lra|]. split.
    { apply rotation_mmul; [|done]. split; [unfold mmul, mT, mI; cbn; pose proof (cs1 t); f_equal; lra|unfold det; cbn; pose proof (cs1 t); lra]. }
    split; [intros v; rewrite mvec_mmul; destruct (mvec r v); unfold mvec, dot; cbn; ring|]. intros _ _. split; [|intros ->; done].
    unfold moved. rewrite mvec_mmul, <- Ecen. change centroid with vmean.
    assert (forall l, vmean2 (xy <$> l) = xy (vmean l)) as Hxy.
    { intros l. unfold vmean2, vmean, vscale2. rewrite fmap_length. assert (vsum2 (xy <$> l) = xy (vsum l)) as ->; [|done]. induction l as [|p l IH]; [done|]. unfold vsum2, vsum in *. cbn [fmap list_fmap foldr]. rewrite IH. done. }
    rewrite !Hxy in Eb. rewrite Eb, (vmean_coords (snd <$> c)). rewrite (vmean_coords (mvec r <$> (fst <$> c))). unfold xy, vsub2, mvec2, vadd, vscale, mvec, dot; cbn. f_equal; ring.
Qed.
(** Two shots with the same GPS position, 2 km away: they are put 1 km away from it, and the reconstruction is made twice as small even if its scale is known. *)
Theorem C80_clamp_refuted : exists c : list (vec * vec), (forall x y, (x, y) ∈ c -> y = Vec 2000 0 0) /\
  forall svd2, prior_similarity svd2 false mI c = Some (1 / 2, mI, Vec 1000 0 0) /\ moved (1 / 2) mI (Vec 1000 0 0) (centroid (fst <$> c)) = Vec 1000 0 0.
Proof.
  exists [(Vec 1 0 0, Vec 2000 0 0); (Vec (-1) 0 0, Vec 2000 0 0)]. split; [intros x y H; repeat (apply elem_of_cons in H as [H|H]); [by injection H|by injection H|inversion H]|].
  intros svd2. split; [|unfold moved, centroid; cbn; unfold vadd, vscale, mvec, dot, v0, mI; cbn; f_equal; field].
  unfold prior_similarity. cbn [length fmap list_fmap fst snd Nat.eqb Nat.ltb Nat.leb orb andb].
  assert (std_axes [Vec 2000 0 0; Vec 2000 0 0] = v0) as ->.
  { assert (forall x, std [x; x] = 0) as Hs. { intros x. unfold std, mean. cbn [fmap list_fmap length sumR foldr INR]. replace (x - / (1 + 1) * (x + (x + 0))) with 0 by field. replace (/ (1 + 1) * (0 * 0 + (0 * 0 + 0))) with 0 by ring. apply sqrt_0. }
    unfold std_axes. cbn [fmap list_fmap vx vy vz]. by rewrite !Hs. }
  destruct (Rlt_dec (vmax v0) (1 / 100)) as [_|N]; [|exfalso; apply N; unfold vmax, v0; cbn [vx vy vz]; assert (Rmax 0 0 = 0) as Em by (apply Rmax_left; lra); rewrite !Em; lra]. rewrite orb_true_r.
  assert (vsub (vmean [Vec 2000 0 0; Vec 2000 0 0]) (vmean [mvec mI (Vec 1 0 0); mvec mI (Vec (-1) 0 0)]) = Vec 2000 0 0) as ->.
  { unfold vmean, vsub, vsum, vadd, vscale, mvec, dot, mI, v0; cbn. f_equal; field. }
  assert (norm (Vec 2000 0 0) = 2000) as ->. { unfold norm, dot; cbn [vx vy vz]. replace (2000 * 2000 + 0 * 0 + 0 * 0) with (2000 * 2000) by ring. apply sqrt_square. lra. }
  destruct (Rlt_dec 1000 2000); [|lra]. f_equal. f_equal; [f_equal; field|]. unfold vscale; cbn. f_equal; field.
Qed.

(** ** The alignment *)
Section Map.
Context {C D X O : Type}.
Notation shot := (shot D X O). Notation instance := (instance pose).
Notation map := (@map C similarity pose vec D X O vec).
Variable gps : D -> option vec.
Variable orientation : D -> option Z.
Variable bearing : C -> R * R -> vec.
Variable enumI : gmap string instance -> list (string * instance).
Variable enumS : gmap shot_key shot -> list (shot_key * shot).
Variable svd : svd_of.
Variable svd2 : svd2_of.
Variable eigenvalues : mat -> R * R * R.
Variable eigenvector : list (vec * R) -> vec * R.
Notation constraints := (alignment_constraints gps bearing enumI).
Notation align := (align_reconstruction gps orientation bearing enumI enumS svd svd2 eigenvalues eigenvector).
(** the pictures of the shots of a reconstruction *)
Definition picture_of (m : map) (p : vec * mat * option Z) : Prop :=
  exists id s q, m_shots m !! (false, id) = Some s /\ get_pose m (false, id) = Some q /\ p = (get_origin q, w_rot q, orientation (sh_data s)).
Lemma shots_seen_spec (m : map) p : enumerates enumS -> p ∈ shots_seen orientation enumS m <-> picture_of m p.
Proof.
  intros He. unfold shots_seen. rewrite elem_of_list_omap. split.
  - intros ([[k id] s] & Hin & E). cbn in E. destruct k; [done|]. rewrite (He (m_shots m)) in Hin. apply elem_of_map_to_list in Hin. destruct (get_pose m (false, id)) as [q|] eqn:Eq; [|done]. injection E as <-. exists id, s, q. done.
  - intros (id & s & q & Hs & Hq & ->). exists ((false, id), s). split; [rewrite (He (m_shots m)); by apply elem_of_map_to_list|]. cbn. by rewrite Hq.
Qed.
Lemma levelled_iff (f g : vec * mat * option Z -> Prop) prior up : (forall p, f p <-> g p) -> levelled f prior up -> levelled g prior up.
Proof.
  intros H (H1 & H2 & H3 & (o & r & t & H4) & v & w & Hv & Hw & Hc). split; [done|]. split; [intros; apply H2; by apply H|]. split; [intros; apply (H3 o0); by apply H|]. split; [exists o, r, t; by apply H|].
  assert (forall u, known_level f prior u -> known_level g prior u) as G.
  { intros u [(p & q & Hp & Hq & E)|(o' & r' & t' & Hp & E)]; [left; exists p, q|right; exists o', r', t']; repeat split; try done; by apply H. }
  exists v, w. auto.
Qed.
(** When the positions are the images of the points by a similarity (of scale 1 if there are rigs of several cameras), for which the pictures are as the option says and the path is level,
    that similarity is applied to the whole reconstruction. *)
Theorem C80_aligned cfg (m : map) gcps use_gps c s a b : enumerates enumS -> align_method cfg = "orientation_prior"%string ->
  eigenvector_right eigenvector (align_orientation_prior cfg) (shots_seen orientation enumS m) ->
  (forall r, plane_horizontalling_rotation (mvec (mT a) (Vec 0 0 1)) = Some r -> svd2_right svd2 (xy <$> (mvec r <$> (fst <$> c))) (xy <$> (snd <$> c))) ->
  constraints cfg m gcps use_gps = Ok c -> (forall x y, (x, y) ∈ c -> y = moved s a b x) -> 0 < s -> rotation a ->
  ((exists id i, m_instances m !! id = Some i /\ (1 < size (in_members i))%nat) -> s = 1) ->
  let up := mvec (mT a) (Vec 0 0 1) in
  levelled (picture_of m) (align_orientation_prior cfg) up ->
  2 / 10 ^ 8 <= deviation (fst <$> c) -> 2 / 100 <= deviation (snd <$> c) -> (exists x x', x ∈ fst <$> c /\ x' ∈ fst <$> c /\ cross (vsub x x') up <> v0) ->
  align cfg m gcps use_gps false = Ok (Some (s, a, b), apply_similarity m s a b).
Proof.
  intros He Hm Heig Hsvd Hc Hx Hs Ha Hu up Hl Hd1 Hd2 Hdir. unfold align_reconstruction, compute_reconstruction_similarity. cbn [andb]. rewrite decide_False by congruence. cbn [res_bind].
  rewrite decide_True by done. unfold compute_orientation_prior_similarity.
  assert (levelled (.∈ shots_seen orientation enumS m) (align_orientation_prior cfg) up) as Hl'. { eapply levelled_iff; [|exact Hl]. intros p. symmetry. by apply shots_seen_spec. }
  rewrite (C80_plane eigenvector _ _ up Heig Hl'). cbn [fst].
  assert (mvec a up = Vec 0 0 1) as Ea. { unfold up. rewrite <- mvec_mmul. destruct Ha as [-> _]. apply mvec_I. }
  destruct (C64_horizontal up) as (r & Eplane & Hr & Er). { intros E. rewrite E in Ea. assert (mvec a v0 = v0) as E0 by vring. rewrite E0 in Ea. unfold v0 in Ea. injection Ea. lra. }
  assert (norm up = 1) as Hn by (apply norm_one, Hl). rewrite Hn in Er. rewrite Eplane, Hc. cbn [res_bind].
  set (us := bool_decide (map_Forall (fun _ i => (size (in_members i) <= 1)%nat) (m_instances m))).
  rewrite (C80_exact svd2 us r c up s a b); try done; [|intros E; apply Hu; destruct (use_scale_of m) as [E'|[_ E']]; [fold us in E'; congruence|done]|by apply Hsvd].
  cbn. destruct (Req_EM_T s 0); [lra|]. done.
Qed.
(** So is it when the method is to be chosen and there are less than three points or they are on a line. *)
Theorem C80_aligned_auto cfg (m : map) gcps use_gps c s a b : enumerates enumS -> align_method cfg = "auto"%string ->
  ((length c < 3)%nat \/ on_a_line (fst <$> c) /\ sorted_eigenvalues (scatter_matrix (fst <$> c)) (eigenvalues (scatter_matrix (fst <$> c)))) ->
  eigenvector_right eigenvector (align_orientation_prior cfg) (shots_seen orientation enumS m) ->
  (forall r, plane_horizontalling_rotation (mvec (mT a) (Vec 0 0 1)) = Some r -> svd2_right svd2 (xy <$> (mvec r <$> (fst <$> c))) (xy <$> (snd <$> c))) ->
  constraints cfg m gcps use_gps = Ok c -> (forall x y, (x, y) ∈ c -> y = moved s a b x) -> 0 < s -> rotation a ->
  ((exists id i, m_instances m !! id = Some i /\ (1 < size (in_members i))%nat) -> s = 1) ->
  let up := mvec (mT a) (Vec 0 0 1) in
  levelled (picture_of m) (align_orientation_prior cfg) up ->
  2 / 10 ^ 8 <= deviation (fst <$> c) -> 2 / 100 <= deviation (snd <$> c) -> (exists x x', x ∈ fst <$> c /\ x' ∈ fst <$> c /\ cross (vsub x x') up <> v0) ->
  align cfg m gcps use_gps false = Ok (Some (s, a, b), apply_similarity m s a b).
Proof.
  intros He Hm Hfew Heig Hsvd Hc Hx Hs Ha Hu up Hl Hd1 Hd2 Hdir.
  assert (detect_alignment eigenvalues (fst <$> c) = "orientation_prior"%string) as Hdet.
  { unfold detect_alignment. rewrite fmap_length. destruct (length c <? 3)%nat eqn:E; [done|]. apply Nat.ltb_ge in E. destruct Hfew as [?|[H1 H2]]; [lia|]. by rewrite line_detected. }
  set (cfg' := Config "orientation_prior" (align_orientation_prior cfg) (bundle_use_gcp cfg) (bundle_use_gps cfg) (bundle_compensate_gps_bias cfg)).
  pose proof (C80_aligned cfg' m gcps use_gps c s a b He eq_refl Heig Hsvd Hc Hx Hs Ha Hu Hl Hd1 Hd2 Hdir) as H. rewrite <- H. unfold align_reconstruction, compute_reconstruction_similarity. cbn [andb].
  rewrite decide_True by done. unfold detect_alignment_constraints. rewrite Hc. cbn [res_bind]. rewrite Hdet. cbn [align_method cfg']. 
  rewrite (decide_False (P := "orientation_prior"%string = "auto"%string)) by done. cbn [res_bind]. rewrite !decide_True by done. done.
Qed.
End Map.
Print Assumptions C80_directions. Print Assumptions C80_front_refuted. Print Assumptions C80_plane. Print Assumptions C80_mirrored_refuted. Print Assumptions C80_untagged_refuted. Print Assumptions C80_slope_refuted.
Print Assumptions C80_no_position. Print Assumptions C80_exact. Print Assumptions C80_level. Print Assumptions C80_clamp_refuted. Print Assumptions C80_aligned. Print Assumptions C80_aligned_auto.

(** ** Case: two shots on a level path, looking to the horizon *)
Definition two_case : list (string * vec * vec) := [("a"%string, v0, Vec 5 6 7); ("b"%string, Vec 2 0 0, Vec 11 6 7)].
Definition svd2_diagonal : svd2_of := fun m => (((1, 0), (0, 1)), (m.1.1, m.2.2), ((1, 0), (0, 1))).
Definition orderS {A} (l : list string) (m : gmap shot_key A) : list (shot_key * A) := omap (fun k => pair (false, k) <$> m !! (false, k)) l.
Lemma east_rotation : rotation east_camera.
Proof. split; [unfold mmul, mT, mI; cbn; f_equal; ring|unfold det; cbn; ring]. Qed.
Example C80_case_level : levelled (.∈ [(v0, east_camera, Some 1%Z); (Vec 2 0 0, east_camera, None)]) "horizontal" (Vec 0 0 1) /\
  levelled (.∈ [(v0, east_camera, Some 1%Z); (Vec 0 2 0, east_camera, Some 1%Z)]) "no_roll" (Vec 0 0 1) /\
  levelled (.∈ [(v0, Mat 1 0 0 0 (-1) 0 0 0 (-1), Some 6%Z)]) "vertical" (Vec 0 0 1).
Proof.
  assert (forall a b c : R, dot (Vec a b c) (Vec 0 0 1) = c) as Hd by (intros; unfold dot; cbn; ring).
  assert (forall (l : list (vec * mat * option Z)), (forall p, p ∈ l -> vz p.1.1 = 0) -> forall p q, p ∈ l -> q ∈ l -> dot p.1.1 (Vec 0 0 1) = dot q.1.1 (Vec 0 0 1)) as Hz.
  { intros l H p q Hp Hq. apply H in Hp, Hq. unfold dot; cbn. rewrite Hp, Hq. ring. }
  split; [|split].
  - split; [apply Hd|]. split; [apply Hz; intros p Hp; repeat (apply elem_of_cons in Hp as [->|Hp]); [done|done|inversion Hp]|]. split; [|split].
    + intros o r t H. repeat (apply elem_of_cons in H as [H|H]); [injection H as -> -> ->|injection H; done|inversion H]. unfold prior_holds. rewrite decide_False, decide_True by done. unfold looks_horizontally, no_roll, dot; cbn. lra.
    + exists v0, east_camera, 1%Z. left.
    + exists (Vec 1 0 0), (Vec 0 1 0). split; [right; exists v0, east_camera, 1%Z; split; [left|left]|]. split; [right; exists v0, east_camera, 1%Z; split; [left|right; left]|]. unfold cross, v0; cbn. intros [= _ _ E]. lra.
  - split; [apply Hd|]. split; [apply Hz; intros p Hp; repeat (apply elem_of_cons in Hp as [->|Hp]); [done|done|inversion Hp]|]. split; [|split].
    + intros o r t H. repeat (apply elem_of_cons in H as [H|H]); [injection H as -> -> ->|injection H as -> -> ->|inversion H]; unfold prior_holds; rewrite decide_True by done; unfold no_roll, dot; cbn; lra.
    + exists v0, east_camera, 1%Z. left.
    + exists (Vec 1 0 0), (vsub v0 (Vec 0 2 0)). split; [right; exists v0, east_camera, 1%Z; split; [left|left]|]. split; [left; exists (v0, east_camera, Some 1%Z), (Vec 0 2 0, east_camera, Some 1%Z); split; [left|split; [right; left|done]]|].
      unfold cross, vsub, v0; cbn. intros [= _ _ E]. lra.
  - split; [apply Hd|]. split; [apply Hz; intros p Hp; repeat (apply elem_of_cons in Hp as [->|Hp]); [done|inversion Hp]|]. split; [|split].
    + intros o r t H. repeat (apply elem_of_cons in H as [H|H]); [injection H as -> -> ->|inversion H]. unfold prior_holds. rewrite !decide_False, decide_True by done. split; [unfold looks_down, dot; cbn; lra|set_solver].
    + exists v0, (Mat 1 0 0 0 (-1) 0 0 0 (-1)), 6%Z. left.
    + exists (vopp (Vec 0 (-1) 0)), (Vec 1 0 0). split; [right; eexists _, _, 6%Z; split; left|]. split; [right; eexists _, _, 6%Z; split; [left|right; left]|]. unfold cross, vopp, v0; cbn. intros [= _ _ E]. lra.
Qed.
Lemma two_constraints : alignment_constraints fst (fun (_ : unit) _ => v0) (order ["a"; "b"]%string) (Config "auto" "horizontal" true true false) (case_map east_camera two_case) [] true =
  Ok [(v0, Vec 5 6 7); (Vec 2 0 0, Vec 11 6 7)].
Proof.
  assert (forall x, vmean [x] = x) as Hm. { intros x. unfold vmean. cbn [length INR vsum foldr]. rewrite Rinv_1. vring. }
  transitivity (Ok [(v0, vmean [Vec 5 6 7]); (Vec 2 0 0, vmean [Vec 11 6 7])]); [done|]. by rewrite !Hm.
Qed.
Lemma two_pictures p : picture_of snd (case_map east_camera two_case) p <-> p = (v0, east_camera, Some 1%Z) \/ p = (Vec 2 0 0, east_camera, Some 1%Z).
Proof.
  assert (is_identity pose0 = true) as Hid by apply is_identity_0. set (m := case_map east_camera two_case).
  assert (m_shots m !! (false, "a"%string) = Some (case_shot "c" "a" (Vec 5 6 7))) as Sa by done. assert (m_shots m !! (false, "b"%string) = Some (case_shot "c" "b" (Vec 11 6 7))) as Sb by done.
  assert (get_pose m (false, "a"%string) = Some (at_ east_camera v0)) as Pa.
  { unfold get_pose. rewrite Sa. cbn [mbind option_bind sh_instance sh_rig_camera case_shot].
    change (m_instances m !! "a"%string) with (Some (Instance (at_ east_camera v0) {["a"%string := (false, "c"%string)]})). change (m_rig_cameras m !! "c"%string) with (Some pose0).
    cbn [mbind option_bind]. unfold shot_get_pose. rewrite Hid. cbn [in_members in_pose]. by rewrite map_size_singleton. }
  assert (get_pose m (false, "b"%string) = Some (at_ east_camera (Vec 2 0 0))) as Pb.
  { unfold get_pose. rewrite Sb. cbn [mbind option_bind sh_instance sh_rig_camera case_shot].
    change (m_instances m !! "b"%string) with (Some (Instance (at_ east_camera (Vec 2 0 0)) {["b"%string := (false, "c"%string)]})). change (m_rig_cameras m !! "c"%string) with (Some pose0).
    cbn [mbind option_bind]. unfold shot_get_pose. rewrite Hid. cbn [in_members in_pose]. by rewrite map_size_singleton. }
  split.
  - intros (id & s & q & Hs & Hq & ->). unfold m, case_map in Hs. cbn [m_shots] in Hs. apply elem_of_list_to_map_2 in Hs. cbn in Hs.
    repeat (apply elem_of_cons in Hs as [Hs|Hs]); [injection Hs as -> ->; left|injection Hs as -> ->; right|inversion Hs]; [rewrite Pa in Hq|rewrite Pb in Hq]; injection Hq as <-; done.
  - intros [-> | ->]; [exists "a"%string, (case_shot "c" "a" (Vec 5 6 7)), (at_ east_camera v0)|exists "b"%string, (case_shot "c" "b" (Vec 11 6 7)), (at_ east_camera (Vec 2 0 0))]; done.
Qed.
Lemma dot_ez v : dot v (Vec 0 0 1) = vz v. Proof. destruct v. unfold dot; cbn. ring. Qed.
Example C80_case svd eigenvalues : align_reconstruction fst snd (fun (_ : unit) _ => v0) (order ["a"; "b"]%string) map_to_list svd svd2_diagonal eigenvalues (fun _ => (Vec 0 0 1, 0))
  (Config "auto" "horizontal" true true false) (case_map east_camera two_case) [] true false =
  Ok (Some (3, mI, Vec 5 6 7), apply_similarity (case_map east_camera two_case) 3 mI (Vec 5 6 7)).
Proof.
  set (m := case_map east_camera two_case).
  assert (mvec (mT mI) (Vec 0 0 1) = Vec 0 0 1) as Eup by vring.
  assert (Hen : enumerates (@map_to_list shot_key (shot (option vec * option Z) unit unit) (gmap shot_key _) _)) by (by intros ?).
  assert (levelled (picture_of snd m) "horizontal" (Vec 0 0 1)) as Hlev.
  { split; [rewrite dot_ez; done|]. split; [intros p q Hp Hq; apply two_pictures in Hp, Hq; rewrite !dot_ez; by destruct Hp as [-> | ->], Hq as [-> | ->]|]. split; [|split].
    + intros o r t H. apply two_pictures in H. destruct H as [H|H]; injection H as -> -> ->; unfold prior_holds; rewrite decide_False, decide_True by done; unfold looks_horizontally, no_roll; rewrite !dot_ez; cbn; lra.
    + exists v0, east_camera, 1%Z. apply two_pictures. by left.
    + exists (Vec 1 0 0), (Vec 0 1 0). split; [right; exists v0, east_camera, 1%Z; split; [apply two_pictures; by left|left]|]. split; [right; exists v0, east_camera, 1%Z; split; [apply two_pictures; by left|right; left]|].
      unfold cross, v0; cbn. intros [= _ _ E]. lra. }
  assert (eigenvector_right (fun _ => (Vec 0 0 1, 0)) "horizontal" (shots_seen snd map_to_list m)) as Heig.
  { split; [unfold unit4; cbn [fst snd]; rewrite dot_ez; cbn; ring|]. intros q _.
    assert (forall rows q, 0 <= squared_product rows q) as Hnn by apply product_nonneg. eapply Rle_trans; [|apply Hnn]. apply Req_le. apply product_zero. intros row Hrow. unfold plane_rows in Hrow.
    set (sc := 1 / _) in Hrow. clearbody sc. apply elem_of_app in Hrow as [(x & -> & Hx)%elem_of_list_fmap|(x & -> & Hx)%elem_of_list_fmap]; unfold product; cbn [fst snd]; rewrite dot_ez; cbn [vscale vz].
    - apply elem_of_list_fmap in Hx as (y & -> & Hy). cbn [vadd vopp vz].
      assert (forall l, (forall z, z ∈ l -> vz z = 0) -> vz (vmean l) = 0) as Hmz.
      { intros l Hl. rewrite vmean_coords. cbn [vz]. unfold mean. assert (sumR (vz <$> l) = 0) as ->; [|ring]. induction l as [|z l IH]; [done|]. unfold sumR in *. cbn [fmap list_fmap foldr]. rewrite IH, (Hl z) by (try left; intros; apply Hl; by right). ring. }
      assert (forall z, z ∈ (fun s => s.1.1) <$> shots_seen snd map_to_list m -> vz z = 0) as Hzz.
      { intros z (p & -> & Hp)%elem_of_list_fmap. apply (shots_seen_spec snd map_to_list m p Hen) in Hp. apply two_pictures in Hp as [-> | ->]; done. }
      rewrite (Hmz _ Hzz), (Hzz y Hy). ring.
    - apply (in_vectors fst _ _ _ tt) in Hx as (o & r & t & Hin & Hx). apply (shots_seen_spec snd map_to_list m _ Hen), two_pictures in Hin.
      assert (vz x = 0) as ->; [|ring]. destruct Hin as [Hin|Hin]; injection Hin as -> -> ->; cbn in Hx; repeat (apply elem_of_cons in Hx as [->|Hx]); try done; inversion Hx. }
  apply C80_aligned_auto with (c := [(v0, Vec 5 6 7); (Vec 2 0 0, Vec 11 6 7)]); try done.
  - left. cbn. lia.
  - rewrite Eup. intros r Er. assert (r = mI) as ->.
    { revert Er. unfold plane_horizontalling_rotation. assert (cross (Vec 0 0 1) (Vec 0 0 1) = v0) as -> by (unfold cross, v0; cbn; f_equal; ring).
      assert (norm v0 = 0) as -> by (unfold norm, dot; cbn; replace (0 * 0 + 0 * 0 + 0 * 0) with 0 by ring; apply sqrt_0). destruct (Rlt_dec 0 0); [lra|].
      assert (tf_angle_between_vectors (Vec 0 0 1) (Vec 0 0 1) = 0) as ->; [|destruct (Rlt_dec 0 1); [congruence|lra]].
      unfold tf_angle_between_vectors. rewrite norm_001, dot_ez. cbn [vz]. replace (1 / (1 * 1)) with 1 by field. apply acos_1. }
    unfold svd2_right. cbn zeta. set (k := covariance2 _ _). assert (k = Mat2 6 0 0 0) as ->.
    { unfold k, covariance2, centred2, vmean2, vsum2. cbn. unfold madd2, outer2, vsub2, vscale2, vadd2, xy, mvec, dot. cbn. f_equal; field. }
    unfold is_svd2_of. cbn. repeat split; lra.
  - apply two_constraints.
  - intros x y H. repeat (apply elem_of_cons in H as [H|H]); [injection H as -> ->|injection H as -> ->|inversion H]; unfold moved, mvec, mI, dot, vadd, vscale, v0; cbn; f_equal; ring.
  - lra.
  - apply rotation_I.
  - intros (id & i & Hi & Hsz). exfalso. cbn [m case_map m_instances] in Hi. apply elem_of_list_to_map_2 in Hi. apply elem_of_list_fmap in Hi as (e & [= -> ->] & _). cbn in Hsz. rewrite map_size_singleton in Hsz. lia.
  - by rewrite Eup.
  - apply deviation_ge; [pose proof (inv10_pos 8); unfold Rdiv; lra|done|]. assert (scatter [v0; Vec 2 0 0] = 2) as E. { rewrite scatter_spread. unfold centred, vmean, vsum, spread. cbn. cbv [vadd vopp vscale v0 vx vy vz dot sumR foldr]. field. }
    cbn [fmap list_fmap fst]. rewrite E. assert (0 < / 10 ^ 8 <= / 10) as [He1 He2].
    { split; [apply inv10_pos|]. apply Rinv_le_contravar; [lra|]. replace (10 ^ 8) with (10 * 10 ^ 7) by ring. assert (1 <= 10 ^ 7) by (apply pow_R1_Rle; lra). lra. }
    unfold Rdiv. set (e := / 10 ^ 8) in *. clearbody e. cbn [length INR]. nra.
  - apply deviation_ge; [lra|done|]. assert (scatter [Vec 5 6 7; Vec 11 6 7] = 18) as E. { rewrite scatter_spread. unfold centred, vmean, vsum, spread. cbn. cbv [vadd vopp vscale v0 vx vy vz dot sumR foldr]. field. }
    cbn [fmap list_fmap snd]. rewrite E. cbn [length INR]. lra.
  - rewrite Eup. exists v0, (Vec 2 0 0). split; [left|]. split; [right; left|]. unfold cross, vsub, v0; cbn. intros [= _ E _]. lra.
Qed.
