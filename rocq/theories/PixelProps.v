(** C35, C42: pixel coordinates and feature masks. Specification in PixelSpec.v. *)
From Coq Require Import Reals Lra.
From stdpp Require Import prelude.
From Verif Require Import Base PixelModel PixelSpec.
Local Open Scope R_scope.

Lemma size_pos w h : (0 < w)%Z -> 0 < IZR (Z.max w h).
Proof. intros H. apply IZR_lt. lia. Qed.

Lemma max_IZR w h : Rmax (IZR w) (IZR h) = IZR (Z.max w h).
Proof.
  unfold Rmax. destruct (Rle_dec (IZR w) (IZR h)) as [H|H]; [apply le_IZR in H; by rewrite Z.max_r|]. rewrite Z.max_l; [done|]. apply Rnot_le_lt, lt_IZR in H. lia.
Qed.

(** C35. The two conversions undo each other, for points inside or outside the image. *)
Theorem C35_inverse : forall p w h, (0 < w)%Z -> (0 < h)%Z ->
  denormalized_image_coordinates (normalized_image_coordinates p w h) w h = p /\
  normalized_image_coordinates (denormalized_image_coordinates p w h) w h = p.
Proof.
  intros [x y] w h Hw Hh. pose proof (size_pos w h Hw). unfold denormalized_image_coordinates, normalized_image_coordinates; simpl. split; f_equal; field; lra.
Qed.
(** The conversions of the C++ cameras are the same functions. *)
Theorem C35_cpp_agrees : forall p w h, (0 < w)%Z -> (0 < h)%Z ->
  pixel_to_normalized p w h = normalized_image_coordinates p w h /\ normalized_to_pixel p w h = denormalized_image_coordinates p w h.
Proof.
  intros [x y] w h Hw Hh. pose proof (size_pos w h Hw). unfold pixel_to_normalized, normalized_to_pixel, denormalized_image_coordinates, normalized_image_coordinates; simpl.
  split; f_equal; try (field; lra); lra.
Qed.
(** The image is the centred box. *)
Theorem C35_box : forall p w h, (0 < w)%Z -> (0 < h)%Z -> in_image p w h <-> in_box (normalized_image_coordinates p w h) w h.
Proof.
  intros [x y] w h Hw Hh. pose proof (size_pos w h Hw) as Hs. unfold in_image, in_box, normalized_image_coordinates; simpl.
  set (s := IZR (Z.max w h)) in *. clearbody s.
  assert (forall a n, Rabs ((a + 0.5 - n / 2) / s) <= n / (2 * s) <-> - 0.5 <= a <= n - 0.5) as H.
  { intros a n. assert (n / (2 * s) = (n / 2) / s) as -> by (field; lra).
    assert (forall u v, u / s <= v / s <-> u <= v) as Hd.
    { intros u v. unfold Rdiv. split; intros Hx; [|apply Rmult_le_compat_r; [left; by apply Rinv_0_lt_compat|done]].
      apply (Rmult_le_compat_r s) in Hx; [|lra]. rewrite !Rmult_assoc, Rinv_l, !Rmult_1_r in Hx by lra. done. }
    split.
    - intros Ha. pose proof (Rle_abs ((a + 0.5 - n / 2) / s)) as H1. pose proof (Rle_abs (- ((a + 0.5 - n / 2) / s))) as H2. rewrite Rabs_Ropp in H2.
      assert ((a + 0.5 - n / 2) / s <= n / 2 / s) as H3 by lra. assert ((- (a + 0.5 - n / 2)) / s <= n / 2 / s) as H4.
      { replace (- (a + 0.5 - n / 2) / s) with (- ((a + 0.5 - n / 2) / s)) by (field; lra). lra. }
      apply (proj1 (Hd _ _)) in H3. apply (proj1 (Hd _ _)) in H4. lra.
    - intros Ha. apply Rabs_le. split; [|apply Hd; lra]. replace (- (n / 2 / s)) with ((- (n / 2)) / s) by (field; lra). apply Hd. lra. }
  rewrite !H. done.
Qed.

(** The upright conversion turns the image: the point at the fractions (u, v) of the image is at the turned fractions of the
    upright image, whose size is that of the turned image or the one asked for. Any other orientation is a KeyError. *)
Theorem C35_upright : forall p w h o nw nh, (0 < w)%Z -> (0 < h)%Z ->
  (o ∈ [1; 3; 6; 8])%Z ->
  let uw := default (if decide (o = 1 \/ o = 3)%Z then w else h) nw in
  let uh := default (if decide (o = 1 \/ o = 3)%Z then h else w) nh in
  let t := turned o ((p.1 + 0.5) / IZR w) ((p.2 + 0.5) / IZR h) in
  opensfm_to_upright (normalized_image_coordinates p w h) w h o nw nh = Ok (IZR uw * t.1, IZR uh * t.2).
Proof.
  intros [x y] w h o nw nh Hw Hh Ho. pose proof (size_pos w h Hw) as Hs. cbn zeta.
  assert (0 < IZR w) by by apply IZR_lt. assert (0 < IZR h) by by apply IZR_lt.
  unfold opensfm_to_upright, normalized_image_coordinates. rewrite max_IZR. set (s := IZR (Z.max w h)) in *. clearbody s.
  rewrite !elem_of_cons, elem_of_nil in Ho. unfold upright_matrix, turned.
  destruct Ho as [-> |[-> |[-> |[-> |[]]]]]; repeat first [rewrite decide_True by lia | rewrite decide_False by lia]; cbn [res_bind fst snd]; destruct nw as [nw|], nh as [nh|]; cbn [default from_option Datatypes.id]; apply f_equal, f_equal2; replace 0.5 with (/ 2) by lra; field; lra.
Qed.

(** C42. Features between the centres of the first and last pixels are looked up in the cell of the mask that covers their
    place in the upright image, always inside the mask; a feature is kept iff that cell is not 0. One answer per feature. *)
Theorem C42_feature_cells : forall m w h o ps, (0 < w)%Z -> (0 < h)%Z -> (0 < im_rows m)%Z -> (0 < im_cols m)%Z -> (o ∈ [1; 3; 6; 8])%Z ->
  Forall (fun p => on_pixels p w h) ps ->
  exists bs, load_features_mask (Some m) w h o (map (fun p => normalized_image_coordinates p w h) ps) = Ok bs /\
    Forall2 (fun p b => exists r c : Z,
      let t := turned o ((p.1 + 0.5) / IZR w) ((p.2 + 0.5) / IZR h) in
      (0 <= r < im_rows m)%Z /\ (0 <= c < im_cols m)%Z /\
      IZR r <= IZR (im_rows m) * t.2 < IZR r + 1 /\ IZR c <= IZR (im_cols m) * t.1 < IZR c + 1 /\
      b = bool_decide (im_at m r c <> 0%Z)) ps bs.
Proof.
  intros m w h o ps Hw Hh Hr Hc Ho Hps.
  assert (exists bs, features_in m w h o (map (fun p => normalized_image_coordinates p w h) ps) = Ok bs /\
    Forall2 (fun p b => exists r c : Z,
      let t := turned o ((p.1 + 0.5) / IZR w) ((p.2 + 0.5) / IZR h) in
      (0 <= r < im_rows m)%Z /\ (0 <= c < im_cols m)%Z /\
      IZR r <= IZR (im_rows m) * t.2 < IZR r + 1 /\ IZR c <= IZR (im_cols m) * t.1 < IZR c + 1 /\
      b = bool_decide (im_at m r c <> 0%Z)) ps bs) as (bs & E & H); [|exists bs; split; [by destruct ps|done]].
  induction Hps as [|p ps Hp Hps IH]; [by exists []|]. destruct IH as (bs & E & H).
  cbn [map features_in]. unfold feature_masked_in. rewrite (C35_upright p w h o _ _ Hw Hh Ho). cbn [res_bind from_option Datatypes.id]. set (t := turned o _ _).
  assert (0 < t.1 < 1 /\ 0 < t.2 < 1) as [H1 H2].
  { assert (0 < IZR w) as Pw by by apply IZR_lt. assert (0 < IZR h) as Ph by by apply IZR_lt. destruct Hp as [X Y].
    assert (0 < (p.1 + 0.5) / IZR w < 1) as U.
    { split; [apply Rdiv_lt_0_compat; lra|]. apply (Rmult_lt_reg_r (IZR w)); [done|]. unfold Rdiv. rewrite Rmult_assoc, Rinv_l, Rmult_1_r, Rmult_1_l by lra. lra. }
    assert (0 < (p.2 + 0.5) / IZR h < 1) as V.
    { split; [apply Rdiv_lt_0_compat; lra|]. apply (Rmult_lt_reg_r (IZR h)); [done|]. unfold Rdiv. rewrite Rmult_assoc, Rinv_l, Rmult_1_r, Rmult_1_l by lra. lra. }
    unfold t, turned. repeat destruct (decide _); cbn [fst snd]; lra. }
  assert (forall n x, (0 < n)%Z -> 0 < x < 1 -> (0 <= trunc (IZR n * x) < n)%Z /\ IZR (trunc (IZR n * x)) <= IZR n * x < IZR (trunc (IZR n * x)) + 1) as HT.
  { intros n x Hn Hx. assert (0 < IZR n) as Pn by by apply IZR_lt. assert (0 < IZR n * x) by (apply Rmult_lt_0_compat; lra). assert (IZR n * x < IZR n).
    { rewrite <- (Rmult_1_r (IZR n)) at 2. apply Rmult_lt_compat_l; lra. }
    unfold trunc. destruct (Rle_dec 0 (IZR n * x)); [|lra]. destruct (base_Int_part (IZR n * x)) as [B1 B2].
    assert (-1 < Int_part (IZR n * x))%Z by (apply lt_IZR; simpl; lra). assert (Int_part (IZR n * x) < n)%Z by (apply lt_IZR; lra). split; [lia|lra]. }
  destruct (HT _ _ Hr H2) as [R1 R2]. destruct (HT _ _ Hc H1) as [C1 C2].
  cbn [fst snd]. unfold im_get, index1. rewrite !decide_True by done. cbn [res_bind]. rewrite E. cbn [res_bind]. eexists. split; [reflexivity|].
  constructor; [|done]. eexists _, _. cbn zeta. split; [exact R1|]. split; [exact C1|]. done.
Qed.
Theorem C42_no_mask : forall w h o ps, load_features_mask None w h o ps = Ok (replicate (length ps) true).
Proof. by intros w h o [|p ps]. Qed.
(** The mask of a segmentation is 1 exactly where the label is not ignored, 0 elsewhere. *)
Theorem C42_segmentation : forall s ignored y x,
  im_at (mask_from_segmentation s ignored) y x = if decide (im_at s y x ∈ ignored) then 0%Z else 1%Z.
Proof.
  intros s ig y x. cbn. generalize (im_at s y x). intros v. induction ig as [|i ig IH] using rev_ind; [done|].
  rewrite foldl_app. cbn. rewrite IH. destruct (decide (v ∈ ig)) as [H|H].
  - rewrite (decide_True (P := v ∈ ig ++ [i])) by set_solver. by destruct (decide (v <> i)).
  - destruct (decide (v <> i)) as [H1|H1].
    + rewrite (decide_False (P := v ∈ ig ++ [i])) by set_solver. done.
    + rewrite (decide_True (P := v ∈ ig ++ [i])) by (apply dec_stable in H1; set_solver). done.
Qed.
Lemma nearest_cell n k i : (0 < n)%Z -> (0 < k)%Z -> (0 <= i < k)%Z -> (0 <= i * n / k < n /\ i * n / k * k <= i * n < (i * n / k + 1) * k)%Z.
Proof.
  intros Hn Hk Hi. pose proof (Z_div_mod_eq_full (i * n) k) as E. pose proof (Z_mod_lt (i * n) k ltac:(lia)) as B.
  assert (0 <= i * n / k)%Z by (apply Z.div_pos; nia). assert (i * n / k < n)%Z by (apply Z.div_lt_upper_bound; nia). split; [lia|nia].
Qed.
Lemma fit_stretched m s y x : (0 < im_rows m)%Z -> (0 < im_cols m)%Z -> (0 <= y < s.1)%Z -> (0 <= x < s.2)%Z -> stretched m s.1 s.2 y x (im_at (fit m s) y x).
Proof.
  intros Hr Hc Hy Hx. unfold fit, stretched. destruct s as [k l]. cbn [fst snd] in *. destruct (decide _) as [[= <- <-]|_].
  - exists y, x. split; [|done]. repeat split; try lia; nia.
  - cbn [im_at resize_nearest]. destruct (nearest_cell (im_rows m) k y) as (A & B); [lia..|]. destruct (nearest_cell (im_cols m) l x) as (C & D); [lia..|].
    rewrite !Z.min_l by lia. eexists _, _. split; [|reflexivity]. lia.
Qed.
(** A combined mask has the shape of one of the masks, and is not 0 only where both masks, stretched to that shape, are
    not 0. *)
Theorem C42_combined : forall a b m y x,
  (0 < im_rows a /\ 0 < im_cols a /\ 0 < im_rows b /\ 0 < im_cols b)%Z ->
  combine_masks (Some a) (Some b) = Some m ->
  ((im_rows m, im_cols m) = (im_rows a, im_cols a) \/ (im_rows m, im_cols m) = (im_rows b, im_cols b)) /\
  ((0 <= y < im_rows m)%Z -> (0 <= x < im_cols m)%Z ->
   exists va vb, stretched a (im_rows m) (im_cols m) y x va /\ stretched b (im_rows m) (im_cols m) y x vb /\
   (im_at m y x <> 0 -> va <> 0 /\ vb <> 0)%Z /\
   (** and, for masks of 0 and 1 or 0 and 255 (or both), exactly there *)
   (va ∈ [0; 1; 255]%Z -> vb ∈ [0; 1; 255]%Z -> va <> 0 -> vb <> 0 -> im_at m y x <> 0)%Z).
Proof.
  intros a b m y x (Ha & Ha' & Hb & Hb'). cbn [combine_masks]. set (s := max_shape _ _). intros [= <-]. cbn [im_rows im_cols im_at]. rewrite <- surjective_pairing.
  split; [unfold s, max_shape; destruct (decide _); [by right|by left]|]. intros Hy Hx. eexists _, _. split; [by apply fit_stretched|]. split; [by apply fit_stretched|].
  split; [intros H; split; intros E; rewrite E, ?Z.land_0_r in H; done|].
  generalize (im_at (fit a s) y x) (im_at (fit b s) y x). intros va vb Va Vb H1 H2.
  rewrite !elem_of_cons, elem_of_nil in Va, Vb. destruct Va as [-> |[-> |[-> |[]]]], Vb as [-> |[-> |[-> |[]]]]; done.
Qed.
(** Not in general: a grey level of 254 (as a compressed mask may have) combined with a segmentation mask removes everything,
    although neither mask is 0. *)
Theorem C42_grey_mask_refuted : exists a s m, (forall y x, im_at a y x <> 0%Z) /\
  load_combined_mask (Some a) (Some s) [7%Z] = Some m /\ (forall y x, im_at s y x <> 7%Z) /\ (forall y x, im_at m y x = 0%Z).
Proof.
  exists (Image 2 2 (fun _ _ => 254%Z)), (Image 2 2 (fun _ _ => 0%Z)). eexists. split; [done|]. split; [reflexivity|]. split; [done|]. intros y x. reflexivity.
Qed.

Example C42_example : (exists p, on_pixels p 640 480) /\ Forall (fun p => on_pixels p 640 480) [(0, 0); (639, 479); (10.5, 20)].
Proof. unfold on_pixels. split; [exists (0, 0); cbn [fst snd]; lra|]. rewrite !Forall_cons. cbn [fst snd]. split_and!; try apply Forall_nil; try done; lra. Qed.
(** A feature in the top left corner of an image to be turned by a quarter is found in the top right corner of the mask. *)
Example C35_example : opensfm_to_upright (normalized_image_coordinates (-0.5, -0.5) 320 240) 320 240 6 None None = Ok (240, 0).
Proof. rewrite C35_upright by (try done; apply (bool_decide_unpack _); exact I). unfold turned. repeat first [rewrite decide_True by lia | rewrite decide_False by lia]. cbn. f_equal. f_equal; lra. Qed.

Print Assumptions C35_inverse.
Print Assumptions C35_cpp_agrees.
Print Assumptions C35_box.
Print Assumptions C35_upright.
Print Assumptions C42_feature_cells.
Print Assumptions C42_no_mask.
Print Assumptions C42_segmentation.
Print Assumptions C42_combined.
Print Assumptions C42_grey_mask_refuted.
