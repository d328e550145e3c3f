From stdpp Require Import prelude strings.
From Coq Require Import Reals Lra Lia Psatz.
From Verif Require Import Base PyText PixelModel GpxModel GpxProofs FeatFileModel FeatFileSpec ExtractModel ExtractSpec ExtractProofs.
Local Open Scope R_scope.

(** C97. The image in which features are detected: it is the image itself unless that is larger than the size asked for; then its longer side has this size, and both sides are scaled alike, rounded down. *)
Theorem C97_size resize im m : resizes resize -> (0 < i_width im)%Z -> (0 < i_height im)%Z ->
  (((m <= 0)%Z \/ (Z.max (i_width im) (i_height im) <= m)%Z) -> resized_image resize im m = Ok im) /\
  ((0 < m < Z.max (i_width im) (i_height im))%Z -> forall im', resized_image resize im m = Ok im' ->
    let k := IZR m / IZR (Z.max (i_width im) (i_height im)) in
    Z.max (i_width im') (i_height im') = m /\ (0 < i_width im')%Z /\ (0 < i_height im')%Z /\ i_channels im' = i_channels im /\
    IZR (i_width im') <= k * IZR (i_width im) < IZR (i_width im') + 1 /\ IZR (i_height im') <= k * IZR (i_height im) < IZR (i_height im') + 1) /\
  ((0 < m < Z.max (i_width im) (i_height im))%Z -> (Z.max (i_width im) (i_height im) <= m * Z.min (i_width im) (i_height im))%Z -> exists im', resized_image resize im m = Ok im').
Proof.
  intros Hres Hw Hh. unfold resized_image. cbn zeta. set (s := Z.max (i_width im) (i_height im)). split; [|split].
  - intros Hm. by rewrite decide_False by lia.
  - intros Hm im'. rewrite decide_True by done. destruct (decide _) as [|Hne]; [done|]. intros [= <-]. destruct (Hres im (i_width im * m / s)%Z (i_height im * m / s)%Z) as (-> & -> & ->).
    assert (0 < s)%Z as Hs by lia. split; [apply dims; lia|]. assert (forall a, (0 < a)%Z -> (0 <= a * m / s)%Z) as Hpos by (intros a Ha; apply Z.div_pos; lia). pose proof (Hpos _ Hw). pose proof (Hpos _ Hh).
    split; [lia|]. split; [lia|]. split; [done|]. assert (forall a, IZR m / IZR s * IZR a = IZR (a * m) / IZR s) as E. { intros a. rewrite mult_IZR. unfold Rdiv. ring. } rewrite !E. split; by apply floor_div.
  - intros Hm Hmin. rewrite decide_True by done. rewrite decide_False; [by eexists|]. assert (0 < i_width im * m / s)%Z by (apply Z.div_str_pos; split; [lia|]; nia). assert (0 < i_height im * m / s)%Z by (apply Z.div_str_pos; split; [lia|]; nia). lia.
Qed.
(** An image that is much longer than wide cannot be resized, although the extraction accepts sides of three pixels: it stops with an error. *)
Theorem C97_long_images_refuted resize detect c : x_process_size c = 2048%Z -> exists im, i_height im = 3%Z /\ i_width im = 10000%Z /\ i_channels im = Some 3%Z /\ extract_features resize detect im c false = Err RuntimeError.
Proof. intros Hc. exists (Image 3 10000 (Some 3%Z) (fun _ _ => [0; 0; 0])). split_and!; try done. unfold extract_features. cbn zeta. rewrite Hc. rewrite decide_True by (cbn; auto). rewrite decide_True by (cbn; lia). done. Qed.
(** The coordinates of a place in the resized image and in the image itself differ by less than half a pixel of the resized image. *)
Theorem C97_resizing_moves_places_by_less_than_half_a_pixel resize im m im' u v : resizes resize -> (0 < i_width im)%Z -> (0 < i_height im)%Z -> (0 < m < Z.max (i_width im) (i_height im))%Z ->
  resized_image resize im m = Ok im' -> 0 <= u <= 1 -> 0 <= v <= 1 ->
  let p := normalised_place (i_width im) (i_height im) u v in let p' := normalised_place (i_width im') (i_height im') u v in
  Rabs (p'.1 - p.1) < / (2 * IZR m) /\ Rabs (p'.2 - p.2) < / (2 * IZR m).
Proof.
  intros Hres Hw Hh Hm E Hu Hv. destruct (C97_size resize im m Hres Hw Hh) as (_ & H & _). destruct (H Hm im' E) as (Hmax & _ & _ & _ & Bw & Bh). cbn zeta. unfold normalised_place. cbn [fst snd]. rewrite Hmax. clear H E.
  set (s := Z.max (i_width im) (i_height im)) in *. assert (0 < IZR s) as Hs by (apply IZR_lt; lia). assert (0 < IZR m) as Hmp by (apply IZR_lt; lia).
  assert (forall a a' t, 0 <= t <= 1 -> IZR a' <= IZR m / IZR s * IZR a < IZR a' + 1 -> Rabs ((t - / 2) * IZR a' / IZR m - (t - / 2) * IZR a / IZR s) < / (2 * IZR m)) as Hd.
  { intros a a' t Ht B. assert ((t - / 2) * IZR a' / IZR m - (t - / 2) * IZR a / IZR s = (t - / 2) * (IZR a' - IZR m / IZR s * IZR a) * / IZR m) as -> by (field; lra).
    rewrite Rabs_mult, (Rabs_pos_eq (/ IZR m)) by (apply Rlt_le, Rinv_0_lt_compat; lra). rewrite Rinv_mult by lra. apply Rmult_lt_compat_r; [by apply Rinv_0_lt_compat|].
    rewrite Rabs_mult. set (e := IZR a' - _). assert (-1 < e <= 0) as He by (unfold e; lra). assert (Rabs e < 1) by (unfold Rabs; destruct (Rcase_abs e); lra). assert (Rabs (t - / 2) <= / 2) by (unfold Rabs; destruct (Rcase_abs _); lra).
    pose proof (Rabs_pos e). pose proof (Rabs_pos (t - / 2)). nra. }
  split; by apply Hd.
Qed.
(** The thresholds of SIFT and SURF: whatever the detector finds, the reductions come to an end, at the first threshold at which there are enough points or that is at most 0.0001. *)
Theorem C97_thresholds_end {P} (detect : R -> list P) count t : exists n,
  (forall fuel, (n < fuel)%nat -> threshold_loop detect count fuel t = Some (reduced t n, detect (reduced t n))) /\
  ((count <= length (detect (reduced t n)))%nat \/ reduced t n <= 0.0001) /\
  forall k, (k < n)%nat -> (length (detect (reduced t k)) < count)%nat /\ 0.0001 < reduced t k.
Proof. destruct (reduced_small t) as [m Hm]. destruct (threshold_run detect count m t Hm) as (n & _ & H). by exists n. Qed.
(** Square root descriptors: of length 1, and their distance is that of the distributions of Hellinger. With the normalisation first they are the same. *)
Theorem C97_root_feature a b : (forall x, x ∈ a -> 0 <= x) -> 0 < foldr Rplus 0 a -> (forall x, x ∈ b -> 0 <= x) -> 0 < foldr Rplus 0 b -> length a = length b ->
  squares (root_feature false a) = 1 /\ (forall x, x ∈ root_feature false a -> 0 <= x) /\ length (root_feature false a) = length a /\
  squares (zip_with Rminus (root_feature false a) (root_feature false b)) = 2 - 2 * foldr Rplus 0 (zip_with (fun x y => sqrt (x / foldr Rplus 0 a * (y / foldr Rplus 0 b))) a b).
Proof.
  intros Ha Sa Hb Sb Hl. unfold root_feature. cbn zeta. fold (row_sum a) (row_sum b) in *.
  assert (squares (map (fun x => sqrt (x / row_sum a)) a) = 1) as H1. { rewrite squares_root by done. field. lra. }
  assert (squares (map (fun x => sqrt (x / row_sum b)) b) = 1) as H2. { rewrite squares_root by done. field. lra. }
  split; [done|]. split; [|split; [by rewrite map_length|]].
  - intros x Hx. apply elem_of_list_fmap in Hx as (y & -> & _). apply sqrt_pos.
  - rewrite squares_distance by by rewrite !map_length. rewrite H1, H2. unfold dot_product. rewrite zip_roots by done. lra.
Qed.
Theorem C97_root_feature_normalised a : (forall x, x ∈ a -> 0 <= x) -> 0 < foldr Rplus 0 a -> root_feature true a = root_feature false a.
Proof.
  intros Ha Sa. unfold root_feature. cbn zeta. rewrite row_sum_id_scale, map_map. fold (row_sum a) in Sa.
  assert (0 < squares a) as Hn. { unfold squares. clear -Ha Sa. induction a as [|x a IH]; cbn in *; [lra|]. assert (0 <= x) as Hx by (apply Ha; left). 
    assert (0 <= foldr Rplus 0 (map (fun x => x * x) a)). { apply row_sum_nonneg. intros y Hy. apply elem_of_list_fmap in Hy as (z & -> & _). nra. }
    destruct (Req_dec x 0) as [-> |]; [|assert (0 < x) by lra; assert (0 < x * x) by (by apply Rmult_lt_0_compat); lra]. assert (0 < foldr Rplus 0 (map (fun x => x * x) a)); [apply IH; [intros; apply Ha; by right|unfold row_sum; lra]|lra]. }
  assert (0 < row_norm a) as Hr by (apply sqrt_lt_R0; exact Hn). apply map_ext. intros x. f_equal. field. lra.
Qed.
(** Square root descriptors of SURF: each number keeps its sign, and is the root of its share; all of them together have length 1. Other lengths than 64 are not changed. *)
Theorem C97_root_feature_surf partial a : length a = 64%nat -> 0 < foldr Rplus 0 (map Rabs a) ->
  (forall i x y, a !! i = Some x -> root_feature_surf false partial a !! i = Some y ->
    (partial = true -> (i mod 4 < 2)%nat -> y = x) /\ (partial = false \/ (2 <= i mod 4)%nat -> 0 <= x * y /\ y * y = Rabs x / foldr Rplus 0 (map Rabs a))) /\
  length (root_feature_surf false partial a) = 64%nat /\ (partial = false -> squares (root_feature_surf false partial a) = 1).
Proof.
  intros Hl Hs. unfold root_feature_surf. rewrite decide_True by done. cbn zeta. fold (row_sum (map Rabs a)) in *. set (s := row_sum (map Rabs a)) in *.
  assert (forall x, 0 <= Rabs x / s) as Hp. { intros x. apply Rmult_le_pos; [apply Rabs_pos|]. by apply Rlt_le, Rinv_0_lt_compat. }
  assert (forall x, (sqrt (Rabs x / s) * sign x) * (sqrt (Rabs x / s) * sign x) = Rabs x / s) as Hsq.
  { intros x. replace (_ * _) with (sqrt (Rabs x / s) * sqrt (Rabs x / s) * (sign x * sign x)) by ring. rewrite sqrt_sqrt by done. destruct (sign_abs x) as [E _]. unfold Rdiv. rewrite <- E at 2. ring. }
  split; [|split; [by rewrite imap_length|]].
  - intros i x y Hx Hy. rewrite list_lookup_imap, Hx in Hy. cbn [fmap option_fmap option_map] in Hy. apply (stdpp.base.inj Some) in Hy as <-. pose proof (Nat.mod_upper_bound i 4). split.
    + intros -> Hi. cbn [negb orb]. by rewrite bool_decide_eq_false_2 by lia.
    + intros Hi. assert (negb partial || bool_decide (i mod 4 = 2%nat \/ i mod 4 = 3%nat) = true) as ->. { destruct Hi as [-> |Hi]; [done|]. rewrite bool_decide_eq_true_2 by lia. by rewrite orb_true_r. }
      split; [|apply Hsq]. assert (0 <= x * sign x) by (unfold sign; destruct (Rlt_dec _ _); [lra|]; destruct (Rlt_dec _ _); lra). pose proof (sqrt_pos (Rabs x / s)). replace (x * _) with (sqrt (Rabs x / s) * (x * sign x)) by ring. by apply Rmult_le_pos.
  - intros ->. cbn [negb orb]. assert (imap (fun _ x => sqrt (Rabs x / s) * sign x) a = map (fun x => sqrt (Rabs x / s) * sign x) a) as ->.
    { apply list_eq. intros i. rewrite list_lookup_imap, list_lookup_fmap. done. }
    unfold squares. rewrite map_map. rewrite (map_ext _ (fun x => Rabs x / s)) by apply Hsq. fold (row_sum (map (fun x => Rabs x / s) a)). rewrite (row_sum_scale Rabs). fold s. field. lra.
Qed.
Theorem C97_root_feature_surf_normalised a : 0 < foldr Rplus 0 (map (fun x => x * x) a) -> root_feature_surf true false a = root_feature_surf false false a.
Proof.
  intros Hn. unfold root_feature_surf. destruct (decide _) as [_|]; [|done]. cbn [negb orb]. cbn zeta. assert (0 < row_norm a) as Hr by (apply sqrt_lt_R0; exact Hn). set (r := row_norm a) in *.
  assert (forall x, Rabs (x / r) = Rabs x / r) as Ha. { intros x. unfold Rdiv. rewrite Rabs_mult. f_equal. apply Rabs_pos_eq. by apply Rlt_le, Rinv_0_lt_compat. }
  assert (forall x, sign (x / r) = sign x) as Hs. { intros x. assert (0 < / r) by by apply Rinv_0_lt_compat. unfold sign, Rdiv. destruct (Rlt_dec 0 (x * / r)), (Rlt_dec 0 x); try done; [exfalso; nra..|]. destruct (Rlt_dec (x * / r) 0), (Rlt_dec x 0); try done; exfalso; nra. }
  rewrite map_map, (map_ext _ (fun x => Rabs x / r)) by done. rewrite (row_sum_scale Rabs).
  assert (0 < row_sum (map Rabs a)) as Hsum.
  { clear -Hn. unfold row_sum. induction a as [|x a IH]; cbn in *; [lra|]. assert (0 <= foldr Rplus 0 (map Rabs a)). { apply row_sum_nonneg. intros y Hy. apply elem_of_list_fmap in Hy as (z & -> & _). apply Rabs_pos. }
    pose proof (Rabs_pos x). destruct (Req_dec x 0) as [-> |Hx]; [|apply Rabs_pos_lt in Hx; lra]. rewrite Rabs_R0. assert (0 < foldr Rplus 0 (map Rabs a)); [apply IH; lra|lra]. }
  apply list_eq. intros i. rewrite !list_lookup_imap. fold (fmap (M := list) (A := R) (B := R)). rewrite list_lookup_fmap. destruct (a !! i) as [x|]; [|done]. cbn [fmap option_fmap option_map]. do 2 f_equal; [|apply Hs]. f_equal. rewrite Ha. field. lra.
Qed.
(** Descriptors of HAHOG as bytes: whole numbers from 0 to 255, which the features file stores exactly; they are the scaled numbers up to a half where these are at most 255, and up to one for numbers below a half. *)
Theorem C97_hahog_bytes feature_root row : (forall x, x ∈ row -> 0 <= x) ->
  length (hahog_descriptor feature_root true row) = length row /\
  forall i x y, row !! i = Some x -> hahog_descriptor feature_root true row !! i = Some y -> whole 0 255 y /\
    let scaled := if feature_root then 362 * sqrt x else 512 * x in (scaled <= 255 -> Rabs (y - scaled) <= / 2) /\ (x < / 2 -> Rabs (y - scaled) < 1).
Proof.
  intros Hrow. unfold hahog_descriptor. cbn zeta. 
  assert ((if feature_root then map sqrt row else row) = map (fun x => if feature_root then sqrt x else x) row) as ->. { destruct feature_root; [done|by rewrite map_id]. }
  rewrite map_map. split; [by rewrite map_length|]. intros i x y Hx Hy. fold (fmap (M := list) (A := R) (B := R)) in Hy. rewrite list_lookup_fmap, Hx in Hy. cbn in Hy. injection Hy as <-.
  set (t := (if feature_root then 362 else 512) * (if feature_root then sqrt x else x)).
  assert (0 <= x) as H0. { apply Hrow. by eapply elem_of_list_lookup_2. } assert (0 <= t) as Ht. { unfold t. pose proof (sqrt_pos x). destruct feature_root; lra. }
  assert (clip 0 255 t = Rmin t 255) as E. { unfold clip. by rewrite Rmax_left. } rewrite E. pose proof (round_even_near (Rmin t 255)) as Hn.
  assert (- / 2 <= IZR (round_even (Rmin t 255)) - Rmin t 255 <= / 2) as Hn'. { revert Hn. unfold Rabs. destruct (Rcase_abs _); lra. } clear Hn.
  pose proof (Rmin_l t 255). pose proof (Rmin_r t 255). assert (0 <= Rmin t 255) by (apply Rmin_glb; lra).
  assert ((if feature_root then 362 * sqrt x else 512 * x) = t) as ->. { unfold t. by destruct feature_root. }
  split.
  - split; [by eexists|]. assert (IZR (-1) < IZR (round_even (Rmin t 255))) as L1%lt_IZR by lra. assert (IZR (round_even (Rmin t 255)) < IZR 256) as L2%lt_IZR by lra. split; apply IZR_le; lia.
  - split; [intros Hle; rewrite Rmin_left in * by lra; unfold Rabs; destruct (Rcase_abs _); lra|]. intros Hx2.
    assert (t < 256) as Ht2. { unfold t. destruct feature_root; [|lra]. assert (sqrt x * sqrt x = x) by (by apply sqrt_sqrt). pose proof (sqrt_pos x). assert (362 * 362 * x < 256 * 256) by lra. nra. }
    assert (IZR (round_even (Rmin t 255)) <= 255). { assert (IZR (round_even (Rmin t 255)) < IZR 256) as L2%lt_IZR by lra. apply IZR_le. lia. }
    destruct (Rle_dec t 255) as [Hle|Hle]; [rewrite Rmin_left in * by lra; unfold Rabs; destruct (Rcase_abs _); lra|]. rewrite Rmin_right in * by lra.
    assert (round_even 255 = 255%Z) as -> by apply (round_even_IZR 255). unfold Rabs; destruct (Rcase_abs _); lra.
Qed.
(** Extraction: of an image of at least three pixels a side, grey or in colours, with a detector that finds points inside the image it is given. All points are returned, in order, with their descriptors; the coordinates are
    the normalised ones of their places, the sizes are those of the longer side of the image, and the colours are those of the pixel next to them, three numbers also for grey images. *)
Theorem C97_extract resize detect im c (is_panorama : bool) im' points desc :
  let size := if is_panorama then x_process_size_panorama c else x_process_size c in
  let count := if is_panorama then x_min_frames_panorama c else x_min_frames c in
  resizes resize -> (2 < i_height im)%Z -> (2 < i_width im)%Z -> i_channels im = None \/ i_channels im = Some 1%Z \/ i_channels im = Some 3%Z ->
  upper (x_feature_type c) ∈ ["SIFT"; "SURF"; "AKAZE"; "HAHOG"; "ORB"]%string -> resized_image resize im size = Ok im' -> pixels_of im' ->
  detect (upper (x_feature_type c)) im' count = (points, desc) -> (forall p, p ∈ points -> inside_image (i_width im') (i_height im') (k_x p) (k_y p)) ->
  exists normalised colors, extract_features resize detect im c is_panorama = Ok (normalised, desc, colors) /\ length normalised = length points /\ length colors = length points /\
    forall k p, points !! k = Some p -> exists u v q colour y x, fraction_of (i_width im') (i_height im') (k_x p) (k_y p) u v /\ 0 < u < 1 /\ 0 < v < 1 /\ normalised !! k = Some q /\
      (k_x q, k_y q) = normalised_place (i_width im') (i_height im') u v /\ k_size q * IZR (Z.max (i_width im') (i_height im')) = k_size p /\ k_angle q = k_angle p /\
      colors !! k = Some colour /\ length colour = 3%nat /\ (0 <= y < i_height im')%Z /\ (0 <= x < i_width im')%Z /\ Rabs (IZR y - k_y p) <= / 2 /\ Rabs (IZR x - k_x p) <= / 2 /\
      (i_channels im = Some 3%Z -> colour = i_pixel im' y x) /\ (i_channels im <> Some 3%Z -> forall g, g ∈ colour -> i_pixel im' y x = [g]).
Proof.
  intros size count Hres Hh Hw Hch Hty Him' Hpx Hdet Hin. unfold extract_features. cbn zeta. rewrite decide_True by done. rewrite decide_True by done. fold size count. rewrite Him'. cbn [res_bind]. rewrite decide_True by done. rewrite Hdet.
  rewrite (mapE_ok _ (fun p => i_pixel im' (round_even (k_y p)) (round_even (k_x p)))) by (intros p Hp; apply pixel_inside; by apply Hin). cbn [res_bind].
  assert (0 < i_width im' /\ 0 < i_height im' /\ i_channels im' = i_channels im)%Z as (Hw' & Hh' & Hch').
  { destruct (C97_size resize im size Hres ltac:(lia) ltac:(lia)) as (H1 & H2 & _). destruct (decide (0 < size < Z.max (i_width im) (i_height im))%Z) as [Hs|Hs]; [by destruct (H2 Hs im' Him') as (_ & ? & ? & ? & _)|].
    rewrite H1 in Him' by lia. injection Him' as <-. split; [lia|]. split; [lia|done]. }
  eexists _, _. split; [reflexivity|]. unfold normalize_features. split; [by rewrite fmap_length|]. rewrite Hch'. split; [destruct (decide _); by rewrite !map_length|].
  intros k p Hp. assert (p ∈ points) as Hpe by by eapply elem_of_list_lookup_2. destruct (Hin p Hpe) as [Bx By].
  assert (0 < IZR (i_width im')) as W by by apply IZR_lt. assert (0 < IZR (i_height im')) as H by by apply IZR_lt. assert (0 < IZR (Z.max (i_width im') (i_height im'))) as S by (apply IZR_lt; lia).
  assert (forall a b, 0 < b -> 0 < a < b -> 0 < a / b < 1) as Hfrac. { intros a b Hb [A1 A2]. split; [by apply Rdiv_lt_0_compat|]. apply (Rmult_lt_reg_r b); [done|]. unfold Rdiv. rewrite Rmult_assoc, Rinv_l; lra. }
  exists ((k_x p + / 2) / IZR (i_width im')), ((k_y p + / 2) / IZR (i_height im')). rewrite list_lookup_fmap, Hp. cbn [fmap option_fmap option_map].
  eexists _, (if decide (i_channels im = Some 3%Z) then i_pixel im' (round_even (k_y p)) (round_even (k_x p)) else let px := i_pixel im' (round_even (k_y p)) (round_even (k_x p)) in px ++ px ++ px), (round_even (k_y p)), (round_even (k_x p)).
  pose proof (Hpx (round_even (k_y p)) (round_even (k_x p))) as Hlen. rewrite Hch' in Hlen.
  split; [split; field; lra|]. split; [apply Hfrac; lra|]. split; [apply Hfrac; lra|]. split; [reflexivity|]. cbn [k_x k_y k_size k_angle]. split.
  { unfold normalised_place, normalized_image_coordinates. cbn [fst snd]. cbn zeta. replace 0.5 with (/ 2) by lra. f_equal; field; lra. }
  split; [field; lra|]. split; [done|]. split. { destruct (decide _); by rewrite !list_lookup_fmap, Hp. }
  split. { destruct (decide _) as [E|E]; [rewrite E in Hlen; cbn in Hlen; lia|]. rewrite !app_length. destruct Hch as [Hc|[Hc|Hc]]; [rewrite Hc in Hlen..|done]; cbn in Hlen; lia. }
  split; [by apply round_in|]. split; [by apply round_in|]. split; [apply round_even_near|]. split; [apply round_even_near|]. split; [intros E; by rewrite decide_True|].
  intros E g. rewrite decide_False by done. cbn zeta. assert (length (i_pixel im' (round_even (k_y p)) (round_even (k_x p))) = 1%nat) as H1. { destruct Hch as [Hc|[Hc|Hc]]; [rewrite Hc in Hlen..|done]; cbn in Hlen; lia. }
  destruct (i_pixel im' (round_even (k_y p)) (round_even (k_x p))) as [|a [|b l]]; try done. cbn [app]. rewrite !elem_of_cons, elem_of_nil. intros Hg. assert (g = a) as -> by tauto. done.
Qed.
(** What is not accepted: images with other numbers of channels or of fewer than three pixels a side, and unknown types of features. *)
Theorem C97_errors resize detect im c is_panorama :
  (i_channels im <> None /\ i_channels im <> Some 1%Z /\ i_channels im <> Some 3%Z \/ (i_height im <= 2)%Z \/ (i_width im <= 2)%Z -> extract_features resize detect im c is_panorama = Err AssertionError) /\
  (upper (x_feature_type c) ∉ ["SIFT"; "SURF"; "AKAZE"; "HAHOG"; "ORB"]%string -> exists e, extract_features resize detect im c is_panorama = Err e).
Proof.
  unfold extract_features. cbn zeta. split.
  - intros H. destruct (decide _) as [Hc|]; [|done]. destruct (decide _); [|done]. exfalso. destruct H as [H|[H|H]]; [|lia..]. tauto.
  - intros H. destruct (decide _); [|by eexists]. destruct (decide _); [|by eexists]. destruct (resized_image _ _ _); cbn [res_bind]; [|by eexists]. rewrite decide_False by done. by eexists.
Qed.

(** An extraction that the theorem is about *)
Example C97_example : exists detect c im, x_feature_type c = "hahog"%string /\ resizes (fun im w h => Image h w (i_channels im) (i_pixel im)) /\ pixels_of im /\
  match extract_features (fun im w h => Image h w (i_channels im) (i_pixel im)) detect im c false with Ok (normalised, desc, colors) => length normalised = 1%nat /\ colors = [[7; 7; 7]] | Err _ => False end.
Proof.
  exists (fun _ im n => ([Keypoint 1 2 3 4], [[5]])), (ExtractConfig "hahog" 100 100 10 10), (Image 300 400 None (fun _ _ => [7])). split; [done|]. split; [done|]. split; [done|].
  assert (round_even 1 = 1%Z /\ round_even 2 = 2%Z) as [E1 E2] by (split; [apply (round_even_IZR 1)|apply (round_even_IZR 2)]). unfold extract_features. cbn. unfold pixel_at. cbn. rewrite E1, E2. done.
Qed.
Print Assumptions C97_size.
Print Assumptions C97_long_images_refuted.
Print Assumptions C97_resizing_moves_places_by_less_than_half_a_pixel.
Print Assumptions C97_thresholds_end.
Print Assumptions C97_root_feature.
Print Assumptions C97_root_feature_normalised.
Print Assumptions C97_root_feature_surf.
Print Assumptions C97_root_feature_surf_normalised.
Print Assumptions C97_hahog_bytes.
Print Assumptions C97_extract.
Print Assumptions C97_errors.
