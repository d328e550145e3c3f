(** C81: the geometry and the matching score of depth maps *)
From stdpp Require Import prelude.
From Coq Require Import Reals Lra Psatz.
From Verif Require Import Base Lin PixelModel RecProofs DenseModel DenseSpec DenseProofs.
Local Open Scope R_scope.

(** ** Points and pixels *)
(** The backprojection of a pixel at a depth is the one point seen there at that depth *)
Theorem C81_backproject K Rm t x y d : det K <> 0 -> rotation Rm -> forall X, seen K Rm t X x y d <-> X = Backproject x y d K Rm t.
Proof.
  intros HK HR X. split; [by apply backproject_unique|]. intros ->. by apply backproject_seen.
Qed.
(** Projection gives the pixel and the depth: they are read off by division *)
Theorem C81_project K Rm t X x y d : d <> 0 -> seen K Rm t X x y d <-> vz (Project X K Rm t) = d /\ vx (Project X K Rm t) / vz (Project X K Rm t) = x /\ vy (Project X K Rm t) / vz (Project X K Rm t) = y.
Proof.
  intros Hd. unfold seen, in_view, Project. destruct (mvec K (vadd (mvec Rm X) t)) as [a b c]. cbn. split.
  - intros [= -> -> ->]. split; [done|]. split; field; done.
  - intros (-> & <- & <-). f_equal; field; done.
Qed.
(** For a calibration matrix, the depth is the third coordinate in the frame of the view *)
Theorem C81_depth_is_z K Rm t X x y d : calibration K -> seen K Rm t X x y d -> d = vz (in_view Rm t X).
Proof. intros (_ & H1 & H2 & H3). unfold seen. destruct (in_view Rm t X) as [a b c]. unfold mvec. cbn. rewrite H1, H2, H3. intros [= _ _ <-]. ring. Qed.

(** ** The homography of a plane *)
(** The homography takes the projection of every point of the plane to the projection of that point in the other view *)
Theorem C81_homography K1 R1 t1 K2 R2 t2 plane X : det K1 <> 0 -> rotation R1 -> on_plane plane R1 t1 X ->
  mvec (PlaneInducedHomography K1 R1 t1 K2 R2 t2 plane) (Project X K1 R1 t1) = Project X K2 R2 t2.
Proof. apply homography_point. Qed.
(** so that the pixel where the point is seen goes to the pixel where it is seen in the other view *)
Theorem C81_apply_homography K1 R1 t1 K2 R2 t2 plane X x1 y1 d1 x2 y2 d2 : det K1 <> 0 -> rotation R1 -> on_plane plane R1 t1 X ->
  seen K1 R1 t1 X x1 y1 d1 -> seen K2 R2 t2 X x2 y2 d2 -> d1 <> 0 -> d2 <> 0 ->
  ApplyHomography (PlaneInducedHomography K1 R1 t1 K2 R2 t2 plane) x1 y1 = (x2, y2).
Proof.
  intros HK HR HP H1 H2 D1 D2. pose proof (C81_homography K1 R1 t1 K2 R2 t2 plane X HK HR HP) as E. unfold Project in E. unfold seen, in_view in *. rewrite H1, H2 in E.
  destruct (PlaneInducedHomography K1 R1 t1 K2 R2 t2 plane) as [a b c e f g h i j]. unfold mvec in E. cbn in E. injection E as E1 E2 E3.
  unfold ApplyHomography. cbn. assert (d1 * (h * x1 + i * y1 + j) = d2) as W by lra.
  destruct (Req_EM_T (h * x1 + i * y1 + j) 0) as [Z|Z]; [rewrite Z in W; lra|].
  assert (a * x1 + b * y1 + c = d2 * x2 / d1) as -> by (field_simplify_eq; lra). assert (e * x1 + f * y1 + g = d2 * y2 / d1) as -> by (field_simplify_eq; lra).
  assert (h * x1 + i * y1 + j = d2 / d1) as -> by (field_simplify_eq; lra). f_equal; field; done.
Qed.
(** The one computed from the products kept with each view is the same *)
Theorem C81_baked first o plane : PlaneInducedHomographyBaked (minv (vw_K first)) (view_Q first o) (view_a first o) (vw_K o) plane =
  PlaneInducedHomography (vw_K first) (vw_R first) (vw_t first) (vw_K o) (vw_R o) (vw_t o) plane.
Proof. done. Qed.

(** ** Depths and planes *)
Theorem C81_depth_range x y K plane : 0 < DepthOfPlaneBackprojection x y K plane <= 10 ^ 6.
Proof.
  unfold DepthOfPlaneBackprojection. set (q := - dot plane (mvec (minv K) (Vec x y 1))). assert (0 < / 10 ^ 6) as P by (apply Rinv_0_lt_compat; lra).
  pose proof (Rmax_l (/ 10 ^ 6) q) as M. unfold Rdiv. rewrite Rmult_1_l. split; [apply Rinv_0_lt_compat; lra|].
  apply (Rle_trans _ (/ / 10 ^ 6)); [apply Rinv_le_contravar; lra|]. rewrite Rinv_inv. apply Rle_refl.
Qed.
(** Unless the ray is too close to the plane or meets it behind, the depth is that of the point of the plane seen at the pixel *)
Theorem C81_depth_of_plane K Rm t x y plane X d : det K <> 0 -> 0 < d <= 10 ^ 6 -> seen K Rm t X x y d -> on_plane plane Rm t X -> DepthOfPlaneBackprojection x y K plane = d.
Proof.
  intros HK Hd H1 H2. unfold seen, on_plane, in_view in *. rewrite (ray K Rm t x y d X HK H1) in H2. unfold DepthOfPlaneBackprojection.
  set (q := mvec (minv K) (Vec x y 1)) in *. assert (- dot plane q = / d) as ->.
  { assert (dot plane (vscale d q) = d * dot plane q) as E by (unfold dot, vscale; cbn; ring). rewrite E in H2. apply (Rmult_eq_reg_l d); [|lra]. rewrite Rinv_r by lra. lra. }
  rewrite Rmax_right by (apply Rinv_le_contravar; lra). field. lra.
Qed.
(** The plane of a depth and a normal has that normal and goes through the point seen at the pixel, unless that is too close to behind the plane *)
Theorem C81_plane K Rm t x y d normal X : det K <> 0 -> seen K Rm t X x y d -> / 10 ^ 6 <= - dot normal (in_view Rm t X) ->
  on_plane (PlaneFromDepthAndNormal x y K d normal) Rm t X /\ exists c, 0 < c /\ PlaneFromDepthAndNormal x y K d normal = vscale c normal.
Proof.
  intros HK H1 H2. unfold seen, on_plane, in_view in *. rewrite (ray K Rm t x y d X HK H1) in *. unfold PlaneFromDepthAndNormal. rewrite mvec_mscale'.
  set (q := vscale d (mvec (minv K) (Vec x y 1))) in *. rewrite Rmax_right by done.
  assert (0 < / 10 ^ 6) as P by (apply Rinv_0_lt_compat; lra). assert (dot normal q <> 0) as N by lra. split.
  - assert (forall c, dot (vscale c normal) q = c * dot normal q) as -> by (intros; unfold dot, vscale; cbn; ring). field. done.
  - eexists. split; [|done]. apply Rinv_0_lt_compat. lra.
Qed.
(** and the depth of that plane at the pixel is the depth given *)
Theorem C81_depth_of_plane_of_depth K x y d normal : det K <> 0 -> 0 < d <= 10 ^ 6 -> / 10 ^ 6 <= - d * dot normal (mvec (minv K) (Vec x y 1)) ->
  DepthOfPlaneBackprojection x y K (PlaneFromDepthAndNormal x y K d normal) = d.
Proof.
  intros HK Hd H. pose proof (backproject_seen K mI v0 x y d HK rotation_I) as S. set (X := Backproject x y d K mI v0) in *.
  eapply (C81_depth_of_plane K mI v0 x y _ X d HK Hd S). apply C81_plane; [done..|]. unfold in_view. rewrite (ray K mI v0 x y d X HK S).
  assert (forall q, dot normal (vscale d q) = d * dot normal q) as -> by (intros; unfold dot, vscale; cbn; ring). lra.
Qed.

(** ** Correlation *)
(** The score of weighted pairs is their correlation coefficient when both have a variance of at least 1/10, else -1 *)
Theorem C81_correlation l : 0 < total weight_of l -> 1 / 10 <= covar first_of first_of l -> 1 / 10 <= covar second_of second_of l ->
  correlation l = covar first_of second_of l / sqrt (covar first_of first_of l * covar second_of second_of l).
Proof.
  intros HW H1 H2. rewrite correlation_covar. destruct (Req_EM_T _ 0); [lra|]. destruct (Rlt_dec (covar first_of first_of l) _); [lra|]. destruct (Rlt_dec (covar second_of second_of l) _); [lra|]. done.
Qed.
Theorem C81_correlation_flat l : total weight_of l = 0 \/ covar first_of first_of l < 1 / 10 \/ covar second_of second_of l < 1 / 10 -> correlation l = -1.
Proof.
  intros H. rewrite correlation_covar. destruct (Req_EM_T _ 0); [done|]. destruct (Rlt_dec (covar first_of first_of l) _); [done|]. destruct (Rlt_dec (covar second_of second_of l) _); [done|].
  destruct H as [H|[H|H]]; lra.
Qed.
Theorem C81_correlation_range l : Forall (fun s => 0 <= weight_of s) l -> -1 <= correlation l <= 1.
Proof.
  intros Hw. pose proof (total_nonneg weight_of l Hw) as HW. rewrite correlation_covar. destruct (Req_EM_T _ 0) as [|NW]; [lra|].
  destruct (Rlt_dec (covar first_of first_of l) _) as [|HA]; [lra|]. destruct (Rlt_dec (covar second_of second_of l) _) as [|HC]; [lra|].
  pose proof (covar_cauchy first_of second_of l ltac:(lra) Hw) as CS. set (A := covar first_of first_of l) in *. set (C := covar second_of second_of l) in *. set (B := covar first_of second_of l) in *.
  assert (0 < A * C) as P by nra. pose proof (sqrt_lt_R0 _ P) as SP. pose proof (sqrt_sqrt (A * C) ltac:(lra)) as SS. set (q := sqrt (A * C)) in *.
  assert (- q <= B <= q) as [L U] by nra. split.
  - apply (Rmult_le_reg_r q); [done|]. unfold Rdiv. rewrite Rmult_assoc, Rinv_l by lra. lra.
  - apply (Rmult_le_reg_r q); [done|]. unfold Rdiv. rewrite Rmult_assoc, Rinv_l by lra. lra.
Qed.
(** It is 1 when the second values are the first ones up to gain and offset *)
Theorem C81_correlation_match l a b : 0 < a -> Forall (fun s => 0 <= weight_of s) l -> Forall (fun s => second_of s = a * first_of s + b) l ->
  1 / 10 <= covar first_of first_of l -> 1 / 10 <= covar second_of second_of l -> correlation l = 1.
Proof.
  intros Ha Hw E H1 H2. pose proof (total_nonneg weight_of l Hw) as HW. destruct (Req_EM_T (total weight_of l) 0) as [Z|NZ].
  { exfalso. unfold covar, mean in H1. rewrite Z in H1. unfold Rdiv in H1. rewrite Rinv_0 in H1. lra. }
  assert (forall f, total (fun s => s.2 * (f s * second_of s)) l = a * total (fun s => s.2 * (f s * first_of s)) l + b * total (fun s => s.2 * f s) l) as T.
  { intros f. clear -E. induction E as [|s l Es _ IH]; cbn; [ring|]. rewrite IH, Es. ring. }
  assert (forall f, covar f second_of l = a * covar f first_of l) as L.
  { intros f. rewrite !covar_expand by done. assert (mean (fun s => f s * second_of s) l = a * mean (fun s => f s * first_of s) l + b * mean f l) as -> by (unfold mean; rewrite T; field; done).
    assert (mean second_of l = a * mean first_of l + b) as ->; [|ring]. unfold mean. specialize (T (fun _ => 1)). cbv beta in T.
    rewrite (total_ext _ (fun s => s.2 * second_of s)) in T by (intros; ring). rewrite (total_ext (fun s => s.2 * (1 * _)) (fun s => s.2 * first_of s)) in T by (intros; ring).
    rewrite (total_ext (fun s => s.2 * 1) weight_of) in T by (intros; unfold weight_of; ring). rewrite T. field. done. }
  assert (covar second_of first_of l = covar first_of second_of l) as Sy by (rewrite !covar_expand by done; rewrite Rmult_comm with (r1 := mean second_of l); f_equal; unfold mean; f_equal; apply total_ext; intros; ring).
  rewrite C81_correlation by (done || lra). rewrite (L second_of), Sy, (L first_of) in *. set (A := covar first_of first_of l) in *.
  replace (A * (a * (a * A))) with ((a * A) * (a * A)) by ring. rewrite sqrt_square by nra. field. nra.
Qed.
(** and it does not matter which of the two images is called the first *)
Theorem C81_correlation_symmetric l : correlation (swap_sample <$> l) = correlation l.
Proof.
  assert (forall f, total f (swap_sample <$> l) = total (fun s => f (swap_sample s)) l) as T by (intros f; induction l as [|s l IH]; [done|cbn; by rewrite IH]).
  assert (forall f g, covar f g (swap_sample <$> l) = covar (fun s => f (swap_sample s)) (fun s => g (swap_sample s)) l) as C by (intros; unfold covar, mean; by rewrite !T).
  rewrite !correlation_covar, !C, T. change (fun s => weight_of (swap_sample s)) with weight_of. change (fun s => first_of (swap_sample s)) with second_of. change (fun s => second_of (swap_sample s)) with first_of.
  assert (covar second_of first_of l = covar first_of second_of l) as ->.
  { unfold covar, mean. f_equal. apply total_ext. intros. ring. }
  rewrite (Rmult_comm (covar second_of second_of l)). destruct (Req_EM_T _ 0); [done|]. destruct (Rlt_dec (covar first_of first_of l) _), (Rlt_dec (covar second_of second_of l) _); done.
Qed.

(** ** Interpolation *)
Theorem C81_interpolation_pixel im (i j : Z) : (0 <= i < im_rows im - 1)%Z -> (0 <= j < im_cols im - 1)%Z -> LinearInterpolation im (IZR i) (IZR j) = im_at im i j.
Proof.
  intros Hi Hj. destruct (interpolation_inside im (IZR i) (IZR j)) as (i' & j' & _ & Y & X & ->); [split; [apply IZR_le|apply IZR_lt]; lia..|].
  assert (i' = i) as ->. { destruct Y as [A B]. rewrite <-plus_IZR in B. apply le_IZR in A. apply lt_IZR in B. lia. }
  assert (j' = j) as ->. { destruct X as [A B]. rewrite <-plus_IZR in B. apply le_IZR in A. apply lt_IZR in B. lia. }
  unfold bilinear. ring.
Qed.
(** The value is between those of the four pixels around *)
Theorem C81_interpolation_between im y x lo hi : 0 <= x < IZR (im_cols im - 1) -> 0 <= y < IZR (im_rows im - 1) ->
  (forall i j : Z, (0 <= i < im_rows im)%Z -> (0 <= j < im_cols im)%Z -> Rabs (IZR i - y) <= 1 -> Rabs (IZR j - x) <= 1 -> lo <= im_at im i j <= hi) ->
  lo <= LinearInterpolation im y x <= hi.
Proof.
  intros Hx Hy H. destruct (interpolation_inside im y x Hx Hy) as (i & j & B & Y & X & ->).
  apply bilinear_between; try lra; apply H; try lia; rewrite ?plus_IZR; apply Rabs_le; lra.
Qed.
(** it is exact for brightness that varies linearly *)
Theorem C81_interpolation_affine im y x a b c : 0 <= x < IZR (im_cols im - 1) -> 0 <= y < IZR (im_rows im - 1) ->
  (forall i j, (0 <= i < im_rows im)%Z -> (0 <= j < im_cols im)%Z -> im_at im i j = a * IZR j + b * IZR i + c) -> LinearInterpolation im y x = a * x + b * y + c.
Proof.
  intros Hx Hy H. destruct (interpolation_inside im y x Hx Hy) as (i & j & B & Y & X & ->). rewrite !H by lia. unfold bilinear. rewrite !plus_IZR. ring.
Qed.
(** and 0 outside, which includes the last row and the last column *)
Theorem C81_interpolation_outside im y x : ~ (0 <= x < IZR (im_cols im - 1) /\ 0 <= y < IZR (im_rows im - 1)) -> LinearInterpolation im y x = 0.
Proof. apply interpolation_outside. Qed.

(** ** The score of a plane *)
(** The samples of a patch of odd size are the pixels around, each once *)
Lemma zrange_elem a b k : k ∈ zrange a b <-> (a <= k < b)%Z.
Proof.
  unfold zrange. rewrite elem_of_list_fmap. split.
  - intros (n & -> & Hn%elem_of_seq). lia.
  - intros H. exists (Z.to_nat (k - a)). split; [lia|]. apply elem_of_seq. lia.
Qed.
Lemma zrange_nodup a b : NoDup (zrange a b).
Proof. unfold zrange. apply NoDup_fmap_2; [intros x y; lia|]. apply NoDup_seq. Qed.
Lemma grid_elem rs cs i j : (i, j) ∈ grid rs cs <-> i ∈ rs /\ j ∈ cs.
Proof.
  unfold grid. rewrite elem_of_list_bind. split.
  - intros (a & (b & [= -> ->] & Hb)%elem_of_list_fmap & Ha). done.
  - intros [Hi Hj]. exists i. split; [|done]. apply elem_of_list_fmap. eauto.
Qed.
Lemma grid_nodup rs cs : NoDup rs -> NoDup cs -> NoDup (grid rs cs).
Proof.
  intros Hr Hc. unfold grid. induction Hr as [|r rs Hnr Hr IH]; [constructor|]. cbn. apply NoDup_app. split_and!.
  - apply NoDup_fmap_2; [by intros ?? [=]|done].
  - intros [a b] Ha%elem_of_list_fmap Hb%elem_of_list_bind. destruct Ha as (? & [= -> ->] & _), Hb as (a' & (? & [= -> ->] & _)%elem_of_list_fmap & Hb). done.
  - exact IH.
Qed.
Theorem C81_patch s h : patch_size s = (2 * h + 1)%nat ->
  NoDup (patch s) /\ forall dy dx, (dy, dx) ∈ patch s <-> (- Z.of_nat h <= dy <= Z.of_nat h /\ - Z.of_nat h <= dx <= Z.of_nat h)%Z.
Proof.
  intros E. assert (hpz s = Z.of_nat h) as H. { unfold hpz. rewrite E. replace (Z.of_nat (2 * h + 1) - 1)%Z with (Z.of_nat h * 2)%Z by lia. apply Z.quot_mul. lia. }
  unfold patch. rewrite H. split; [apply grid_nodup; apply zrange_nodup|]. intros. rewrite grid_elem, !zrange_elem. lia.
Qed.
(** The score of a plane for a view: the correlation of the patch with what the first order expansion at the pixel of the homography of the plane finds in the view *)
Theorem C81_image_score s first others i j plane k o : (first :: others) !! k = Some o ->
  let h := PlaneInducedHomography (vw_K first) (vw_R first) (vw_t first) (vw_K o) (vw_R o) (vw_t o) plane in
  let hx x y := (ApplyHomography h x y).1 in let hy x y := (ApplyHomography h x y).2 in
  m31 h * IZR j + m32 h * IZR i + m33 h <> 0 -> exists a b c d,
  partial_x hx (IZR j) (IZR i) a /\ partial_y hx (IZR j) (IZR i) b /\ partial_x hy (IZR j) (IZR i) c /\ partial_y hy (IZR j) (IZR i) d /\
  ComputePlaneImageScore s first others i j plane k = correlation ((fun o' : Z * Z =>
    let '(dy, dx) := o' in
    (im_at (vw_image first) (i + dy) (j + dx),
     LinearInterpolation (vw_image o) (hy (IZR j) (IZR i) + c * IZR dx + d * IZR dy) (hx (IZR j) (IZR i) + a * IZR dx + b * IZR dy),
     BilateralWeight (im_at (vw_image first) (i + dy) (j + dx) - im_at (vw_image first) i j) (IZR dx) (IZR dy))) <$> patch s).
Proof.
  intros Hk h hx hy Hw. unfold ComputePlaneImageScore. rewrite Hk. rewrite C81_baked. fold h. clearbody h. cbv zeta. destruct (Req_EM_T _ 0) as [|_]; [done|].
  set (x := IZR j) in *. set (y := IZR i) in *.
  assert (forall a b c, partial_x (fun x y => (a * x + b * y + c) / (m31 h * x + m32 h * y + m33 h)) x y
    ((a * (m31 h * x + m32 h * y + m33 h) - m31 h * (a * x + b * y + c)) / ((m31 h * x + m32 h * y + m33 h) * (m31 h * x + m32 h * y + m33 h)))) as PX.
  { intros a b c. unfold partial_x. pose proof (quotient_derivative a (b * y + c) (m31 h) (m32 h * y + m33 h) x ltac:(lra)) as D. rewrite <-!Rplus_assoc in D.
    eapply derivative_ext; [exact D|]. exists 1. split; [lra|]. intros. cbv beta. by rewrite !Rplus_assoc. }
  assert (forall a b c, partial_y (fun x y => (a * x + b * y + c) / (m31 h * x + m32 h * y + m33 h)) x y
    ((b * (m31 h * x + m32 h * y + m33 h) - m32 h * (a * x + b * y + c)) / ((m31 h * x + m32 h * y + m33 h) * (m31 h * x + m32 h * y + m33 h)))) as PY.
  { intros a b c. unfold partial_y. pose proof (quotient_derivative b (a * x + c) (m32 h) (m31 h * x + m33 h) y ltac:(lra)) as D.
    replace (b * y + (a * x + c)) with (a * x + b * y + c) in D by ring. replace (m32 h * y + (m31 h * x + m33 h)) with (m31 h * x + m32 h * y + m33 h) in D by ring.
    eapply derivative_ext; [exact D|]. exists 1. split; [lra|]. intros. cbv beta. f_equal; ring. }
  assert (forall x' y', m31 h * x' + m32 h * y' + m33 h <> 0 -> hx x' y' = (m11 h * x' + m12 h * y' + m13 h) / (m31 h * x' + m32 h * y' + m33 h)
    /\ hy x' y' = (m21 h * x' + m22 h * y' + m23 h) / (m31 h * x' + m32 h * y' + m33 h)) as HH.
  { intros x' y' N. unfold hx, hy, ApplyHomography. destruct (Req_EM_T _ 0); done. }
  destruct (nonzero_near (m31 h) (m32 h * y + m33 h) x ltac:(lra)) as (e1 & He1 & N1). destruct (nonzero_near (m32 h) (m31 h * x + m33 h) y ltac:(lra)) as (e2 & He2 & N2).
  destruct (HH x y Hw) as [HX HY].
  eexists _, _, _, _. split; [|split; [|split; [|split]]].
  - unfold partial_x. eapply derivative_ext; [apply (PX (m11 h) (m12 h) (m13 h))|]. exists e1. split; [done|]. intros x' Hx'. specialize (N1 x' Hx'). apply HH. lra.
  - unfold partial_y. eapply derivative_ext; [apply (PY (m11 h) (m12 h) (m13 h))|]. exists e2. split; [done|]. intros y' Hy'. specialize (N2 y' Hy'). apply HH. lra.
  - unfold partial_x. eapply derivative_ext; [apply (PX (m21 h) (m22 h) (m23 h))|]. exists e1. split; [done|]. intros x' Hx'. specialize (N1 x' Hx'). apply HH. lra.
  - unfold partial_y. eapply derivative_ext; [apply (PY (m21 h) (m22 h) (m23 h))|]. exists e2. split; [done|]. intros y' Hy'. specialize (N2 y' Hy'). apply HH. lra.
  - rewrite HX, HY. done.
Qed.
Lemma exp_le a b : a <= b -> exp a <= exp b.
Proof. intros [H| ->]; [left; by apply exp_increasing|apply Rle_refl]. Qed.
(** the weights are positive, at most that of the centre, and equal for equal brightness and distance *)
Theorem C81_weight dcolor dx dy : 0 < BilateralWeight dcolor dx dy <= BilateralWeight 0 0 0 /\ BilateralWeight 0 0 0 = 1 /\
  forall dcolor' dx' dy', dcolor * dcolor <= dcolor' * dcolor' -> dx * dx + dy * dy <= dx' * dx' + dy' * dy' -> BilateralWeight dcolor' dx' dy' <= BilateralWeight dcolor dx dy.
Proof.
  unfold BilateralWeight. split_and!.
  - apply exp_pos.
  - apply exp_le. pose proof (Rle_0_sqr dcolor). pose proof (Rle_0_sqr dx). pose proof (Rle_0_sqr dy). unfold Rsqr in *. lra.
  - rewrite <-exp_0. f_equal. lra.
  - intros. apply exp_le. lra.
Qed.
(** every score is between -1 and 1 *)
Theorem C81_image_score_range s first others i j plane k : -1 <= ComputePlaneImageScore s first others i j plane k <= 1.
Proof.
  unfold ComputePlaneImageScore. destruct (_ !! k) as [o|]; [|lra]. cbv zeta. destruct (Req_EM_T _ 0); [lra|]. apply C81_correlation_range.
  apply Forall_fmap, Forall_forall. intros [dy dx] _. unfold compose, weight_of. cbn. apply Rlt_le, exp_pos.
Qed.
(** The score of a plane is the best one over the other views, and goes with the first of them that has it *)
Theorem C81_plane_score s first others i j plane sc k : ComputePlaneScore s first others i j plane = (sc, k) ->
  (forall k', (1 <= k' <= length others)%nat -> ComputePlaneImageScore s first others i j plane k' <= sc) /\
  ((1 <= k <= length others)%nat /\ ComputePlaneImageScore s first others i j plane k = sc /\ (forall k', (1 <= k' < k)%nat -> ComputePlaneImageScore s first others i j plane k' < sc)
   \/ k = 0%nat /\ sc = -1).
Proof.
  unfold ComputePlaneScore. set (f := ComputePlaneImageScore s first others i j plane). revert sc k.
  assert (forall n sc k, foldl (fun best other => if Rlt_dec best.1 (f other) then (f other, other) else best) (-1, 0%nat) (seq 1 n) = (sc, k) ->
    (forall k', (1 <= k' <= n)%nat -> f k' <= sc) /\ -1 <= sc /\
    ((1 <= k <= n)%nat /\ f k = sc /\ (forall k', (1 <= k' < k)%nat -> f k' < sc) \/ k = 0%nat /\ sc = -1)) as L.
  { induction n as [|n IH]; intros sc k.
    - cbn. intros [= <- <-]. split; [intros; lia|]. split; [lra|]. by right.
    - rewrite seq_S, foldl_app. destruct (foldl _ _ (seq 1 n)) as [sc0 k0]. destruct (IH sc0 k0 eq_refl) as (M & B & D). cbn.
      destruct (Rlt_dec sc0 (f (S n))) as [L|L]; intros [= <- <-].
      + split; [intros k' Hk'; destruct (decide (k' = S n)) as [-> |]; [lra|]; specialize (M k'); assert (f k' <= sc0) by (apply M; lia); lra|]. split; [lra|]. left. split; [lia|]. split; [done|].
        intros k' Hk'. assert (f k' <= sc0) by (apply M; lia). lra.
      + split; [intros k' Hk'; destruct (decide (k' = S n)) as [-> |]; [lra|]; apply M; lia|]. split; [done|]. destruct D as [(D1 & D2 & D3)|D]; [left|by right]. split; [lia|done]. }
  intros sc k H. cbv zeta in H. destruct (L _ _ _ H) as (A & _ & C). done.
Qed.

(** ** Non-vacuity *)
Definition ex_K : mat := Mat 2 0 1 0 2 1 0 0 1.
Example C81_camera_case : calibration ex_K /\ det ex_K <> 0 /\ seen ex_K mI v0 (Vec 1 2 4) (3 / 2) 2 4 /\ on_plane (Vec 0 0 (-1 / 4)) mI v0 (Vec 1 2 4)
  /\ seen ex_K mI (Vec 1 0 0) (Vec 1 2 4) 2 2 4.
Proof.
  unfold calibration, seen, on_plane, in_view, ex_K, det, mvec, vadd, dot, mI, v0. cbn. split_and!; try lra; f_equal; lra.
Qed.
Example C81_depth_case : DepthOfPlaneBackprojection (3 / 2) 2 ex_K (Vec 0 0 (-1 / 4)) = 4.
Proof. destruct C81_camera_case as (_ & HK & S & P & _). eapply C81_depth_of_plane; [exact HK| |exact S|exact P]. lra. Qed.
Example C81_correlation_case : correlation [(0, 1, 1); (1, 3, 1); (2, 5, 1)] = 1.
Proof.
  apply (C81_correlation_match _ 2 1); [lra|repeat constructor; unfold weight_of; cbn; lra|repeat constructor; unfold first_of, second_of; cbn; lra|..];
  unfold covar, mean, first_of, second_of, weight_of; cbn; lra.
Qed.
(** a pixel of the last column is in the image, and is read as 0 *)
Example C81_last_column : exists im, IsInsideImage im 0 1 = true /\ im_at im 0 1 = 7 /\ LinearInterpolation im (IZR 0) (IZR 1) = 0.
Proof. exists (Image 2 2 (fun _ _ => 7)). split; [done|]. split; [done|]. apply C81_interpolation_outside. intros [[_ H]  _]. apply lt_IZR in H. cbn in H. lia. Qed.

Print Assumptions C81_backproject.
Print Assumptions C81_project.
Print Assumptions C81_depth_is_z.
Print Assumptions C81_homography.
Print Assumptions C81_apply_homography.
Print Assumptions C81_depth_range.
Print Assumptions C81_depth_of_plane.
Print Assumptions C81_plane.
Print Assumptions C81_depth_of_plane_of_depth.
Print Assumptions C81_correlation.
Print Assumptions C81_correlation_flat.
Print Assumptions C81_correlation_range.
Print Assumptions C81_correlation_match.
Print Assumptions C81_correlation_symmetric.
Print Assumptions C81_interpolation_pixel.
Print Assumptions C81_interpolation_between.
Print Assumptions C81_interpolation_affine.
Print Assumptions C81_interpolation_outside.
Print Assumptions C81_patch.
Print Assumptions C81_image_score.
Print Assumptions C81_image_score_range.
Print Assumptions C81_weight.
Print Assumptions C81_plane_score.
