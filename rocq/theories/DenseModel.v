(** Model of /repo/opensfm/src/dense/src/depthmap.cc in exact real arithmetic (the code mixes float and double).
    An image is its size and a function of the row and the column; reading outside it (undefined behaviour) gives what the function says there.
    NaN does not exist here: [isnan] tests are left out. *)
From stdpp Require Import prelude.
From Coq Require Import Reals.
From Verif Require Import Base Lin PixelModel.
Local Open Scope R_scope.

Record image A := Image { im_rows : Z; im_cols : Z; im_at : Z -> Z -> A }.
Arguments Image {A} _ _ _. Arguments im_rows {A} _. Arguments im_cols {A} _. Arguments im_at {A} _ _ _.
(** depthmap.cc:8 *)
Definition z_epsilon : R := / 10 ^ 8.
(** depthmap.cc:10-12. The arguments are int: a wider integer is taken modulo 2^32 *)
Definition to_int (n : Z) : Z := ((n + 2 ^ 31) mod 2 ^ 32 - 2 ^ 31)%Z.
Definition IsInsideImage {A} (im : image A) (i j : Z) : bool := bool_decide (0 <= i < im_rows im /\ 0 <= j < im_cols im)%Z.
(** depthmap.cc:14-30 *)
Definition LinearInterpolation (im : image R) (y x : R) : R :=
  if Rlt_dec x 0 then 0 else if Rle_dec (IZR (im_cols im - 1)) x then 0 else
  if Rlt_dec y 0 then 0 else if Rle_dec (IZR (im_rows im - 1)) y then 0 else
  let ix := trunc x in let iy := trunc y in
  let dx := x - IZR ix in let dy := y - IZR iy in
  let im0 := (1 - dx) * im_at im iy ix + dx * im_at im iy (ix + 1) in
  let im1 := (1 - dx) * im_at im (iy + 1) ix + dx * im_at im (iy + 1) (ix + 1) in
  (1 - dy) * im0 + dy * im1.
(** depthmap.cc:32-44 *)
Definition rsum (l : list R) : R := foldr Rplus 0 l.
Definition Variance (x : list R) : R :=
  let n := INR (length x) in let m := rsum x / n in rsum ((fun v => (v - m) * (v - m)) <$> x) / n.
(** depthmap.cc:46-75: the six sums *)
Record ncc := Ncc { sumx : R; sumy : R; sumxx : R; sumyy : R; sumxy : R; sumw : R }.
Definition ncc0 : ncc := Ncc 0 0 0 0 0 0.
Definition Push (e : ncc) (s : R * R * R) : ncc :=
  let '(x, y, w) := s in
  Ncc (sumx e + w * x) (sumy e + w * y) (sumxx e + w * x * x) (sumyy e + w * y * y) (sumxy e + w * x * y) (sumw e + w).
Definition Get (e : ncc) : R :=
  if Req_EM_T (sumw e) 0 then -1 else
  let meanx := sumx e / sumw e in let meany := sumy e / sumw e in
  let meanxx := sumxx e / sumw e in let meanyy := sumyy e / sumw e in let meanxy := sumxy e / sumw e in
  let varx := meanxx - meanx * meanx in let vary := meanyy - meany * meany in
  if Rlt_dec varx (1 / 10) then -1 else if Rlt_dec vary (1 / 10) then -1 else
  (meanxy - meanx * meany) / sqrt (varx * vary).
Definition correlation (samples : list (R * R * R)) : R := Get (foldl Push ncc0 samples).
(** depthmap.cc:77-87 *)
Definition ApplyHomography (h : mat) (x y : R) : R * R :=
  let w := m31 h * x + m32 h * y + m33 h in
  if Req_EM_T w 0 then (0, 0) else ((m11 h * x + m12 h * y + m13 h) / w, (m21 h * x + m22 h * y + m23 h) / w).
(** depthmap.cc:89-103; u v^T *)
Definition column_row (u v : vec) : mat :=
  Mat (vx u * vx v) (vx u * vy v) (vx u * vz v) (vy u * vx v) (vy u * vy v) (vy u * vz v) (vz u * vx v) (vz u * vy v) (vz u * vz v).
Definition PlaneInducedHomography (K1 R1 : mat) (t1 : vec) (K2 R2 : mat) (t2 v : vec) : mat :=
  let R2R1 := mmul R2 (mT R1) in
  mmul (mmul K2 (madd R2R1 (column_row (vsub (mvec R2R1 t1) t2) v))) (minv K1).
Definition PlaneInducedHomographyBaked (K1inv Q2 : mat) (a2 : vec) (K2 : mat) (v : vec) : mat := mmul (mmul K2 (madd Q2 (column_row a2 v))) K1inv.
(** depthmap.cc:105-113 *)
Definition Project (x : vec) (K Rm : mat) (t : vec) : vec := mvec K (vadd (mvec Rm x) t).
Definition Backproject (x y depth : R) (K Rm : mat) (t : vec) : vec := mvec (mT Rm) (vsub (mvec (mscale depth (minv K)) (Vec x y 1)) t).
(** depthmap.cc:115-126 *)
Definition DepthOfPlaneBackprojection (x y : R) (K : mat) (plane : vec) : R :=
  let denom := - dot plane (mvec (minv K) (Vec x y 1)) in 1 / Rmax (/ 10 ^ 6) denom.
Definition PlaneFromDepthAndNormal (x y : R) (K : mat) (depth : R) (normal : vec) : vec :=
  let point := mvec (mscale depth (minv K)) (Vec x y 1) in
  let denom := - dot normal point in vscale (/ Rmax (/ 10 ^ 6) denom) normal.

(** *** DepthmapEstimator *)
(** depthmap.cc:147-163 (AddView): what is kept of a view; Kinv, Q and a are computed from it and the first one *)
Record view := View { vw_K : mat; vw_R : mat; vw_t : vec; vw_image : image R; vw_mask : image R }.
Definition view_Q (first other : view) : mat := mmul (vw_R other) (mT (vw_R first)).
Definition view_a (first other : view) : vec := vsub (mvec (view_Q first other) (vw_t first)) (vw_t other).
(** depthmap.h:104-113 and the setters, 165-184; [stale] is what patch_variance_buffer_ holds *)
Record settings := Settings { patch_size : nat; min_depth : R; max_depth : R; num_depth_planes : nat; patchmatch_iterations : nat; min_patch_variance : R; stale : list R }.
(** depthmap.h:55-60: the four matrices, by pixel *)
Record pixel := Pixel { px_depth : R; px_plane : vec; px_score : R; px_nghbr : nat }.
Notation result := (Z -> Z -> pixel).
(** (patch_size_ - 1) / 2; [zrange a b] are the integers from a to b - 1 *)
Definition hpz (s : settings) : Z := ((Z.of_nat (patch_size s) - 1) ÷ 2)%Z.
Definition zrange (a b : Z) : list Z := (fun k => (a + Z.of_nat k)%Z) <$> seq 0 (Z.to_nat (b - a)).
Definition grid (rs cs : list Z) : list (Z * Z) := i ← rs; (fun j => (i, j)) <$> cs.

Section Estimator.
Variable s : settings.
Variable first : view.
Variable others : list view.
(** the pixels of the loops [for i from hpz to rows - hpz, for j from hpz to cols - hpz] *)
Definition inner : list (Z * Z) := grid (zrange (hpz s) (im_rows (vw_image first) - hpz s)) (zrange (hpz s) (im_cols (vw_image first) - hpz s)).
(** the offsets (dy, dx) of a patch *)
Definition patch : list (Z * Z) := grid (zrange (- hpz s) (hpz s + 1)) (zrange (- hpz s) (hpz s + 1)).
(** depthmap.cc:423-432 *)
Definition BilateralWeight (dcolor dx dy : R) : R := exp (- dcolor * dcolor * (1 / (2 * 50 * 50)) - (dx * dx + dy * dy) * (1 / (2 * 5 * 5))).
(** depthmap.cc:382-421; the index of a view that does not exist (undefined behaviour) gives -1 here *)
Definition ComputePlaneImageScore (i j : Z) (plane : vec) (other : nat) : R :=
  match (first :: others) !! other with
  | None => -1
  | Some o =>
      let h := PlaneInducedHomographyBaked (minv (vw_K first)) (view_Q first o) (view_a first o) (vw_K o) plane in
      let u := m11 h * IZR j + m12 h * IZR i + m13 h in
      let v := m21 h * IZR j + m22 h * IZR i + m23 h in
      let w := m31 h * IZR j + m32 h * IZR i + m33 h in
      if Req_EM_T w 0 then -1 else
      let dfdx_x := (m11 h * w - m31 h * u) / (w * w) in
      let dfdx_y := (m21 h * w - m31 h * v) / (w * w) in
      let dfdy_x := (m12 h * w - m32 h * u) / (w * w) in
      let dfdy_y := (m22 h * w - m32 h * v) / (w * w) in
      let center := im_at (vw_image first) i j in
      correlation ((fun d : Z * Z =>
        let '(dy, dx) := d in
        let im1 := im_at (vw_image first) (i + dy) (j + dx) in
        let x2 := u / w + dfdx_x * IZR dx + dfdy_x * IZR dy in
        let y2 := v / w + dfdx_y * IZR dx + dfdy_y * IZR dy in
        (im1, LinearInterpolation (vw_image o) y2 x2, BilateralWeight (im1 - center) (IZR dx) (IZR dy))) <$> patch)
  end.
(** depthmap.cc:369-380 *)
Definition ComputePlaneScore (i j : Z) (plane : vec) : R * nat :=
  foldl (fun best other => let sc := ComputePlaneImageScore i j plane other in if Rlt_dec best.1 sc then (sc, other) else best) (-1, 0%nat) (seq 1 (length others)).
(** depthmap.cc:358-367 *)
Definition AssignPixel (r : result) (i j : Z) (p : pixel) : result := fun i' j' => if decide (i' = i /\ j' = j) then p else r i' j'.
(** depthmap.cc:335-356 *)
Definition CheckPlaneCandidate (r : result) (i j : Z) (plane : vec) : result :=
  let '(score, nghbr) := ComputePlaneScore i j plane in
  if Rlt_dec (px_score (r i j)) score then AssignPixel r i j (Pixel (DepthOfPlaneBackprojection (IZR j) (IZR i) (vw_K first) plane) plane score nghbr) else r.
Definition CheckPlaneImageCandidate (r : result) (i j : Z) (plane : vec) (nghbr : nat) : result :=
  let score := ComputePlaneImageScore i j plane nghbr in
  if Rlt_dec (px_score (r i j)) score then AssignPixel r i j (Pixel (DepthOfPlaneBackprojection (IZR j) (IZR i) (vw_K first) plane) plane score nghbr) else r.
(** depthmap.cc:233-239 *)
Definition AssignMatrices : result := fun _ _ => Pixel 0 v0 0 0.
(** depthmap.cc:186-206 *)
Definition depth_of_plane_index (d : nat) : R :=
  if (num_depth_planes s <=? 1)%nat then min_depth s
  else 1 / (1 / min_depth s + INR d * (1 / max_depth s - 1 / min_depth s) / (INR (num_depth_planes s) - 1)).
Definition brute_force_pixel (r : result) (ij : Z * Z) : result :=
  let '(i, j) := ij in
  foldl (fun r d => CheckPlaneCandidate r i j (PlaneFromDepthAndNormal (IZR j) (IZR i) (vw_K first) (depth_of_plane_index d) (Vec 0 0 (-1)))) r (seq 0 (num_depth_planes s)).
Definition ComputeBruteForce : result := foldl brute_force_pixel AssignMatrices inner.

(** depthmap.cc:241-261; what is drawn: a number of [0, 1] for the depth, the normal, the neighbour *)
Variable sample : bool.
Variable init : Z -> Z -> R * (R * R) * nat.
Definition initial_pixel (i j : Z) : pixel :=
  let '(u, (n1, n2), k) := init i j in
  let depth := exp (ln (min_depth s) + (ln (max_depth s) - ln (min_depth s)) * u) in
  let plane := PlaneFromDepthAndNormal (IZR j) (IZR i) (vw_K first) depth (Vec n1 n2 (-1)) in
  if sample then Pixel depth plane (ComputePlaneImageScore i j plane k) k
  else let '(score, nghbr) := ComputePlaneScore i j plane in Pixel depth plane score nghbr.
Definition RandomInitialization (r : result) : result := foldl (fun r ij => AssignPixel r ij.1 ij.2 (initial_pixel ij.1 ij.2)) r inner.
(** depthmap.cc:276-288: (2 hpz + 1)^2 values are written into a buffer of patch_size^2, all of which are used *)
Definition PatchVariance (i j : Z) : R :=
  let values := (fun d => im_at (vw_image first) (i + d.1) (j + d.2)) <$> patch in
  Variance (values ++ drop (length values) (stale s)).
(** depthmap.cc:263-274 *)
Definition ignored (i j : Z) : bool :=
  (if Req_EM_T (im_at (vw_mask first) i j) 0 then true else false) || (if Rlt_dec (PatchVariance i j) (min_patch_variance s) then true else false).
Definition ComputeIgnoreMask (r : result) : result :=
  foldl (fun r ij => if ignored ij.1 ij.2 then AssignPixel r ij.1 ij.2 (Pixel 0 v0 0 0) else r) r inner.
(** depthmap.cc:312-333 and 274-331 (PatchMatchUpdatePixel); [draws] are the six triples of normal variables, then the other neighbour (drawn until it differs
    from the current one) *)
Definition check (r : result) (i j : Z) (plane : vec) (nghbr : nat) : result :=
  if sample then CheckPlaneImageCandidate r i j plane nghbr else CheckPlaneCandidate r i j plane.
Definition propagate (i j : Z) (r : result) (adjacent : Z * Z) : result :=
  let p := r (i + adjacent.1)%Z (j + adjacent.2)%Z in
  if Req_EM_T (px_depth p) 0 then r else check r i j (px_plane p) (px_nghbr p).
Fixpoint refine (i j : Z) (nghbr : nat) (r : result) (depth_range normal_range : R) (draws : list (R * R * R)) : result :=
  match draws with
  | [] => r
  | (g, n1, n2) :: draws =>
      let p := px_plane (r i j) in
      let r' := if Req_EM_T (vz p) 0 then None
                else let depth := px_depth (r i j) * exp (depth_range * g) in
                     let normal := Vec (- vx p / vz p + normal_range * n1) (- vy p / vz p + normal_range * n2) (-1) in
                     Some (check r i j (PlaneFromDepthAndNormal (IZR j) (IZR i) (vw_K first) depth normal) nghbr) in
      match r' with
      | None => refine i j nghbr r depth_range normal_range draws
      | Some r => refine i j nghbr r (depth_range * (3 / 10)) (normal_range * (8 / 10)) draws
      end
  end.
Definition PatchMatchUpdatePixel (adjacent : list (Z * Z)) (draws : list (R * R * R) * nat) (r : result) (i j : Z) : result :=
  if Req_EM_T (px_depth (r i j)) 0 then r else
  let r := foldl (propagate i j) r adjacent in
  let r := refine i j (px_nghbr (r i j)) r (2 / 100) (1 / 2) (take 6 draws.1) in
  if negb sample || (length others <=? 1)%nat then r else CheckPlaneImageCandidate r i j (px_plane (r i j)) draws.2.
(** depthmap.cc:290-310 *)
Definition PatchMatchForwardPass (draws : Z -> Z -> list (R * R * R) * nat) (r : result) : result :=
  foldl (fun r ij => PatchMatchUpdatePixel [(-1, 0); (0, -1)]%Z (draws ij.1 ij.2) r ij.1 ij.2) r inner.
Definition PatchMatchBackwardPass (draws : Z -> Z -> list (R * R * R) * nat) (r : result) : result :=
  foldl (fun r ij => PatchMatchUpdatePixel [(0, 1); (1, 0)]%Z (draws ij.1 ij.2) r ij.1 ij.2) r (reverse inner).
(** depthmap.cc:434-447; [median] is cv::medianBlur of the depths *)
Variable median : (Z -> Z -> R) -> Z -> Z -> R.
Definition PostProcess (r : result) : result := fun i j =>
  let d := px_depth (r i j) in let m := median (fun i j => px_depth (r i j)) i j in
  if Req_EM_T d 0 then r i j
  else if Rlt_dec (5 / 100) (Rabs (d - m) / d) then Pixel 0 (px_plane (r i j)) (px_score (r i j)) (px_nghbr (r i j)) else r i j.
(** depthmap.cc:208-231; [draws n] are those of the nth pass *)
Variable draws : nat -> Z -> Z -> list (R * R * R) * nat.
Fixpoint iterations (n k : nat) (r : result) : result :=
  match n with
  | 0%nat => r
  | S n => iterations n (S (S k)) (PatchMatchBackwardPass (draws (S k)) (PatchMatchForwardPass (draws k) r))
  end.
Definition before_filter : result := iterations (patchmatch_iterations s) 0 (ComputeIgnoreMask (RandomInitialization AssignMatrices)).
Definition ComputePatchMatch : result := PostProcess before_filter.
End Estimator.

(** *** DepthmapCleaner, depthmap.cc:449-509 *)
Record depth_view := DepthView { dv_K : mat; dv_R : mat; dv_t : vec; dv_depth : image R }.
Definition consistent (threshold : R) (point : vec) (other : depth_view) : bool :=
  let p := Project point (dv_K other) (dv_R other) (dv_t other) in
  if Rlt_dec (vz p) z_epsilon then false
  else if Rlt_dec (Rabs (LinearInterpolation (dv_depth other) (vy p / vz p) (vx p / vz p) - vz p)) (vz p * threshold) then true else false.
Definition consistent_views (threshold : R) (first : depth_view) (others : list depth_view) (i j : Z) : nat :=
  let point := Backproject (IZR j) (IZR i) (im_at (dv_depth first) i j) (dv_K first) (dv_R first) (dv_t first) in
  (1 + length (filter (fun o => consistent threshold point o = true) others))%nat.
Definition Clean (threshold : R) (min_consistent_views : nat) (first : depth_view) (others : list depth_view) : image R :=
  Image (im_rows (dv_depth first)) (im_cols (dv_depth first)) (fun i j =>
    if (min_consistent_views <=? consistent_views threshold first others i j)%nat then im_at (dv_depth first) i j else 0).

(** *** DepthmapPruner, depthmap.cc:511-627 *)
Record prune_view := PruneView { pv_K : mat; pv_R : mat; pv_t : vec; pv_depth : image R; pv_plane : Z -> Z -> vec; pv_color : Z -> Z -> Z * Z * Z; pv_label : Z -> Z -> Z }.
Definition normalized (v : vec) : vec := vscale (/ norm v) v.
Definition area (v : prune_view) (i j : Z) : R := - vz (normalized (pv_plane v i j)) / im_at (pv_depth v) i j * m11 (pv_K v).
Definition pixel_point (v : prune_view) (i j : Z) : vec := Backproject (IZR j) (IZR i) (im_at (pv_depth v) i j) (pv_K v) (pv_R v) (pv_t v).
(** 565-595: whether the view [other] removes a point of the given area. The indices are 64 bit integers, given to functions of int *)
Definition removes (threshold : R) (point : vec) (area0 : R) (other : prune_view) : bool :=
  let p := Project point (pv_K other) (pv_R other) (pv_t other) in
  if Rlt_dec (vz p) z_epsilon then false else
  let iu := to_int (trunc (vx p / vz p + 1 / 2)) in let iv := to_int (trunc (vy p / vz p + 1 / 2)) in
  if IsInsideImage (pv_depth other) iv iu then
    let depth_at := im_at (pv_depth other) iv iu in
    if Rlt_dec ((1 - threshold) * vz p) depth_at then
      if Req_EM_T depth_at 0 then true else if Rlt_dec area0 (area other iv iu) then true else false
    else false
  else false.
Definition keeps (threshold : R) (first : prune_view) (others : list prune_view) (i j : Z) : bool :=
  (if Rle_dec (im_at (pv_depth first) i j) 0 then false else true) && negb (existsb (removes threshold (pixel_point first i j) (area first i j)) others).
Record cloud_point := CloudPoint { cp_point : vec; cp_normal : vec; cp_color : Z * Z * Z; cp_label : Z }.
Definition pixels {A} (im : image A) : list (Z * Z) := grid (zrange 0 (im_rows im)) (zrange 0 (im_cols im)).
Definition cloud_point_of (v : prune_view) (i j : Z) : cloud_point :=
  CloudPoint (pixel_point v i j) (mvec (mT (pv_R v)) (normalized (pv_plane v i j))) (pv_color v i j) (pv_label v i j).
Definition Prune (threshold : R) (first : prune_view) (others : list prune_view) : list cloud_point :=
  (fun ij => cloud_point_of first ij.1 ij.2) <$> filter (fun ij => keeps threshold first others ij.1 ij.2 = true) (pixels (pv_depth first)).
