(** Model of the extraction of features: /repo/opensfm/features.py:281-636 without the detectors, over the reals. The detectors and cv2.resize are parameters. *)
From stdpp Require Import prelude strings.
From Coq Require Import Reals.
From Verif Require Import Base PyText PixelModel GpxModel.
Local Open Scope R_scope.

(** An image: the number of channels is None for an array of two dimensions; the values of the channels of the pixel in a row and a column *)
Record image := Image { i_height : Z; i_width : Z; i_channels : option Z; i_pixel : Z -> Z -> list R }.
(** 281-289; cv2.resize of an image (to a width and a height) is a parameter; sides of 0 are an error of cv2 *)
Definition resized_image (resize : image -> Z -> Z -> image) (im : image) (max_size : Z) : res image :=
  let h := i_height im in let w := i_width im in
  let size := Z.max w h in
  if decide (0 < max_size < size)%Z then
    let dw := (w * max_size / size)%Z in let dh := (h * max_size / size)%Z in
    if decide (dw = 0%Z \/ dh = 0%Z) then Err RuntimeError else Ok (resize im dw dh)
  else Ok im.
(** 292-298, for a row *)
Definition row_sum (row : list R) : R := foldr Rplus 0 row.
Definition row_norm (row : list R) : R := sqrt (row_sum (map (fun x => x * x) row)).
Definition root_feature (l2_normalization : bool) (row : list R) : list R :=
  let row := if l2_normalization then map (fun x => x / row_norm row) row else row in
  let s := row_sum row in
  map (fun x => sqrt (x / s)) row.
(** np.sign *)
Definition sign (x : R) : R := if Rlt_dec 0 x then 1 else if Rlt_dec x 0 then -1 else 0.
(** 301-322, for a row *)
Definition root_feature_surf (l2_normalization partial : bool) (row : list R) : list R :=
  if decide (length row = 64%nat) then
    let row := if l2_normalization then map (fun x => x / row_norm row) row else row in
    let s := row_sum (map Rabs row) in
    imap (fun i x => if negb partial || bool_decide (i mod 4 = 2 \/ i mod 4 = 3)%nat then sqrt (Rabs x / s) * sign x else x) row
  else row.
(** 372-406 and 446-462: the loop over the thresholds *)
Section thresholds.
  Context {P : Type} (detect : R -> list P) (features_count : nat).
  Fixpoint threshold_loop (fuel : nat) (threshold : R) : option (R * list P) :=
    match fuel with
    | 0%nat => None
    | S fuel =>
        let points := detect threshold in
        if (if decide (length points < features_count)%nat then if Rlt_dec 0.0001 threshold then true else false else false) then threshold_loop fuel (threshold * 2 / 3) else Some (threshold, points)
    end.
End thresholds.
(** 526-534, for a descriptor: np.clip and np.round *)
Definition clip (lo hi x : R) : R := Rmin (Rmax x lo) hi.
Definition hahog_descriptor (feature_root normalize_to_uchar : bool) (row : list R) : list R :=
  let row := if feature_root then map sqrt row else row in
  let uchar_scaling := if feature_root then 362 else 512 in
  if normalize_to_uchar then map (fun x => IZR (round_even (clip 0 255 (uchar_scaling * x)))) row else row.

(** x, y, size, angle *)
Record keypoint := Keypoint { k_x : R; k_y : R; k_size : R; k_angle : R }.
(** 344-354 *)
Definition normalize_features (points : list keypoint) (width height : Z) : list keypoint :=
  (fun p => let q := normalized_image_coordinates (k_x p, k_y p) width height in Keypoint q.1 q.2 (k_size p / IZR (Z.max width height)) (k_angle p)) <$> points.
(** An index of a numpy array with n elements *)
Definition numpy_index (n i : Z) : res Z := if decide (0 <= i < n)%Z then Ok i else if decide (- n <= i < 0)%Z then Ok (n + i)%Z else Err IndexError.
Definition pixel_at (im : image) (y x : Z) : res (list R) := try y := numpy_index (i_height im) y in try x := numpy_index (i_width im) x in Ok (i_pixel im y x).
Fixpoint mapE {A B} (f : A -> res B) (l : list A) : res (list B) := match l with [] => Ok [] | a :: l => try b := f a in try r := mapE f l in Ok (b :: r) end.
Record extract_config := ExtractConfig { x_feature_type : string; x_process_size : Z; x_process_size_panorama : Z; x_min_frames : Z; x_min_frames_panorama : Z }.
(** 592-636. [detect type im count]: the points and the descriptors of the detector of this type; the pixels are 8 bit numbers (602: not modelled), the grey image (608-612) is left to the detector *)
Definition extract_features (resize : image -> Z -> Z -> image) (detect : string -> image -> Z -> list keypoint * list (list R)) (im : image) (c : extract_config) (is_panorama : bool) :
    res (list keypoint * list (list R) * list (list R)) :=
  let extraction_size := if is_panorama then x_process_size_panorama c else x_process_size c in
  let features_count := if is_panorama then x_min_frames_panorama c else x_min_frames c in
  if decide (i_channels im = None \/ i_channels im = Some 1%Z \/ i_channels im = Some 3%Z) then
    if decide (2 < i_height im /\ 2 < i_width im)%Z then
      try im := resized_image resize im extraction_size in
      let feature_type := upper (x_feature_type c) in
      if decide (feature_type ∈ ["SIFT"; "SURF"; "AKAZE"; "HAHOG"; "ORB"]%string) then
        let '(points, desc) := detect feature_type im features_count in
        try colors := mapE (fun p => pixel_at im (round_even (k_y p)) (round_even (k_x p))) points in
        let colors := if decide (i_channels im = Some 3%Z) then colors else map (fun px => px ++ px ++ px) colors in
        Ok (normalize_features points (i_width im) (i_height im), desc, colors)
      else Err ValueError
    else Err AssertionError
  else Err AssertionError.
