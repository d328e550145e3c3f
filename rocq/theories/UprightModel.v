(** Model of /repo/opensfm/upright.py and of video.py:12-33 (the orientation of a video), over the reals. *)
From stdpp Require Import prelude strings.
From Coq Require Import Reals.
From Verif Require Import Base.
Local Open Scope R_scope.

(** The first two rows of a 3x3 matrix whose last row is 0 0 1 *)
Record affine := Affine { a11 : R; a12 : R; a13 : R; a21 : R; a22 : R; a23 : R }.
(** np.dot of two of them *)
Definition compose (p q : affine) : affine :=
  Affine (a11 p * a11 q + a12 p * a21 q) (a11 p * a12 q + a12 p * a22 q) (a11 p * a13 q + a12 p * a23 q + a13 p)
         (a21 p * a11 q + a22 p * a21 q) (a21 p * a12 q + a22 p * a22 q) (a21 p * a13 q + a22 p * a23 q + a23 p).
(** upright.py:37-42: the dictionary R *)
Definition orientation_matrix (orientation : Z) : res affine :=
  if decide (orientation = 1%Z) then Ok (Affine 1 0 0 0 1 0)
  else if decide (orientation = 3%Z) then Ok (Affine (-1) 0 1 0 (-1) 1)
  else if decide (orientation = 6%Z) then Ok (Affine 0 (-1) 1 1 0 0)
  else if decide (orientation = 8%Z) then Ok (Affine 0 1 0 (-1) 0 1)
  else Err KeyError.
(** upright.py:8-63 *)
Definition opensfm_to_upright (coords : list (R * R)) (width height : Z) (orientation : Z) (new_width new_height : option Z) : res (list (R * R)) :=
  let w := IZR width in let h := IZR height in
  let s := Rmax w h in
  if decide (width = 0%Z \/ height = 0%Z) then Err ZeroDivisionError
  else
    let H := Affine (s / w) 0 (/ 2) 0 (s / h) (/ 2) in
    try r := orientation_matrix orientation in
    let T := compose r H in
    let upright_width := IZR (default (if decide (orientation < 6)%Z then width else height) new_width) in
    let upright_height := IZR (default (if decide (orientation < 6)%Z then height else width) new_height) in
    Ok ((fun c => (upright_width * (a11 T * c.1 + a12 T * c.2 + a13 T), upright_height * (a21 T * c.1 + a22 T * c.2 + a23 T))) <$> coords).
(** video.py:12-33; the text is the output of exiftool without the spaces around it, float(str) is a parameter: None is its ValueError *)
Definition video_orientation (parse_float : string -> option R) (rotation : string) : res Z :=
  if decide (rotation = ""%string) then Ok 1%Z
  else
    try rotation := of_option ValueError (parse_float rotation) in
    if Req_EM_T rotation 0 then Ok 1%Z
    else if Req_EM_T rotation 90 then Ok 6%Z
    else if Req_EM_T rotation 180 then Ok 3%Z
    else if Req_EM_T rotation 270 then Ok 8%Z
    else Err RuntimeError.
