(** Model of the geodetic conversions: /repo/opensfm/geo.py and /repo/opensfm/src/geo/src/geo.cc, which compute the same
    formulas. Exact real arithmetic; scalars (the array versions are point by point). *)
From stdpp Require Import prelude.
From Coq Require Import Reals.
From Verif Require Import Base Lin PoseModel.
Local Open Scope R_scope.

(** geo.py:9-10, geo.h:5-6 *)
Definition WGS84_a : R := 6378137.
Definition WGS84_b : R := 6356752314245 / 1000000.
(** np.radians, np.degrees; geo.cc:4-11 (with the double nearest to pi) *)
Definition radians (x : R) : R := x * (PI / 180).
Definition degrees (x : R) : R := x * (180 / PI).
(** atan2 of C and numpy (without signed zeros) *)
Definition atan2 (y x : R) : R :=
  if Rlt_dec 0 x then atan (y / x)
  else if Rlt_dec x 0 then (if Rle_dec 0 y then atan (y / x) + PI else atan (y / x) - PI)
  else if Rlt_dec 0 y then PI / 2 else if Rlt_dec y 0 then - (PI / 2) else 0.

(** geo.py:22-46, geo.cc:20-34 *)
Definition ecef_from_lla (lat lon alt : R) : vec :=
  let a2 := WGS84_a ^ 2 in
  let b2 := WGS84_b ^ 2 in
  let lat := radians lat in
  let lon := radians lon in
  let L := 1 / sqrt (a2 * cos lat ^ 2 + b2 * sin lat ^ 2) in
  Vec ((a2 * L + alt) * cos lat * cos lon) ((a2 * L + alt) * cos lat * sin lon) ((b2 * L + alt) * sin lat).
(** geo.py:57-81, geo.cc:45-60: latitude, longitude and altitude *)
Definition lla_from_ecef (x y z : R) : vec :=
  let a := WGS84_a in
  let b := WGS84_b in
  let ea := sqrt ((a ^ 2 - b ^ 2) / a ^ 2) in
  let eb := sqrt ((a ^ 2 - b ^ 2) / b ^ 2) in
  let p := sqrt (x ^ 2 + y ^ 2) in
  let theta := atan2 (z * a) (p * b) in
  let lon := atan2 y x in
  let lat := atan2 (z + eb ^ 2 * b * sin theta ^ 3) (p - ea ^ 2 * a * cos theta ^ 3) in
  let N := a / sqrt (1 - ea ^ 2 * sin lat ^ 2) in
  let alt := p / cos lat - N in
  Vec (degrees lat) (degrees lon) alt.

(** A 4x4 matrix with last row 0 0 0 1: its 3x3 part and its last column *)
Record affine := Affine { af_mat : mat; af_vec : vec }.
Definition affine_apply (T : affine) (x : vec) : vec := vadd (mvec (af_mat T) x) (af_vec T).
(** np.linalg.inv, Matrix4d::inverse *)
Definition affine_inverse (T : affine) : affine := Affine (inv_rot (af_mat T)) (inv_tr (af_mat T) (af_vec T)).
(** geo.py:84-108, geo.cc:72-84 *)
Definition ecef_from_topocentric_transform (lat lon alt : R) : affine :=
  let sa := sin (radians lat) in
  let ca := cos (radians lat) in
  let so := sin (radians lon) in
  let co := cos (radians lon) in
  Affine (Mat (- so) (- sa * co) (ca * co)
              co (- sa * so) (ca * so)
              0 ca sa) (ecef_from_lla lat lon alt).
(** geo.py:178-206, geo.cc:128-132 *)
Definition topocentric_from_lla (lat lon alt reflat reflon refalt : R) : vec :=
  let T := affine_inverse (ecef_from_topocentric_transform reflat reflon refalt) in
  affine_apply T (ecef_from_lla lat lon alt).
(** geo.py:230-244, geo.cc:137-140 *)
Definition lla_from_topocentric (x y z reflat reflon refalt : R) : vec :=
  let e := affine_apply (ecef_from_topocentric_transform reflat reflon refalt) (Vec x y z) in
  lla_from_ecef (vx e) (vy e) (vz e).
(** geo.py:257-278, geo.cc:151-155 *)
Definition gps_distance (p q : R * R) : R :=
  let e1 := ecef_from_lla p.1 p.2 0 in
  let e2 := ecef_from_lla q.1 q.2 0 in
  sqrt ((vx e1 - vx e2) ^ 2 + (vy e1 - vy e2) ^ 2 + (vz e1 - vz e2) ^ 2).
