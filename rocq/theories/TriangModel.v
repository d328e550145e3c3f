(** Model of the triangulation of points: /repo/opensfm/src/geometry/triangulation.h and src/geometry/src/triangulation.cc, in exact
    real arithmetic. What is not a number (0 / 0, the inverse of a singular matrix) is None, and a comparison with it is false.
    The rows of the matrices of centers and bearings are given as a list of pairs: the code asserts that there are as many of both. *)
From stdpp Require Import prelude.
From Coq Require Import Reals.
From Verif Require Import Base Lin.
Local Open Scope R_scope.

(** triangulation.cc:67-74 *)
Definition AngleBetweenVectors (u v : vec) : option R :=
  let n := sqrt (dot u u * dot v v) in
  if Req_EM_T n 0 then None
  else
    let c := dot u v / n in
    if Rle_dec 1 (Rabs c) then Some 0 else Some (acos c).
(** Comparisons, false for NaN *)
Definition ge_opt (a : option R) (b : R) : bool := match a with Some x => if Rle_dec b x then true else false | None => false end.
Definition le_opt (a : option R) (b : R) : bool := match a with Some x => if Rle_dec x b then true else false | None => false end.
Definition gt_opt (a : option R) (b : R) : bool := match a with Some x => if Rlt_dec b x then true else false | None => false end.

(** bearings.row(i).transpose() * bearings.row(i) *)
Definition outer (u v : vec) : mat :=
  Mat (vx u * vx v) (vx u * vy v) (vx u * vz v) (vy u * vx v) (vy u * vy v) (vy u * vz v) (vz u * vx v) (vz u * vy v) (vz u * vz v).
Definition mzero : mat := Mat 0 0 0 0 0 0 0 0 0.
(** Eigen's inverse of a 3x3 matrix is by its cofactors; the inverse of a singular one is not finite. *)
Definition inverse (m : mat) : option mat := if Req_EM_T (det m) 0 then None else Some (minv m).
(** triangulation.h:60-84; rays is the list of (center, bearing) *)
Definition TriangulateBearingsMidpointSolve (rays : list (vec * vec)) : option vec :=
  let nviews := INR (length rays) in
  let BBt := fold_left (fun acc r => madd acc (outer r.2 r.2)) rays mzero in
  let BBtA := fold_left (fun acc r => vadd acc (mvec (outer r.2 r.2) r.1)) rays v0 in
  let A := fold_left (fun acc r => vadd acc r.1) rays v0 in
  match inverse (madd (mscale nviews mI) (mscale (-1) BBt)) with
  | None => None
  | Some Cinv => Some (vsub (vscale (/ nviews) (mvec (madd mI (mmul BBt Cinv)) A)) (mvec Cinv BBtA))
  end.

(** The two nested loops of 134-143 (and 84-95): whether two of the vectors make an angle in the range. The loops stop at the first
    pair found. *)
Fixpoint angle_ok (min_angle : R) (before : list vec) (vs : list vec) : bool :=
  match vs with
  | [] => false
  | v :: vs' => existsb (fun w => ge_opt (AngleBetweenVectors v w) min_angle && le_opt (AngleBetweenVectors v w) (PI - min_angle)) before
                || angle_ok min_angle (before ++ [v]) vs'
  end.
(** triangulation.cc:121-163. None: (false, _); Some X: (true, X), where X may not be a number *)
Definition lt_opt (a : option R) (b : R) : bool := match a with Some x => if Rlt_dec x b then true else false | None => false end.
Definition bad_ray (min_depth : R) (X : option vec) (r : vec * vec * R) : bool :=
  match X with
  | None => false
  | Some X => let projected := vsub X r.1.1 in
              gt_opt (AngleBetweenVectors projected r.1.2) r.2 || lt_opt (Some (dot projected r.1.2)) min_depth
  end.
Definition TriangulateBearingsMidpoint (rays : list (vec * vec)) (threshold_list : list R) (min_angle min_depth : R) : option (option vec) :=
  if decide (length threshold_list < length rays)%nat then None
  else if negb (angle_ok min_angle [] (map snd rays)) then None
  else
    let X := TriangulateBearingsMidpointSolve rays in
    if existsb (bad_ray min_depth X) (zip rays threshold_list) then None else Some X.

(** triangulation.h:86-108: 2x2 inverse by cofactors *)
Definition TriangulateTwoBearingsMidpointSolve (r1 r2 : vec * vec) : option vec :=
  let translation := vsub r2.1 r1.1 in
  let b0 := dot translation r1.2 in let b1 := dot translation r2.2 in
  let a00 := dot r1.2 r1.2 in let a10 := dot r1.2 r2.2 in let a01 := - a10 in let a11 := - dot r2.2 r2.2 in
  let eps := / 10 ^ 10 in
  let d := a00 * a11 - a01 * a10 in
  if Rlt_dec (- eps) d then
    if Rlt_dec d eps then None
    else
      let l0 := (a11 * b0 - a01 * b1) / d in let l1 := (a00 * b1 - a10 * b0) / d in
      let x1 := vadd r1.1 (vscale l0 r1.2) in let x2 := vadd r2.1 (vscale l1 r2.2) in
      Some (vscale (/ 2) (vadd x1 x2))
  else
    let l0 := (a11 * b0 - a01 * b1) / d in let l1 := (a00 * b1 - a10 * b0) / d in
    let x1 := vadd r1.1 (vscale l0 r1.2) in let x2 := vadd r2.1 (vscale l1 r2.2) in
    Some (vscale (/ 2) (vadd x1 x2)).
(** 165-178; the loop asks for as many rows in both matrices *)
Definition TriangulateTwoBearingsMidpointMany (bearings1 bearings2 : list vec) (rotation : mat) (translation : vec) : list (option vec) :=
  zip_with (fun b1 b2 => TriangulateTwoBearingsMidpointSolve (v0, b1) (translation, mvec rotation b2)) bearings1 bearings2.

(** 180-208. Eigen's normalized() returns the vector itself when it is zero. *)
Definition normalized (v : vec) : vec := if Req_EM_T (dot v v) 0 then v else vscale (/ sqrt (dot v v)) v.
(** The entry (i, j) of the result, for bearings b1 of row i and b2 of row j *)
Definition EpipolarAngle (rotation : mat) (translation b1 b2 : vec) : R :=
  let translation_normalized := normalized translation in
  let b2_world := mvec rotation b2 in
  let epi1 := normalized (cross translation_normalized b1) in
  let epi2 := normalized (cross translation_normalized b2_world) in
  let symmetric_epi := (Rabs (dot epi1 b2_world) + Rabs (dot b1 epi2)) / 2 in
  PI / 2 - acos symmetric_epi.
Definition EpipolarAngleTwoBearingsMany (bearings1 bearings2 : list vec) (rotation : mat) (translation : vec) : list (list R) :=
  map (fun b1 => map (fun b2 => EpipolarAngle rotation translation b1 b2) bearings2) bearings1.

(** ** Direct linear transform *)
(** A camera Rt = [R | t] and the vectors it is applied to *)
Definition rt := (mat * vec)%type.
Definition vec4 := (vec * R)%type.
Definition apply_rt (Rt : rt) (X : vec4) : vec := vadd (mvec Rt.1 X.1) (vscale X.2 Rt.2).
(** The two rows of the matrix A for one view times a vector (104-109) *)
Definition dlt_rows (r : rt * vec) (X : vec4) : list R :=
  let p := apply_rt r.1 X in let b := r.2 in
  [vx b * vz p - vz b * vx p; vy b * vz p - vz b * vy p].
Definition dlt_residual (rays : list (rt * vec)) (X : vec4) : R :=
  foldr (fun r acc => foldr (fun x a => x * x + a) 0 (dlt_rows r X) + acc) 0 rays.
Definition norm4 (X : vec4) : R := dot X.1 X.1 + X.2 * X.2.
(** 98-119: the last column of V of the singular value decomposition of A: a unit vector minimising |A v|. Which one of them (the sign, or
    any of the minimisers when there are several) is up to the decomposition: the relation holds of all. *)
Definition TriangulateBearingsDLTSolve (rays : list (rt * vec)) (X : vec4) : Prop :=
  norm4 X = 1 /\ forall Y, norm4 Y = 1 -> dlt_residual rays X <= dlt_residual rays Y.
(** 76-115, with the solution given by the decomposition; X /= X(3) is not finite when X(3) is 0 *)
Definition bad_view (threshold min_depth : R) (X : option vec) (r : rt * vec) : bool :=
  match X with
  | None => false
  | Some X => let projected := apply_rt r.1 (X, 1) in
              gt_opt (AngleBetweenVectors projected r.2) threshold || lt_opt (Some (dot projected r.2)) min_depth
  end.
Definition TriangulateBearingsDLT (solution : vec4) (rays : list (rt * vec)) (threshold min_angle min_depth : R) : option (option vec) :=
  if negb (angle_ok min_angle [] (map (fun r : rt * vec => mvec (mT r.1.1) r.2) rays)) then None
  else
    let X := if Req_EM_T solution.2 0 then None else Some (vscale (/ solution.2) solution.1) in
    if existsb (bad_view threshold min_depth X) rays then None else Some X.
