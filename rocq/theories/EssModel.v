(** Model of /repo/opensfm/src/geometry/relative_pose.h:12-82 and src/relative_pose.cc:5-18 (the relative pose from an essential matrix), of
    essential.h:63-72, 163-192 and src/essential.cc:158-172 (essential matrices from many points) and of foundation/numeric.h:20-43, in exact
    arithmetic. Singular value decompositions are parameters. *)
From stdpp Require Import prelude.
From Coq Require Import Reals.
From Verif Require Import Base Lin TriangModel FitModel P3pModel.
Local Open Scope R_scope.

(** relative_pose.h:21-28: the last column or row times -1 when the determinant is negative *)
Definition flip_column (u : mat) : mat := if Rlt_dec (det u) 0 then Mat (m11 u) (m12 u) (- m13 u) (m21 u) (m22 u) (- m23 u) (m31 u) (m32 u) (- m33 u) else u.
Definition flip_row (vt : mat) : mat := if Rlt_dec (det vt) 0 then Mat (m11 vt) (m12 vt) (m13 vt) (m21 vt) (m22 vt) (m23 vt) (- m31 vt) (- m32 vt) (- m33 vt) else vt.
(** 30-31 *)
Definition W : mat := Mat 0 (-1) 0 1 0 0 0 0 1.
(** 38-56: the four pairs of a rotation and a translation, in the order they are tried *)
Definition decompositions (svd : svd_of) (essential : mat) : list (mat * vec) :=
  let '(u, _, vh) := svd essential in
  let U := flip_column u in let Vt := flip_row vh in
  translation ← [normalized (last_column U); normalized (vopp (last_column U))];
  rotation ← [mmul U (mmul W Vt); mmul U (mmul (mT W) Vt)];
  [(rotation, translation)].
(** 58-73: what one sample adds to the score *)
Definition sample_score (pose : mat * vec) (s : vec * vec) : R :=
  let '(rotation, translation) := pose in
  match TriangulateTwoBearingsMidpointSolve (v0, s.1) (vopp (mvec (mT rotation) translation), mvec (mT rotation) s.2) with
  | None => 0
  | Some point =>
      let projected_x := normalized point in
      let projected_y := normalized (vadd (mvec rotation point) translation) in
      (dot projected_x s.1 + dot projected_y s.2) * / 2
  end.
Definition score (pose : mat * vec) (samples : list (vec * vec)) : R := foldl (fun acc s => acc + sample_score pose s) 0 samples.
(** the conversion of a double to an int, where it fits *)
Definition truncated (x : R) : R := if Rlt_dec x 0 then - IZR (Int_part (- x)) else IZR (Int_part x).
(** 37, 75-80: best_decomposition is a std::pair<int, ...>, so the score is truncated when it is kept *)
Fixpoint best_decomposition (scored : list (R * (mat * vec))) (best : R * option (mat * vec)) : R * option (mat * vec) :=
  match scored with
  | [] => best
  | (s, pose) :: scored => best_decomposition scored (if Rlt_dec best.1 s then (truncated s, Some pose) else best)
  end.
(** 12-82; None: the matrix returned was never written *)
Definition RelativePoseFromEssential (svd : svd_of) (essential : mat) (samples : list (vec * vec)) : option (mat * vec) :=
  (best_decomposition ((fun pose => (score pose samples, pose)) <$> decompositions svd essential) (0, None)).2.
(** relative_pose.cc:5-18 *)
Definition relative_pose_from_essential (svd : svd_of) (essential : mat) (x1 x2 : list vec) : res (option (mat * vec)) :=
  if (length x1 =? length x2)%nat then Ok (RelativePoseFromEssential svd essential (zip x1 x2)) else Err RuntimeError.

(** essential.h:63-72: a row of nine numbers as a 3x3 matrix, three numbers after three *)
Definition epipolar_row (s : vec * vec) : mat := outer s.2 s.1.
(** numeric.h:20-43 for nine columns: [last] has the last two singular values and the last right singular vector of the matrix of the rows. A ratio 0/0 is
    not above anything, a ratio to 0 is above everything *)
Definition SolveAX0 (last : list mat -> R * R * mat) (rows : list mat) : option mat :=
  if (length rows <? 9)%nat then None
  else
    let '(s8, s9, v) := last rows in
    if Req_EM_T s9 0 then if Req_EM_T s8 0 then None else Some v
    else if Rlt_dec 4 (s8 / s9) then Some v else None.
(** essential.h:178-188 *)
Definition enforce (svd : svd_of) (E : mat) : mat :=
  let '(u, (a, b, _), vh) := svd E in mmul u (mmul (Mat ((a + b) / 2) 0 0 0 ((a + b) / 2) 0 0 0 0) vh).
(** 163-192 *)
Definition EssentialNPoints (svd : svd_of) (last : list mat -> R * R * mat) (samples : list (vec * vec)) : list mat :=
  match SolveAX0 last (epipolar_row <$> samples) with
  | Some E => [if (8 <? length samples)%nat then enforce svd E else E]
  | None => []
  end.
(** essential.cc:158-172 *)
Definition essential_n_points (svd : svd_of) (last : list mat -> R * R * mat) (x1 x2 : list vec) : res (list mat) :=
  if (length x1 =? length x2)%nat then Ok (EssentialNPoints svd last (zip x1 x2)) else Err RuntimeError.
