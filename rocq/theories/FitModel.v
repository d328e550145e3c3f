(** Model of the fit of similarity transformations to point pairs: /repo/opensfm/transformations.py:942-1110 (affine_matrix_from_points with
    shear=False and usesvd=True, superimposition_matrix) in dimensions 3 and 2, and /repo/opensfm/multiview.py:214-253
    (fit_similarity_transform), 121-131 (decompose_similarity_transform), in exact real arithmetic. numpy.linalg.svd is a parameter: a function
    from a matrix to its factors (U, the singular values, V transposed). A result with entries that are not finite is None.
    The homogeneous (n+1)x(n+1) matrix is its block and its last column: its last row is always 0 .. 0 1. *)
From stdpp Require Import prelude.
From Coq Require Import Reals.
From Verif Require Import Base Lin TriangModel.
Local Open Scope R_scope.

Definition sumR (l : list R) : R := foldr Rplus 0 l.
(** numpy.mean(v, axis=1) of the matrix whose columns are the points *)
Definition vsum (l : list vec) : vec := foldr vadd v0 l.
Definition vmean (l : list vec) : vec := vscale (/ INR (length l)) (vsum l).
(** 998-1005: v += t.reshape(ndims, 1) with t = -numpy.mean(v, axis=1) *)
Definition centred (l : list vec) : list vec := (fun p => vadd p (vopp (vmean l))) <$> l.
(** numpy.dot(v1, v0.T) *)
Definition covariance (v1 v0 : list vec) : mat := foldr madd mzero (zip_with outer v1 v0).
(** 1051-1053: numpy.sum(v * v) *)
Definition spread (l : list vec) : R := sumR ((fun p => dot p p) <$> l).
Definition svd_of := mat -> mat * (R * R * R) * mat.
(** u[:, 2] and vh[2, :] *)
Definition last_column (u : mat) : vec := Vec (m13 u) (m23 u) (m33 u).
Definition last_row (vh : mat) : vec := Vec (m31 vh) (m32 vh) (m33 vh).
(** 1018-1029: the rotation from the singular value decomposition of the covariance *)
Definition kabsch (svd : svd_of) (m : mat) : mat :=
  let '(u, _, vh) := svd m in
  let r := mmul u vh in
  if Rlt_dec (det r) 0 then madd r (mscale (-1) (outer (last_column u) (vscale 2 (last_row vh)))) else r.
(** 942-1058 with ndims = 3, shear = False, usesvd = True *)
Definition affine_matrix_from_points (svd : svd_of) (scale : bool) (v0 v1 : list vec) : res (option (mat * vec)) :=
  if (length v0 <? 3)%nat || negb (length v0 =? length v1)%nat then Err ValueError
  else
    let t0 := vopp (vmean v0) in let t1 := vopp (vmean v1) in
    let w0 := centred v0 in let w1 := centred v1 in
    let r := kabsch svd (covariance w1 w0) in
    if scale && (if Req_EM_T (spread w0) 0 then true else false) then Ok None
    else
      let m := if scale then mscale (sqrt (spread w1 / spread w0)) r else r in
      (** inv(M1) . M . M0: the block is M, the column M t0 - t1 *)
      Ok (Some (m, vsub (mvec m t0) t1)).
(** 1108-1110 *)
Definition superimposition_matrix (svd : svd_of) (v0 v1 : list vec) (scale : bool) : res (option (mat * vec)) :=
  affine_matrix_from_points svd scale v0 v1.
(** multiview.py:121-131 and align.py:224-226 in dimension 3; [x ** (1/3)] is not a number for x < 0 *)
Definition cube_root (x : R) : R := if Req_EM_T x 0 then 0 else Rpower x (1 / 3).
Definition decompose_similarity_transform (T : mat * vec) : option (R * mat * vec) :=
  if Rlt_dec 0 (det T.1) then let s := cube_root (det T.1) in Some (s, mscale (/ s) T.1, T.2) else None.

(** Dimension 2 *)
Notation vec2 := (R * R)%type (only parsing).
Record mat2 := Mat2 { a11 : R; a12 : R; a21 : R; a22 : R }.
Definition vadd2 (p q : vec2) : vec2 := (p.1 + q.1, p.2 + q.2).
Definition vsub2 (p q : vec2) : vec2 := (p.1 - q.1, p.2 - q.2).
Definition vscale2 (s : R) (p : vec2) : vec2 := (s * p.1, s * p.2).
Definition dot2 (p q : vec2) : R := p.1 * q.1 + p.2 * q.2.
Definition mvec2 (m : mat2) (p : vec2) : vec2 := (a11 m * p.1 + a12 m * p.2, a21 m * p.1 + a22 m * p.2).
Definition mmul2 (a b : mat2) : mat2 :=
  Mat2 (a11 a * a11 b + a12 a * a21 b) (a11 a * a12 b + a12 a * a22 b) (a21 a * a11 b + a22 a * a21 b) (a21 a * a12 b + a22 a * a22 b).
Definition madd2 (a b : mat2) : mat2 := Mat2 (a11 a + a11 b) (a12 a + a12 b) (a21 a + a21 b) (a22 a + a22 b).
Definition mscale2 (s : R) (m : mat2) : mat2 := Mat2 (s * a11 m) (s * a12 m) (s * a21 m) (s * a22 m).
Definition det2 (m : mat2) : R := a11 m * a22 m - a12 m * a21 m.
Definition outer2 (p q : vec2) : mat2 := Mat2 (p.1 * q.1) (p.1 * q.2) (p.2 * q.1) (p.2 * q.2).
Definition vsum2 (l : list vec2) : vec2 := foldr vadd2 (0, 0) l.
Definition vmean2 (l : list vec2) : vec2 := vscale2 (/ INR (length l)) (vsum2 l).
Definition centred2 (l : list vec2) : list vec2 := (fun p => vsub2 p (vmean2 l)) <$> l.
Definition covariance2 (v1 v0 : list vec2) : mat2 := foldr madd2 (Mat2 0 0 0 0) (zip_with outer2 v1 v0).
Definition spread2 (l : list vec2) : R := sumR ((fun p => dot2 p p) <$> l).
(** numpy.linalg.svd of a 2x2 matrix given by its rows *)
Definition svd2_of := vec2 * vec2 -> (vec2 * vec2) * (R * R) * (vec2 * vec2).
Definition rows2 (r : vec2 * vec2) : mat2 := Mat2 r.1.1 r.1.2 r.2.1 r.2.2.
(** transformations.py:1018-1029 with ndims = 2 *)
Definition kabsch2 (svd : svd2_of) (m : mat2) : mat2 :=
  let '(u, _, vh) := svd ((a11 m, a12 m), (a21 m, a22 m)) in
  let u := rows2 u in let vh := rows2 vh in
  let r := mmul2 u vh in
  if Rlt_dec (det2 r) 0 then madd2 r (mscale2 (-1) (outer2 (a12 u, a22 u) (vscale2 2 (a21 vh, a22 vh)))) else r.
(** transformations.py:942-1058 with ndims = 2, shear = False *)
Definition affine_matrix_from_points_2d (svd : svd2_of) (scale : bool) (v0 v1 : list vec2) : res (option (mat2 * vec2)) :=
  if (length v0 <? 2)%nat || negb (length v0 =? length v1)%nat then Err ValueError
  else
    let w0 := centred2 v0 in let w1 := centred2 v1 in
    let r := kabsch2 svd (covariance2 w1 w0) in
    if scale && (if Req_EM_T (spread2 w0) 0 then true else false) then Ok None
    else
      let m := if scale then mscale2 (sqrt (spread2 w1 / spread2 w0)) r else r in
      Ok (Some (m, vadd2 (mvec2 m (vscale2 (-1) (vmean2 v0))) (vmean2 v1))).

(** multiview.py:231-233: the indices of the points that T brings nearer than the threshold (none when T is not finite) *)
Definition fit_error (T : mat * vec) (p : vec * vec) : R := norm (vsub p.2 (vadd (mvec T.1 p.1) T.2)).
Definition inliers_under (T : option (mat * vec)) (pts : list (vec * vec)) (threshold : R) : list nat :=
  match T with
  | None => []
  | Some T => (fun ip => ip.1) <$> List.filter (fun ip => if Rlt_dec (fit_error T ip.2) threshold then true else false) (zip (seq 0 (length pts)) pts)
  end.
(** p[rnd, :] *)
Definition rows (pts : list (vec * vec)) (ids : list nat) : list (vec * vec) := omap (fun i => pts !! i) ids.
Definition fit_rows (svd : svd_of) (pts : list (vec * vec)) (ids : list nat) : res (option (mat * vec)) :=
  affine_matrix_from_points svd true (fst <$> rows pts ids) (snd <$> rows pts ids).
(** multiview.py:224-236: one iteration with the permutation [rnd] *)
Definition fit_step (svd : svd_of) (pts : list (vec * vec)) (threshold : R) (best : option (option (mat * vec)) * list nat) (rnd : list nat)
  : res (option (option (mat * vec)) * list nat) :=
  try T := fit_rows svd pts (take 3 rnd) in
  let inl := inliers_under T pts threshold in
  if (length best.2 <=? length inl)%nat then Ok (Some T, inl) else Ok best.
Fixpoint fit_loop (svd : svd_of) (pts : list (vec * vec)) (threshold : R) (draws : list (list nat)) (best : option (option (mat * vec)) * list nat)
  : res (option (option (mat * vec)) * list nat) :=
  match draws with
  | [] => Ok best
  | rnd :: draws => try best := fit_step svd pts threshold best rnd in fit_loop svd pts threshold draws best
  end.
(** multiview.py:214-253 with dim = 3. [draws] are the random permutations of the indices, one per iteration. The first component of the result
    is [None] for the placeholder np.array((3, 4)) that is returned when there is no iteration. Here [len(best_inliers) > dim + 3]. *)
Definition fit_similarity_transform (svd : svd_of) (draws : list (list nat)) (p1 p2 : list vec) (threshold : R)
  : res (option (option (mat * vec)) * list nat) :=
  if negb (length p1 =? length p2)%nat then Err AssertionError
  else
    let pts := zip p1 p2 in
    try best := fit_loop svd pts threshold draws (None, []) in
    if (3 + 3 <? length best.2)%nat then
      try T := fit_rows svd pts best.2 in Ok (Some T, inliers_under T pts threshold)
    else Ok best.
