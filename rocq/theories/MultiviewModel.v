(** Model of the factorizations of camera matrices and homographies: /repo/opensfm/multiview.py:11-17, 42-104, 260-302, in exact real arithmetic. numpy's qr and svd are parameters. The shapes of the arrays are fixed: 3x3 matrices and 3x4 matrices given by their first three columns and the last. *)
From stdpp Require Import prelude.
From Coq Require Import Reals.
From Verif Require Import Base Lin FitModel.
Local Open Scope R_scope.

(** 42-47 *)
Definition P_from_KRt (K R : mat) (t : vec) : mat * vec := (mmul K R, mvec K t).
(** flipud, and [:, ::-1] *)
Definition flipud (a : mat) : mat := Mat (m31 a) (m32 a) (m33 a) (m21 a) (m22 a) (m23 a) (m11 a) (m12 a) (m13 a).
Definition fliplr (a : mat) : mat := Mat (m13 a) (m12 a) (m11 a) (m23 a) (m22 a) (m21 a) (m33 a) (m32 a) (m31 a).
Definition qr_of := mat -> mat * mat.
(** 83-104 *)
Definition rq (qr : qr_of) (a : mat) : mat * mat :=
  let '(q, r) := qr (mT (flipud a)) in
  let r := flipud (mT r) in
  let q := mT q in
  (fliplr r, flipud q).
Definition sign (x : R) : R := if Rlt_dec 0 x then 1 else if Rlt_dec x 0 then -1 else 0.
Definition diag (x y z : R) : mat := Mat x 0 0 0 y 0 0 0 z.
(** numpy.linalg.solve: LinAlgError (here RuntimeError) for a singular matrix *)
Definition solve (a : mat) (b : vec) : res vec := if Req_EM_T (det a) 0 then Err RuntimeError else Ok (mvec (minv a) b).
(** 50-80 *)
Definition KRt_from_P (qr : qr_of) (P : mat * vec) : res (mat * mat * vec) :=
  let '(k, r) := rq qr P.1 in
  let T := diag (sign (m11 k)) (sign (m22 k)) (sign (m33 k)) in
  let k := mmul k T in
  let r := mmul T r in
  try t := solve k P.2 in
  let '(r, t) := if Rlt_dec (det r) 0 then (mscale (-1) r, vopp t) else (r, t) in
  Ok (mscale (/ m33 k) k, r, t).

(** 11-17 for matrices with two columns, given by their rows: the last right singular vector; a parameter *)
Definition null_of := list (R * R) -> R * R.
(** 270 *)
Definition normalized_homography (h : mat) : mat := mscale (/ Rpower (det h) (1 / 3)) h.
(** 271-280 *)
Definition focal_equations (h : mat) : list (R * R) :=
  [(m11 h * m11 h + m12 h * m12 h - 1, m13 h * m13 h);
   (m11 h * m21 h + m12 h * m22 h, m13 h * m23 h);
   (m11 h * m31 h + m12 h * m32 h, m13 h * m33 h);
   (m21 h * m21 h + m22 h * m22 h - 1, m23 h * m23 h);
   (m21 h * m31 h + m22 h * m32 h, m23 h * m33 h);
   (m31 h * m31 h + m32 h * m32 h, m33 h * m33 h - 1)].
(** 260-283: None stands for not-a-number and infinity. [x ** (1.0 / 3.0)] is not a number for x < 0, and the division by 0 ** (1/3) gives no finite matrix *)
Definition focal_from_homography (nullspace : null_of) (h : mat) : option R :=
  if Rlt_dec 0 (det h) then
    let '(a, b) := nullspace (focal_equations (normalized_homography h)) in
    if Req_EM_T b 0 then None else if Rlt_dec (a / b) 0 then None else Some (sqrt (a / b))
  else None.
(** 297-302: the failure of svd to converge is left out *)
Definition project_to_rotation_matrix (svd : svd_of) (a : mat) : mat := let '(u, _, vt) := svd a in mmul u vt.
(** 286-294: linalg.inv raises for focal lengths of zero *)
Definition R_from_homography (svd : svd_of) (h : mat) (f1 f2 : R) : res mat :=
  let K1 := diag f1 f1 1 in
  let K2 := diag f2 f2 1 in
  if Req_EM_T (det K2) 0 then Err RuntimeError else Ok (project_to_rotation_matrix svd (mmul (mmul (minv K2) h) K1)).
