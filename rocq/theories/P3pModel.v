(** Model of /repo/opensfm/src/geometry/absolute_pose.h, src/absolute_pose.cc (poses of a camera from points and their bearings), of
    /repo/opensfm/src/foundation/src/numeric.cc (quartic equations, closest rotations) and of the rotation of transform.h, in exact
    arithmetic. Where the code computes with numbers that are not finite the model has None. Eigen's singular value decomposition is a
    parameter, as in FitModel. *)
From stdpp Require Import prelude.
From Coq Require Import Reals.
From Verif Require Import Lin TriangModel FitModel Cpx.
Local Open Scope R_scope.

(** *** Quartic equations *)
(** std::numeric_limits<double>::epsilon() *)
Definition epsilon : R := / 2 ^ 52.
Definition quartic : Type := R * R * R * R * R.
(** numeric.cc:26-80: the complex roots; their real parts are what is returned. [coefficients] from the constant one. The outer None: false is returned *)
Definition ferrari (b c d e : R) : option (cpx * cpx * cpx * cpx) :=
  let Q1 := c * c - 3 * b * d + 12 * e in
  let Q2 := 2 * c * c * c - 9 * b * c * d + 27 * d * d + 27 * b * b * e - 72 * c * e in
  let Q3 := 8 * b * c - 16 * d - 2 * b * b * b in
  let Q4 := 3 * b * b - 8 * c in
  let Q5 := ccbrt (cadd (cr (Q2 / 2)) (csqrt (cr (Q2 * Q2 / 4 - Q1 * Q1 * Q1)))) in
  let Q6 := cdiv (cadd (cdiv (cr Q1) Q5) Q5) (cr 3) in
  let Q7 := cmul (cr 2) (csqrt (cadd (cr (Q4 / 12)) Q6)) in
  let S1 := csqrt (csub (csub (cr (4 * Q4 / 6)) (cmul (cr 4) Q6)) (cdiv (cr Q3) Q7)) in
  let S2 := csqrt (cadd (csub (cr (4 * Q4 / 6)) (cmul (cr 4) Q6)) (cdiv (cr Q3) Q7)) in
  if Req_EM_T (cabs Q5) 0 then None else if Req_EM_T (cabs Q7) 0 then None
  else Some (cdiv (csub (csub (cr (- b)) Q7) S1) (cr 4), cdiv (cadd (csub (cr (- b)) Q7) S1) (cr 4),
             cdiv (csub (cadd (cr (- b)) Q7) S2) (cr 4), cdiv (cadd (cadd (cr (- b)) Q7) S2) (cr 4)).
Definition SolveQuartic (coefficients : quartic) : option (option (list R)) :=
  let '(c0, c1, c2, c3, c4) := coefficients in
  let a := if Rlt_dec epsilon (Rabs c4) then c4 else epsilon in
  let b := c3 / a in let c := c2 / a in let d := c1 / a in let e := c0 / a in
  let small x := if Rlt_dec (Rabs x) epsilon then true else false in
  if small (c * c - 3 * b * d + 12 * e) && small (2 * c * c * c - 9 * b * c * d + 27 * d * d + 27 * b * b * e - 72 * c * e) &&
     small (8 * b * c - 16 * d - 2 * b * b * b) && small (3 * b * b - 8 * c) then None
  else Some ((fun '(z1, z2, z3, z4) => [re z1; re z2; re z3; re z4]) <$> ferrari b c d e).
(** 85-102: evaluation by Horner's rule, the derivative *)
Definition quartic_value (q : quartic) (x : R) : R := let '(c0, c1, c2, c3, c4) := q in (((c4 * x + c3) * x + c2) * x + c1) * x + c0.
Definition quartic_derivative (q : quartic) (x : R) : R := let '(c0, c1, c2, c3, c4) := q in 4 * c4 * (x * x * x) + 3 * c3 * (x * x) + 2 * c2 * x + c1.
(** newton_raphson.h:74-91 on a number; None: a division by 0 *)
Fixpoint newton (f df : R -> R) (iterations : nat) (tol x : R) : option R :=
  match iterations with
  | O => Some x
  | S n => if Req_EM_T (df x) 0 then None else let decr := f x / df x in if Rlt_dec (Rabs decr) tol then Some x else newton f df n tol (x - decr)
  end.
(** 82-112 *)
Definition RefineQuarticRoots (q : quartic) (roots : list R) : list (option R) := newton (quartic_value q) (quartic_derivative q) 5 (/ 10 ^ 20) <$> roots.

(** *** Rotations *)
Definition transposed_svd (svd : svd_of) (m : mat) : mat * mat := let '(u, _, vh) := svd m in (u, vh).
(** numeric.cc:11-19, and the end of transform.h:22-43 *)
Definition ClosestRotationMatrix (svd : svd_of) (m : mat) : mat :=
  let '(u, vh) := transposed_svd svd m in let r := mmul u vh in if Rlt_dec (det r) 0 then mscale (-1) r else r.
(** absolute_pose.cc:3-18 *)
Definition RotationMatrixAroundAxis (cos_theta sin_theta : R) (v : vec) : mat :=
  let one_minus_cos_theta := 1 - cos_theta in
  Mat (cos_theta + vx v * vx v * one_minus_cos_theta) (vz v * sin_theta + vx v * vy v * one_minus_cos_theta) (- vy v * sin_theta + vx v * vz v * one_minus_cos_theta)
      (- vz v * sin_theta + vx v * vy v * one_minus_cos_theta) (cos_theta + vy v * vy v * one_minus_cos_theta) (vx v * sin_theta + vy v * vz v * one_minus_cos_theta)
      (vy v * sin_theta + vx v * vz v * one_minus_cos_theta) (- vx v * sin_theta + vy v * vz v * one_minus_cos_theta) (cos_theta + vz v * vz v * one_minus_cos_theta).
(** the matrix with the given columns *)
Definition columns (a b c : vec) : mat := Mat (vx a) (vx b) (vx c) (vy a) (vy b) (vy c) (vz a) (vz b) (vz c).
Definition Sign (a : R) : R := if Rlt_dec a 0 then -1 else 1.

(** *** Three points, absolute_pose.h:14-123. A sample is a bearing and a point; a pose (R, t) takes a point p to R p + t *)
Definition sample : Type := vec * vec.
Record p3p := P3p { q_k1 : vec; q_k3 : vec; q_k3_second : vec; q_sigma : R; q_k3_b3 : R; g1 : R; g2 : R; g3 : R; g4 : R; g5 : R; g6 : R; g7 : R }.
(** 21-74; None: nothing is returned *)
Definition p3p_setup (s1 s2 s3 : sample) : option p3p :=
  let '(b1, p1) := s1 in let '(b2, p2) := s2 in let '(b3, p3) := s3 in
  let k1 := normalized (vsub p1 p2) in let k3 := normalized (cross b1 b2) in
  let u1 := vsub p1 p3 in let u2 := vsub p2 p3 in let v1 := cross b1 b3 in let v2 := cross b2 b3 in
  let u1_k1 := cross u1 k1 in let sigma := norm u1_k1 in
  if Req_EM_T sigma 0 then None else
  let k3_second := vscale (/ sigma) u1_k1 in
  let k3_b3 := dot k3 b3 in
  if Req_EM_T k3_b3 0 then None else
  let b1_b2 := norm (cross b1 b2) in
  let f11 := sigma * k3_b3 in let f21 := sigma * dot b1 b2 * k3_b3 in let f22 := sigma * k3_b3 * b1_b2 in let f13 := sigma * dot v1 k3 in let f23 := sigma * dot v2 k3 in
  let f24 := dot u2 k1 * k3_b3 * b1_b2 in let f15 := - dot u1 k1 * k3_b3 in let f25 := - dot u2 k1 * dot b1 b2 * k3_b3 in
  Some (P3p k1 k3 k3_second sigma k3_b3 (f13 * f22) (f13 * f25 - f15 * f23) (f11 * f23 - f13 * f21) (- f13 * f24) (f11 * f22) (f11 * f25 - f15 * f21) (- f15 * f24)).
(** 77-84 *)
Definition p3p_quartic (q : p3p) : quartic :=
  let alpha4 := g5 q * g5 q + g1 q * g1 q + g3 q * g3 q in
  let alpha3 := 2 * (g5 q * g6 q + g1 q * g2 q + g3 q * g4 q) in
  let alpha2 := g6 q * g6 q + 2 * g5 q * g7 q + g2 q * g2 q + g4 q * g4 q - g1 q * g1 q - g3 q * g3 q in
  let alpha1 := 2 * (g6 q * g7 q - g1 q * g2 q - g3 q * g4 q) in
  let alpha0 := g7 q * g7 q - g2 q * g2 q - g4 q * g4 q in
  (alpha0, alpha1, alpha2, alpha3, alpha4).
(** 94-121: the pose of a root; None: not numbers *)
Definition p3p_pose (svd : svd_of) (b1 b3 p3 : vec) (q : p3p) (root : R) : option (mat * vec) :=
  let c_barre := columns (q_k1 q) (q_k3_second q) (cross (q_k1 q) (q_k3_second q)) in
  let c_barre_barre := mT (columns b1 (q_k3 q) (cross b1 (q_k3 q))) in
  let denominator := g5 q * (root * root) + g6 q * root + g7 q in
  if Rlt_dec (1 - root * root) 0 then None else if Req_EM_T denominator 0 then None else
  let sin_theta_1 := Sign (q_k3_b3 q) * sqrt (1 - root * root) in
  let t := sin_theta_1 / denominator in
  let cos_theta_3 := t * (g1 q * root + g2 q) in let sin_theta_3 := t * (g3 q * root + g4 q) in
  let c1 := RotationMatrixAroundAxis root sin_theta_1 (Vec 1 0 0) in
  let c2 := RotationMatrixAroundAxis cos_theta_3 sin_theta_3 (Vec 0 1 0) in
  let rotation := ClosestRotationMatrix svd (mmul (mmul (mmul c_barre c1) c2) c_barre_barre) in
  let translation := vsub p3 (vscale (q_sigma q * sin_theta_1 / q_k3_b3 q) (mvec rotation b3)) in
  Some (mT rotation, vopp (mvec (mT rotation) translation)).
(** the whole; an item None is a pose of values that are not numbers *)
Definition AbsolutePoseThreePoints (svd : svd_of) (s1 s2 s3 : sample) : list (option (mat * vec)) :=
  match p3p_setup s1 s2 s3 with
  | None => []
  | Some q =>
      match SolveQuartic (p3p_quartic q) with
      | None => []
      | Some None => [None; None; None; None]
      | Some (Some roots) => (fun r => r ≫= p3p_pose svd s1.1 s3.1 s3.2 q) <$> RefineQuarticRoots (p3p_quartic q) roots
      end
  end.
(** absolute_pose.cc:21-32: the bearings are made unit vectors first *)
Definition absolute_pose_three_points (svd : svd_of) (s1 s2 s3 : sample) : list (option (mat * vec)) :=
  AbsolutePoseThreePoints svd (normalized s1.1, s1.2) (normalized s2.1, s2.2) (normalized s3.1, s3.2).
