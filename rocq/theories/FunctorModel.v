(** Model of the differentiable functions of /repo/opensfm/src/geometry (functions.h, transformations_functions.h,
    camera_projections_functions.h, camera_distortions_functions.h, camera_instances.h) in exact real arithmetic.
    A C array is a list of reals (reading past its end gives 0), a jacobian is the list of its entries in row-major order,
    as it is stored. *)
From stdpp Require Import prelude.
From Coq Require Import Reals.
From Verif Require Import Base GeoModel.
Local Open Scope R_scope.

Notation "l .[ i ]" := (nth i l 0) (at level 2, left associativity, format "l .[ i ]").
Definition sum_n (n : nat) (f : nat -> R) : R := foldr Rplus 0 (map f (seq 0 n)).

(** functions.h:11-20 and the two members every functor has: Forward, and ForwardDerivatives<T, DERIV_PARAMS>, which gives
    both the value and the jacobian with respect to the inputs and, when DERIV_PARAMS, the parameters. *)
Record functor := Functor {
  InSize : nat; ParamSize : nat; OutSize : nat;
  Forward : list R -> list R -> list R;
  ForwardDerivatives : bool -> list R -> list R -> list R * list R }.
Definition Stride (f : functor) (deriv_params : bool) : nat := (if deriv_params then ParamSize f else 0) + InSize f.

(** functions.h:28-44: [jacobian1] is that of g (OutSize1 rows of Stride1), [jacobian2] that of f (OutSize2 rows of Stride2) *)
Definition ComposeDerivatives (deriv_params : bool) (OutSize1 Stride1 OutSize2 Stride2 ParamSize2 : nat) (jacobian1 jacobian2 : list R) : list R :=
  concat (map (fun i =>
    map (fun c => sum_n OutSize1 (fun k => jacobian2.[i * Stride2 + k] * jacobian1.[k * Stride1 + c])) (seq 0 Stride1) ++
    (if deriv_params then map (fun p => jacobian2.[i * Stride2 + (OutSize1 + p)]) (seq 0 ParamSize2) else []))
    (seq 0 OutSize2)).

(** functions.h:50-68: the functions of a composition, outermost first *)
Fixpoint ComposeStrides (deriv_params : bool) (fs : list functor) : nat :=
  match fs with
  | [] => 0
  | [f] => Stride f deriv_params
  | f :: fs' => (if deriv_params then ParamSize f else 0) + ComposeStrides deriv_params fs'
  end.
Fixpoint ComposeIndex (fs : list functor) : nat := match fs with [] => 0 | f :: fs' => ParamSize f + ComposeIndex fs' end.
(** functions.h:70-97 *)
Fixpoint ComposeForwardDerivatives (deriv_params : bool) (fs : list functor) (x params : list R) : list R * list R :=
  match fs with
  | [] => ([], [])
  | f1 :: fs' =>
      match fs' with
      | [] => ForwardDerivatives f1 deriv_params x params
      | f2 :: _ =>
          let '(tmp, sub_jacobian) := ComposeForwardDerivatives deriv_params fs' x params in
          let '(out, current_jacobian) := ForwardDerivatives f1 deriv_params tmp (drop (ComposeIndex fs') params) in
          (out, ComposeDerivatives deriv_params (OutSize f2) (ComposeStrides deriv_params fs') (OutSize f1) (Stride f1 deriv_params) (ParamSize f1)
                                   sub_jacobian current_jacobian)
      end
  end.
(** functions.h:99-111, of functions with their number of parameters; None is a result that is not a number (a division 0 / 0) *)
Fixpoint ComposeFunctions (fs : list (nat * (list R -> list R -> option (list R)))) (x params : list R) : option (list R) :=
  match fs with
  | [] => None
  | (_, f1) :: fs' =>
      match fs' with
      | [] => f1 x params
      | _ => match ComposeFunctions fs' x params with
             | None => None
             | Some tmp => f1 tmp (drop (foldr (fun f n => (f.1 + n)%nat) 0%nat fs') params)
             end
      end
  end.

(** ** transformations_functions.h *)
(** 14-48: focal, aspect ratio, cx, cy *)
Definition Affine_Forward (p a : list R) : list R := [a.[0] * p.[0] + a.[2]; a.[0] * a.[1] * p.[1] + a.[3]].
Definition Affine : functor := Functor 2 4 2 Affine_Forward
  (fun d p a => (Affine_Forward p a,
    [a.[0]; 0] ++ (if d then [p.[0]; 0; 1; 0] else []) ++
    [0; a.[0] * a.[1]] ++ (if d then [p.[1] * a.[1]; p.[1] * a.[0]; 0; 1] else []))).
Definition Affine_Backward (p a : list R) : list R := [(p.[0] - a.[2]) / a.[0]; (p.[1] - a.[3]) / (a.[1] * a.[0])].
(** 50-78 *)
Definition UniformScale_Forward (p s : list R) : list R := [s.[0] * p.[0]; s.[0] * p.[1]].
Definition UniformScale : functor := Functor 2 1 2 UniformScale_Forward
  (fun d p s => (UniformScale_Forward p s, [s.[0]; 0] ++ (if d then [p.[0]] else []) ++ [0; s.[0]] ++ (if d then [p.[1]] else []))).
Definition UniformScale_Backward (p s : list R) : list R := [p.[0] / s.[0]; p.[1] / s.[0]].
(** 80-104 *)
Definition Identity_Forward (p k : list R) : list R := [p.[0]; p.[1]].
Definition Identity : functor := Functor 2 0 2 Identity_Forward (fun d p k => (Identity_Forward p k, [1; 0; 0; 1])).
Definition Identity_Backward (p k : list R) : list R := [p.[0]; p.[1]].

(** numeric_limits<double>::epsilon() *)
Definition epsilon : R := / 2 ^ 52.
(** 106-145: rotation (angle-axis, camera to world) | translation *)
Definition Pose_Forward (point rt : list R) : list R :=
  let x := point.[0] - rt.[3] in let y := point.[1] - rt.[4] in let z := point.[2] - rt.[5] in
  let a := - rt.[0] in let b := - rt.[1] in let c := - rt.[2] in
  let cp_x := b * z - c * y in let cp_y := c * x - a * z in let cp_z := a * y - b * x in
  let theta2 := a * a + b * b + c * c in
  if Rlt_dec epsilon theta2 then
    let theta := sqrt theta2 in let cos_theta := cos theta in let sin_theta := sin theta / theta in
    let dot_pt_p := (a * x + b * y + c * z) * (1 - cos_theta) / theta2 in
    [x * cos_theta + sin_theta * cp_x + a * dot_pt_p; y * cos_theta + sin_theta * cp_y + b * dot_pt_p; z * cos_theta + sin_theta * cp_z + c * dot_pt_p]
  else [x + cp_x; y + cp_y; z + cp_z].

(** The arithmetic of a scalar type T: double, or Eigen::AutoDiffScalar<Vec3d> (a value and its three derivatives) *)
Record scalar (T : Type) := Scalar {
  s_of : R -> T; s_add : T -> T -> T; s_sub : T -> T -> T; s_mul : T -> T -> T; s_div : T -> T -> T; s_opp : T -> T;
  s_sqrt : T -> T; s_cos : T -> T; s_sin : T -> T; s_value : T -> R }.
Arguments s_of {T}. Arguments s_add {T}. Arguments s_sub {T}. Arguments s_mul {T}. Arguments s_div {T}. Arguments s_opp {T}.
Arguments s_sqrt {T}. Arguments s_cos {T}. Arguments s_sin {T}. Arguments s_value {T}.
Definition real_scalar : scalar R := Scalar R (fun x => x) Rplus Rminus Rmult Rdiv Ropp sqrt cos sin (fun x => x).
(** A dual number *)
Record dual := Dual { dv : R; d0 : R; d1 : R; d2 : R }.
Definition dual_lift (x : dual) (v k : R) : dual := Dual v (k * d0 x) (k * d1 x) (k * d2 x).
(** unsupported/Eigen/AutoDiff: AutoDiffScalar.h (not in /repo) *)
Definition dual_scalar : scalar dual := Scalar dual
  (fun x => Dual x 0 0 0)
  (fun x y => Dual (dv x + dv y) (d0 x + d0 y) (d1 x + d1 y) (d2 x + d2 y))
  (fun x y => Dual (dv x - dv y) (d0 x - d0 y) (d1 x - d1 y) (d2 x - d2 y))
  (fun x y => Dual (dv x * dv y) (d0 x * dv y + d0 y * dv x) (d1 x * dv y + d1 y * dv x) (d2 x * dv y + d2 y * dv x))
  (fun x y => Dual (dv x / dv y) ((d0 x * dv y - d0 y * dv x) / (dv y * dv y)) ((d1 x * dv y - d1 y * dv x) / (dv y * dv y)) ((d2 x * dv y - d2 y * dv x) / (dv y * dv y)))
  (fun x => dual_lift x (- dv x) (-1))
  (fun x => dual_lift x (sqrt (dv x)) (/ (2 * sqrt (dv x))))
  (fun x => dual_lift x (cos (dv x)) (- sin (dv x)))
  (fun x => dual_lift x (sin (dv x)) (cos (dv x)))
  dv.
(** 214-262. Near zero the 3x3 matrix is written through a column-major map (Mat3<T>, foundation/types.h), while the caller
    reads row-major: [rotation] holds the transpose. *)
Definition AngleAxisToRotation {T} (S : scalar T) (u v w : T) : list T :=
  let add := s_add S in let sub := s_sub S in let mul := s_mul S in
  let theta2 := add (add (mul u u) (mul v v)) (mul w w) in
  if Rlt_dec (s_value S theta2) epsilon then
    [s_of S 1; w; s_opp S v;
     s_opp S w; s_of S 1; u;
     v; s_opp S u; s_of S 1]
  else
    let theta := s_sqrt S theta2 in
    let c := s_cos S theta in let s := s_sin S theta in let t := sub (s_of S 1) c in
    let inv_theta2 := s_div S (s_of S 1) theta2 in let inv_theta := s_div S (s_of S 1) theta in
    let xx := mul (mul u u) inv_theta2 in let xy := mul (mul u v) inv_theta2 in let xz := mul (mul u w) inv_theta2 in
    let yy := mul (mul v v) inv_theta2 in let yz := mul (mul v w) inv_theta2 in let zz := mul (mul w w) inv_theta2 in
    let xs := mul (mul u inv_theta) s in let ys := mul (mul v inv_theta) s in let zs := mul (mul w inv_theta) s in
    [add (mul t xx) c; sub (mul t xy) zs; add (mul t xz) ys;
     add (mul t xy) zs; add (mul t yy) c; sub (mul t yz) xs;
     sub (mul t xz) ys; add (mul t yz) xs; add (mul t zz) c].
(** 147-212 *)
Definition Pose_jacobian (d : bool) (point rt : list R) : list R :=
  if d then
    let rotation := AngleAxisToRotation dual_scalar (Dual (- rt.[0]) (-1) 0 0) (Dual (- rt.[1]) 0 (-1) 0) (Dual (- rt.[2]) 0 0 (-1)) in
    let rot i j := nth (i * 3 + j) rotation (Dual 0 0 0 0) in
    let rotation_angleaxis := concat (map (fun x => [d0 x; d1 x; d2 x]) rotation) in
    let xyz := [point.[0] - rt.[3]; point.[1] - rt.[4]; point.[2] - rt.[5]] in
    let point_rotation := concat (map (fun i =>
      map (fun k => if decide (i = k / 3)%nat then xyz.[k `mod` 3] else 0) (seq 0 9) ++
      map (fun j => dv (rot i j)) (seq 0 3) ++ map (fun j => - dv (rot i j)) (seq 0 3)) (seq 0 3)) in
    let jacobian := ComposeDerivatives true 9 3 3 15 6 rotation_angleaxis point_rotation in
    (* swap the columns of the angle-axis and of the point *)
    concat (map (fun i => map (fun j => jacobian.[i * 9 + 3 + j]) (seq 0 3) ++ map (fun j => jacobian.[i * 9 + j]) (seq 0 3) ++
                          map (fun j => jacobian.[i * 9 + 6 + j]) (seq 0 3)) (seq 0 3))
  else AngleAxisToRotation real_scalar (- rt.[0]) (- rt.[1]) (- rt.[2]).
Definition PoseFunctor : functor := Functor 3 6 3 Pose_Forward (fun d p rt => (Pose_Forward p rt, Pose_jacobian d p rt)).
(** 264-305 *)
Definition Normalize_Forward (p k : list R) : list R :=
  let inv_norm := 1 / sqrt (p.[0] * p.[0] + p.[1] * p.[1] + p.[2] * p.[2]) in [p.[0] * inv_norm; p.[1] * inv_norm; p.[2] * inv_norm].
Definition Normalize : functor := Functor 3 0 3 Normalize_Forward
  (fun d p k =>
     let x := p.[0] in let y := p.[1] in let z := p.[2] in
     let x2 := x * x in let y2 := y * y in let z2 := z * z in
     let norm2 := x2 + y2 + z2 in let norm := sqrt norm2 in let inv_norm32 := 1 / (norm * norm2) in
     (Normalize_Forward p k,
      [(y2 + z2) * inv_norm32; - x * y * inv_norm32; - x * z * inv_norm32;
       - y * x * inv_norm32; (x2 + z2) * inv_norm32; - y * z * inv_norm32;
       - z * x * inv_norm32; - z * y * inv_norm32; (x2 + y2) * inv_norm32])).

(** ** camera_projections_functions.h *)
Definition SquaredNorm (p : list R) : R := p.[0] * p.[0] + p.[1] * p.[1].
(** 87-116 *)
Definition Perspective_Forward (p k : list R) : list R := [p.[0] / p.[2]; p.[1] / p.[2]].
Definition PerspectiveProjection : functor := Functor 3 0 2 Perspective_Forward
  (fun d p k => (Perspective_Forward p k, [1 / p.[2]; 0; - p.[0] / (p.[2] * p.[2]); 0; 1 / p.[2]; - p.[1] / (p.[2] * p.[2])])).
Definition Perspective_Backward (p k : list R) : list R :=
  let inv_norm := 1 / sqrt (SquaredNorm p + 1) in [p.[0] * inv_norm; p.[1] * inv_norm; inv_norm].
(** 8-84; 1e-8 *)
Definition small : R := / 10 ^ 8.
Definition Fisheye_Forward (p k : list R) : list R :=
  let r := sqrt (SquaredNorm p) in
  if Rlt_dec r small then [p.[0] / p.[2]; p.[1] / p.[2]]
  else let theta := atan2 r p.[2] in [theta / r * p.[0]; theta / r * p.[1]].
Definition FisheyeProjection : functor := Functor 3 0 2 Fisheye_Forward
  (fun d p k =>
     let r2 := SquaredNorm p in let r := sqrt r2 in
     let x := p.[0] in let y := p.[1] in let z := p.[2] in
     (Fisheye_Forward p k,
      if Rlt_dec r small then
        let inv_z := 1 / z in let inv_z2 := inv_z * inv_z in
        [inv_z; 0; - x * inv_z2; 0; inv_z; - y * inv_z2]
      else
        let R2 := r2 + z * z in let theta := atan2 r z in
        let x2 := x * x in let y2 := y * y in let z2 := z * z in
        let inv_denom := 1 / (r2 * R2 * r) in
        [(x2 * y2 * theta + y2 * y2 * theta + y2 * z2 * theta + x2 * z * r) * inv_denom;
         x * (y * z * r - y * theta * R2) * inv_denom;
         - x / R2;
         y * (x * z * r - x * theta * R2) * inv_denom;
         (x2 * y2 * theta + x2 * x2 * theta + x2 * z2 * theta + y2 * z * r) * inv_denom;
         - y / R2])).
Definition Fisheye_Backward (p k : list R) : list R :=
  let theta := sqrt (SquaredNorm p) in
  let r_div_theta := if Rlt_dec small theta then sin theta / theta else 1 in
  [p.[0] * r_div_theta; p.[1] * r_div_theta; cos theta].
(** 118-178 *)
Definition Dual_Forward (p t : list R) : list R :=
  let p_persp := Perspective_Forward p t in let p_fish := Fisheye_Forward p t in
  [t.[0] * p_persp.[0] + (1 - t.[0]) * p_fish.[0]; t.[0] * p_persp.[1] + (1 - t.[0]) * p_fish.[1]].
Definition DualProjection : functor := Functor 3 1 2 Dual_Forward
  (fun d p t =>
     let jac_persp := (ForwardDerivatives PerspectiveProjection false p t).2 in
     let jac_fish := (ForwardDerivatives FisheyeProjection false p t).2 in
     let p_persp := Perspective_Forward p t in let p_fish := Fisheye_Forward p t in
     let row i := map (fun j => t.[0] * jac_persp.[i * 3 + j] + (1 - t.[0]) * jac_fish.[i * 3 + j]) (seq 0 3) in
     (Dual_Forward p t,
      row 0%nat ++ (if d then [p_persp.[0] - p_fish.[0]] else []) ++ row 1%nat ++ (if d then [p_persp.[1] - p_fish.[1]] else []))).
(** 218-251 *)
Definition Spherical_Forward (p k : list R) : list R :=
  let lon := atan2 p.[0] p.[2] in
  let lat := atan2 (- p.[1]) (sqrt (p.[0] * p.[0] + p.[2] * p.[2])) in
  let inv_norm := 1 / (2 * PI) in [lon * inv_norm; - lat * inv_norm].
Definition SphericalProjection : functor := Functor 3 0 2 Spherical_Forward
  (fun d p k =>
     let rt2 := p.[0] * p.[0] + p.[2] * p.[2] in let rt := sqrt rt2 in
     let R2 := SquaredNorm p + p.[2] * p.[2] in
     (Spherical_Forward p k,
      [p.[2] / (2 * PI * rt2); 0; - p.[0] / (2 * PI * rt2);
       - (p.[0] * p.[1]) / (2 * PI * R2 * rt); rt / (2 * PI * R2); - (p.[1] * p.[2]) / (2 * PI * R2 * rt)])).
Definition Spherical_Backward (p k : list R) : list R :=
  let lon := p.[0] * 2 * PI in let lat := - p.[1] * 2 * PI in [cos lat * sin lon; - sin lat; cos lat * cos lon].

(** foundation/src/newton_raphson.cc: SolveDecr<1, 1> *)
Definition SolveDecr1 (d f : R) : R := if Req_EM_T d 0 then 0 else f / d.
(** foundation/newton_raphson.h:66-89 with ManualDiff, for a scalar function and its derivative; tol = 1e-6.
    The iteration number is passed to the functions because ThetaEval counts its calls. *)
Definition tol : R := / 10 ^ 6.
Fixpoint NewtonRaphson1 (func deriv : nat -> R -> R) (i iterations : nat) (x : R) : R :=
  match iterations with
  | O => x
  | S n =>
      let decr := SolveDecr1 (deriv i x) (func i x) in
      if Rlt_dec (Rabs decr) tol then x else NewtonRaphson1 func deriv (S i) n (x - decr)
  end.
(** camera_projections_functions.h:180-216: ThetaEval doubles its first derivative. The division is 0 / 0 when theta is 0. *)
Definition Dual_Backward (p t : list R) : option (list R) :=
  let r := sqrt (SquaredNorm p) in
  let theta := NewtonRaphson1 (fun _ x => t.[0] * tan x + (1 - t.[0]) * x - r)
                              (fun i x => (if decide (i = 0%nat) then 2 else 1) * (t.[0] * (1 / cos x) * (1 / cos x) - t.[0] + 1)) 0 5 0 in
  let denominator := t.[0] * tan theta + (1 - t.[0]) * theta in
  if Req_EM_T denominator 0 then None
  else
    let s := tan theta / denominator in
    let x := s * p.[0] in let y := s * p.[1] in
    let inv_norm := 1 / sqrt (x * x + y * y + 1) in Some [x * inv_norm; y * inv_norm; inv_norm].

(** ** camera_distortions_functions.h *)
(** 11-100: k1 *)
Definition Disto2_Distortion (r2 k1 : R) : R := 1 + r2 * k1.
Definition Disto2_DistortionDerivative (r2 k1 : R) : R := 1 + r2 * 2 * k1.
Definition Disto2_Forward (p k : list R) : list R :=
  let distortion := Disto2_Distortion (SquaredNorm p) k.[0] in [p.[0] * distortion; p.[1] * distortion].
Definition Disto2 : functor := Functor 2 1 2 Disto2_Forward
  (fun d p k =>
     let k1 := k.[0] in let x := p.[0] in let y := p.[1] in
     let x2 := x * x in let y2 := y * y in let r2 := x2 + y2 in
     (Disto2_Forward p k,
      [3 * k1 * x2 + k1 * y2 + 1; x * 2 * k1 * y] ++ (if d then [x * r2] else []) ++
      [y * 2 * k1 * x; k1 * (3 * y2 + x2) + 1] ++ (if d then [y * r2] else []))).
(** The common shape of the radial Backward: 48-72, 154-181, 268-301; 10 iterations *)
Definition radial_Backward (distortion derivative : R -> R) (p : list R) : list R :=
  let rd := sqrt (SquaredNorm p) in
  if Rlt_dec rd epsilon then [p.[0]; p.[1]]
  else
    let ru := NewtonRaphson1 (fun _ x => x * distortion (x * x) - rd) (fun _ x => derivative (x * x)) 0 10 rd in
    let dd := distortion (ru * ru) in [p.[0] / dd; p.[1] / dd].
Definition Disto2_Backward (p k : list R) : list R :=
  radial_Backward (fun r2 => Disto2_Distortion r2 k.[0]) (fun r2 => Disto2_DistortionDerivative r2 k.[0]) p.
(** 102-211: k1, k2 *)
Definition Disto24_Distortion (r2 k1 k2 : R) : R := 1 + r2 * (k1 + k2 * r2).
Definition Disto24_DistortionDerivative (r2 k1 k2 : R) : R := 1 + r2 * 2 * (k1 + 2 * k2 * r2).
Definition Disto24_Forward (p k : list R) : list R :=
  let distortion := Disto24_Distortion (SquaredNorm p) k.[0] k.[1] in [p.[0] * distortion; p.[1] * distortion].
Definition Disto24 : functor := Functor 2 2 2 Disto24_Forward
  (fun d p k =>
     let k1 := k.[0] in let k2 := k.[1] in let x := p.[0] in let y := p.[1] in
     let x2 := x * x in let x4 := x2 * x2 in let y2 := y * y in let y4 := y2 * y2 in let r2 := x2 + y2 in
     (Disto24_Forward p k,
      [5 * k2 * x4 + 3 * k1 * x2 + 6 * k2 * x2 * y2 + k2 * y4 + k1 * y2 + 1; x * (2 * k1 * y + 4 * k2 * y * r2)] ++
      (if d then [x * r2; x * r2 * r2] else []) ++
      [y * (2 * k1 * x + 4 * k2 * x * r2); 5 * k2 * y4 + 3 * k1 * y2 + 6 * k2 * y2 * x2 + k2 * x4 + k1 * x2 + 1] ++
      (if d then [y * r2; y * r2 * r2] else []))).
Definition Disto24_Backward (p k : list R) : list R :=
  radial_Backward (fun r2 => Disto24_Distortion r2 k.[0] k.[1]) (fun r2 => Disto24_DistortionDerivative r2 k.[0] k.[1]) p.
(** 213-337: k1, k2, k3, k4 *)
Definition Disto2468_Distortion (r2 k1 k2 k3 k4 : R) : R := 1 + r2 * (k1 + r2 * (k2 + r2 * (k3 + r2 * k4))).
Definition Disto2468_DistortionDerivative (r2 k1 k2 k3 k4 : R) : R := 1 + r2 * (3 * k1 + r2 * (5 * k2 + r2 * (7 * k3 + r2 * 9 * k4))).
Definition Disto2468_Forward (p k : list R) : list R :=
  let distortion := Disto2468_Distortion (SquaredNorm p) k.[0] k.[1] k.[2] k.[3] in [p.[0] * distortion; p.[1] * distortion].
Definition Disto2468 : functor := Functor 2 4 2 Disto2468_Forward
  (fun d p k =>
     let k1 := k.[0] in let k2 := k.[1] in let k3 := k.[2] in let k4 := k.[3] in let x := p.[0] in let y := p.[1] in
     let x2 := x * x in let y2 := y * y in let r2 := x2 + y2 in
     (Disto2468_Forward p k,
      [x * (2 * k1 * x + 4 * k2 * x * r2 + 6 * k3 * x * r2 * r2 + 8 * k4 * x * r2 * r2 * r2) + k1 * r2 + k2 * r2 * r2 + k3 * r2 * r2 * r2 + k4 * r2 * r2 * r2 * r2 + 1;
       x * (2 * k1 * y + 4 * k2 * y * r2 + 6 * k3 * y * r2 * r2 + 8 * k4 * y * r2 * r2 * r2)] ++
      (if d then [x * r2; x * r2 * r2; x * r2 * r2 * r2; x * r2 * r2 * r2 * r2] else []) ++
      [y * (2 * k1 * x + 4 * k2 * x * r2 + 6 * k3 * x * r2 * r2 + 8 * k4 * x * r2 * r2 * r2);
       y * (2 * k1 * y + 4 * k2 * y * r2 + 6 * k3 * y * r2 * r2 + 8 * k4 * y * r2 * r2 * r2) + k1 * r2 + k2 * r2 * r2 + k3 * r2 * r2 * r2 + k4 * r2 * r2 * r2 * r2 + 1] ++
      (if d then [y * r2; y * r2 * r2; y * r2 * r2 * r2; y * r2 * r2 * r2 * r2] else []))).
Definition Disto2468_Backward (p k : list R) : list R :=
  radial_Backward (fun r2 => Disto2468_Distortion r2 k.[0] k.[1] k.[2] k.[3]) (fun r2 => Disto2468_DistortionDerivative r2 k.[0] k.[1] k.[2] k.[3]) p.

(** 484-497 *)
Definition Disto62_RadialDistortion (r2 k1 k2 k3 k4 k5 k6 : R) : R := 1 + r2 * (k1 + r2 * (k2 + r2 * (k3 + r2 * (k4 + r2 * (k5 + r2 * k6))))).
Definition TangentialDistortion (r2 x y p1 p2 : R) : R * R := (2 * p1 * x * y + p2 * (r2 + 2 * x * x), 2 * p2 * x * y + p1 * (r2 + 2 * y * y)).
(** 339-362: k1, k2, k3, k4, k5, k6, p1, p2 *)
Definition Disto62_Forward (p k : list R) : list R :=
  let r2 := SquaredNorm p in
  let radial := Disto62_RadialDistortion r2 k.[0] k.[1] k.[2] k.[3] k.[4] k.[5] in
  let tangential := TangentialDistortion r2 p.[0] p.[1] k.[6] k.[7] in
  [p.[0] * radial + tangential.1; p.[1] * radial + tangential.2].
(** 364-435 *)
Definition Disto62_jacobian (d : bool) (p k : list R) : list R :=
  let k1 := k.[0] in let k2 := k.[1] in let k3 := k.[2] in let k4 := k.[3] in let k5 := k.[4] in let k6 := k.[5] in
  let p1 := k.[6] in let p2 := k.[7] in let x := p.[0] in let y := p.[1] in
  let x2 := x * x in let y2 := y * y in let r2 := x2 + y2 in
  let r2_2 := r2 * r2 in let r2_3 := r2_2 * r2 in let r2_4 := r2_3 * r2 in let r2_5 := r2_4 * r2 in let r2_6 := r2_5 * r2 in
  let dx_dxt := 2 * y * p1 + 6 * p2 * x in let dx_dyt := 2 * x * p1 + 2 * p2 * y in let dy_dxt := dx_dyt in let dy_dyt := 2 * x * p2 + 6 * p1 * y in
  let pr := Disto62_RadialDistortion r2 k1 k2 k3 k4 k5 k6 in
  let dr_dx := 2 * x in let dr_dy := 2 * y in
  let dp_dr := k1 + 2 * k2 * r2 + 3 * k3 * r2_2 + 4 * k4 * r2_3 + 5 * k5 * r2_4 + 6 * k6 * r2_5 in
  [pr + x * dp_dr * dr_dx + dx_dxt; x * dp_dr * dr_dy + dx_dyt] ++
  (if d then [x * r2; x * r2_2; x * r2_3; x * r2_4; x * r2_5; x * r2_6; 2 * x * y; 3 * x2 + y2] else []) ++
  [y * dp_dr * dr_dx + dy_dxt; pr + y * dp_dr * dr_dy + dy_dyt] ++
  (if d then [y * r2; y * r2_2; y * r2_3; y * r2_4; y * r2_5; y * r2_6; 3 * y2 + x2; 2 * x * y] else []).
Definition Disto62 : functor := Functor 2 8 2 Disto62_Forward (fun d p k => (Disto62_Forward p k, Disto62_jacobian d p k)).

(** newton_raphson.h:57-61: SolveDecr<2, 2>, (d^T d)^-1 d^T f; [d] is given by its entries row by row. The inverse of a singular
    matrix is not a number in Eigen: here it divides by 0. *)
Definition SolveDecr2 (d : list R) (f : R * R) : R * R :=
  let a := d.[0] in let b := d.[1] in let c := d.[2] in let e := d.[3] in
  let m11 := a * a + c * c in let m12 := a * b + c * e in let m22 := b * b + e * e in
  let det := m11 * m22 - m12 * m12 in
  let g1 := a * f.1 + c * f.2 in let g2 := b * f.1 + e * f.2 in
  ((m22 * g1 - m12 * g2) / det, (m11 * g2 - m12 * g1) / det).
(** The 2x2 matrix filled by ForwardDerivatives<T, false> through jacobian.data(): Mat2<T> is column-major, so the entries are
    those of the transpose (453-460, 649-656, 812-819). *)
Definition column_major2 (j : list R) : list R := [j.[0]; j.[2]; j.[1]; j.[3]].
Fixpoint NewtonRaphson2 (func : R * R -> R * R) (deriv : R * R -> list R) (iterations : nat) (x : R * R) : R * R :=
  match iterations with
  | O => x
  | S n =>
      let decr := SolveDecr2 (deriv x) (func x) in
      if Rlt_dec (sqrt (decr.1 * decr.1 + decr.2 * decr.2)) tol then x else NewtonRaphson2 func deriv n (x.1 - decr.1, x.2 - decr.2)
  end.
(** 414-433, 610-634, 770-794 with their DistoEval (which computes Forward minus the point): 10 iterations *)
Definition planar_Backward (fwd : list R -> list R) (jac : list R -> list R) (p : list R) : list R :=
  let rd := sqrt (SquaredNorm p) in
  if Rlt_dec rd epsilon then [p.[0]; p.[1]]
  else
    let r := NewtonRaphson2 (fun x => let y := fwd [x.1; x.2] in (y.[0] - p.[0], y.[1] - p.[1])) (fun x => column_major2 (jac [x.1; x.2])) 10 (p.[0], p.[1]) in
    [r.1; r.2].
Definition Disto62_Backward (p k : list R) : list R := planar_Backward (fun x => Disto62_Forward x k) (fun x => Disto62_jacobian false x k) p.
(** 500-550, 660-665: the same and s0, s1, s2, s3 *)
Definition ThinPrismDistortion (r2 s0 s1 s2 s3 : R) : R * R := (s0 * r2 + s1 * r2 * r2, s2 * r2 + s3 * r2 * r2).
Definition Disto624_Forward (p k : list R) : list R :=
  let r2 := SquaredNorm p in
  let radial := Disto62_RadialDistortion r2 k.[0] k.[1] k.[2] k.[3] k.[4] k.[5] in
  let tangential := TangentialDistortion r2 p.[0] p.[1] k.[6] k.[7] in
  let thin_prism := ThinPrismDistortion r2 k.[8] k.[9] k.[10] k.[11] in
  [p.[0] * radial + tangential.1 + thin_prism.1; p.[1] * radial + tangential.2 + thin_prism.2].
(** 552-608 *)
Definition Disto624_jacobian (d : bool) (p k : list R) : list R :=
  let k1 := k.[0] in let k2 := k.[1] in let k3 := k.[2] in let k4 := k.[3] in let k5 := k.[4] in let k6 := k.[5] in
  let p1 := k.[6] in let p2 := k.[7] in let s0 := k.[8] in let s1 := k.[9] in let s2 := k.[10] in let s3 := k.[11] in let x := p.[0] in let y := p.[1] in
  let x2 := x * x in let y2 := y * y in let r2 := x2 + y2 in
  let r2_2 := r2 * r2 in let r2_3 := r2_2 * r2 in let r2_4 := r2_3 * r2 in let r2_5 := r2_4 * r2 in let r2_6 := r2_5 * r2 in
  let dx_dxt := 2 * y * p1 + 6 * p2 * x in let dx_dyt := 2 * x * p1 + 2 * p2 * y in let dy_dxt := dx_dyt in let dy_dyt := 2 * x * p2 + 6 * p1 * y in
  let dx_dx_tp := s0 * 2 * x + s1 * 4 * x * r2 in let dx_dy_tp := s0 * 2 * y + s1 * 4 * y * r2 in
  let dy_dx_tp := s2 * 2 * x + s3 * 4 * x * r2 in let dy_dy_tp := s2 * 2 * y + s3 * 4 * y * r2 in
  let pr := Disto62_RadialDistortion r2 k1 k2 k3 k4 k5 k6 in
  let dr_dx := 2 * x in let dr_dy := 2 * y in
  let dp_dr := k1 + 2 * k2 * r2 + 3 * k3 * r2_2 + 4 * k4 * r2_3 + 5 * k5 * r2_4 + 6 * k6 * r2_5 in
  [pr + x * dp_dr * dr_dx + dx_dxt + dx_dx_tp; x * dp_dr * dr_dy + dx_dyt + dx_dy_tp] ++
  (if d then [x * r2; x * r2_2; x * r2_3; x * r2_4; x * r2_5; x * r2_6; 2 * x * y; 3 * x2 + y2; r2; r2_2; 0; 0] else []) ++
  [y * dp_dr * dr_dx + dy_dxt + dy_dx_tp; pr + y * dp_dr * dr_dy + dy_dyt + dy_dy_tp] ++
  (if d then [y * r2; y * r2_2; y * r2_3; y * r2_4; y * r2_5; y * r2_6; 3 * y2 + x2; 2 * x * y; 0; 0; r2; r2_2] else []).
Definition Disto624 : functor := Functor 2 12 2 Disto624_Forward (fun d p k => (Disto624_Forward p k, Disto624_jacobian d p k)).
Definition Disto624_Backward (p k : list R) : list R := planar_Backward (fun x => Disto624_Forward x k) (fun x => Disto624_jacobian false x k) p.
(** 668-700, 829-842: k1, k2, k3, p1, p2 *)
Definition Brown_RadialDistortion (r2 k1 k2 k3 : R) : R := 1 + r2 * (k1 + r2 * (k2 + r2 * k3)).
Definition DistoBrown_Forward (p k : list R) : list R :=
  let r2 := SquaredNorm p in
  let radial := Brown_RadialDistortion r2 k.[0] k.[1] k.[2] in
  let tangential := TangentialDistortion r2 p.[0] p.[1] k.[3] k.[4] in
  [p.[0] * radial + tangential.1; p.[1] * radial + tangential.2].
(** 702-758 *)
Definition DistoBrown_jacobian (d : bool) (p k : list R) : list R :=
  let k1 := k.[0] in let k2 := k.[1] in let k3 := k.[2] in let p1 := k.[3] in let p2 := k.[4] in let x := p.[0] in let y := p.[1] in
  let x2 := x * x in let x4 := x2 * x2 in let y2 := y * y in let y4 := y2 * y2 in let r2 := x2 + y2 in let r4 := r2 * r2 in let r6 := r4 * r2 in
  [5 * k2 * x4 + 3 * k1 * x2 + 6 * k3 * x2 * r4 + 6 * k2 * x2 * y2 + k3 * r6 + k2 * y4 + k1 * y2 + 1 + 2 * p1 * y + 6 * p2 * x;
   x * (2 * k1 * y + 4 * k2 * y * r2 + 6 * k3 * y * r4) + 2 * p1 * x + 2 * p2 * y] ++
  (if d then [x * r2; x * r2 * r2; x * r2 * r2 * r2; 2 * x * y; 3 * x2 + y2] else []) ++
  [y * (2 * k1 * x + 4 * k2 * x * r2 + 6 * k3 * x * r4) + 2 * p2 * y + 2 * p1 * x;
   5 * k2 * y4 + 3 * k1 * y2 + 6 * k3 * y2 * r4 + 6 * k2 * x2 * y2 + k3 * r6 + k2 * x4 + k1 * x2 + 1 + 2 * p2 * x + 6 * p1 * y] ++
  (if d then [y * r2; y * r2 * r2; y * r2 * r2 * r2; 3 * y2 + x2; 2 * x * y] else []).
Definition DistoBrown : functor := Functor 2 5 2 DistoBrown_Forward (fun d p k => (DistoBrown_Forward p k, DistoBrown_jacobian d p k)).
Definition DistoBrown_Backward (p k : list R) : list R := planar_Backward (fun x => DistoBrown_Forward x k) (fun x => DistoBrown_jacobian false x k) p.

(** ** camera_instances.h *)
(** A functor and its Backward *)
Record stage := Stage { st_functor : functor; st_backward : list R -> list R -> option (list R) }.
Definition total (b : list R -> list R -> list R) : list R -> list R -> option (list R) := fun p k => Some (b p k).
Definition PERSP := Stage PerspectiveProjection (total Perspective_Backward).
Definition FISH := Stage FisheyeProjection (total Fisheye_Backward).
Definition DUALP := Stage DualProjection Dual_Backward.
Definition SPHER := Stage SphericalProjection (total Spherical_Backward).
Definition D2 := Stage Disto2 (total Disto2_Backward).
Definition D24 := Stage Disto24 (total Disto24_Backward).
Definition D2468 := Stage Disto2468 (total Disto2468_Backward).
Definition D62 := Stage Disto62 (total Disto62_Backward).
Definition D624 := Stage Disto624 (total Disto624_Backward).
Definition BROWND := Stage DistoBrown (total DistoBrown_Backward).
Definition AFF := Stage Affine (total Affine_Backward).
Definition SCALE := Stage UniformScale (total UniformScale_Backward).
Definition IDENT := Stage Identity (total Identity_Backward).

(** 131-186. Size (120-127) is at least 1. *)
Record camera_model := CameraModel { cm_proj : stage; cm_disto : stage; cm_aff : stage }.
Definition nparams (s : stage) : nat := ParamSize (st_functor s).
Definition Size (c : camera_model) : nat := Nat.max 1 (nparams (cm_proj c) + nparams (cm_aff c) + nparams (cm_disto c)).
Definition fwd (s : stage) := (nparams s, total (Forward (st_functor s))).
Definition bwd (s : stage) := (nparams s, st_backward s).
Definition Generic_Forward (c : camera_model) (point params : list R) : option (list R) :=
  ComposeFunctions [fwd (cm_aff c); fwd (cm_disto c); fwd (cm_proj c)] point params.
Definition Generic_ForwardDerivatives (c : camera_model) (deriv_params : bool) (point params : list R) : list R * list R :=
  ComposeForwardDerivatives deriv_params [st_functor (cm_aff c); st_functor (cm_disto c); st_functor (cm_proj c)] point params.
(** 166-184: an array of Size entries, of which those of the three functions are written *)
Definition ConstructReversedParams (c : camera_model) (params : list R) : list R :=
  let np := nparams (cm_proj c) in let nd := nparams (cm_disto c) in let na := nparams (cm_aff c) in
  replicate (Size c - (np + nd + na)) 0 ++ take na (drop (np + nd) params) ++ take nd (drop np params) ++ take np params.
Definition Generic_Backward (c : camera_model) (point params : list R) : option (list R) :=
  ComposeFunctions [bwd (cm_proj c); bwd (cm_disto c); bwd (cm_aff c)] point (ConstructReversedParams c params).
(** ProjectGeneric as a functor *)
Definition Generic (c : camera_model) : functor :=
  Functor 3 (Size c) 2 (fun x p => default [] (Generic_Forward c x p)) (Generic_ForwardDerivatives c).
