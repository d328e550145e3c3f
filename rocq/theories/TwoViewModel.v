(** Model of the reconstruction of two views: compute_inliers_bearings of /repo/opensfm/matching.py and two_view_reconstruction_* of
    /repo/opensfm/reconstruction.py. Exact real arithmetic. Bearings are given (the
    cameras are those of ProjModel.v); both arrays of bearings have as many rows. Rotation vectors (cv2.Rodrigues of a matrix) stand here
    as the matrices they stand for. What the solvers give is a parameter: the robust relative pose (multiview.relative_pose_ransac), the
    refined one (relative_pose_optimize_nonlinear) and the singular value decomposition of the robust homography
    (cv2.findHomography, np.linalg.svd). *)
From stdpp Require Import prelude.
From Coq Require Import Reals.
From Verif Require Import Base Lin TriangModel AnglesModel.
Local Open Scope R_scope.

(** x / norm(x), then norm(x - b) < threshold, as numpy computes them: false for a zero x (the quotient is nan) *)
Definition near_direction (x b : vec) (threshold : R) : bool :=
  if Req_EM_T (norm x) 0 then false else if Rlt_dec (norm (vsub (vscale (/ norm x) x) b)) threshold then true else false.
(** matching.py:805-844 *)
Definition compute_inliers_bearings (b1 b2 : list vec) (r : mat) (t : vec) (threshold : R) : list bool :=
  let p := TriangulateTwoBearingsMidpointMany b1 b2 r t in
  zip_with (fun x (b : vec * vec) =>
    match x with
    | Some X => near_direction X b.1 threshold && near_direction (mvec (mT r) (vsub X t)) b.2 threshold
    | None => false
    end) p (zip b1 b2).
(** np.nonzero(ok)[0] *)
Definition nonzero (l : list bool) : list nat := mjoin (imap (fun i (b : bool) => if b then [i] else []) l).
(** reconstruction.py:286-293 *)
Definition two_view_reconstruction_inliers (b1 b2 : list vec) (r : mat) (t : vec) (threshold : R) : list nat :=
  nonzero (compute_inliers_bearings b1 b2 r t threshold).

(** The result of a method: rotation, translation, inliers; [None] for (None, None, []) *)
Definition motion := (mat * vec * list nat)%type.
Definition inliers_of (m : option motion) : list nat := match m with Some m => m.2 | None => [] end.

(** np.argmax of a map object: numpy makes an array of no dimensions of it, holding the map object itself, and the index of its largest
    element is 0 *)
Definition argmax_of_map (_ : list nat) : nat := 0.
(** reconstruction.py:296-332, given the singular value decomposition of the homography ([None]: np.linalg.svd fails) *)
Definition two_view_reconstruction_plane_based (svd : option (mat * (R * R * R) * mat)) (b1 b2 : list vec) (threshold : R) : option motion :=
  match svd with
  | None => None
  | Some (u, l, vh) =>
      match motion_from_plane_homography u l vh with
      | None | Some [] => None
      | Some motions =>
          let motion_inliers := (fun '(r, t, _, _) => two_view_reconstruction_inliers b1 b2 (mT r) (vopp (mvec (mT r) t)) threshold) <$> motions in
          let best := argmax_of_map (length <$> motion_inliers) in
          match motions !! best, motion_inliers !! best with
          | Some (r, t, _, _), Some inliers => Some (r, t, inliers)
          | _, _ => None
          end
      end
  end.

Section Refine.
(** multiview.relative_pose_optimize_nonlinear(b1, b2, t, R, iterations) *)
Variable refine : list vec -> list vec -> vec -> mat -> mat * vec.
(** b[inliers] *)
Definition rows (b : list vec) (inliers : list nat) : list vec := omap (fun i => b !! i) inliers.
(** reconstruction.py:335-379 *)
Definition two_view_reconstruction_and_refinement (b1 b2 : list vec) (r : mat) (t : vec) (threshold : R) (transposed : bool) : motion :=
  let '(r_curr, t_curr) := if transposed then (mT r, vopp (mvec (mT r) t)) else (r, t) in
  let inliers := two_view_reconstruction_inliers b1 b2 r_curr t_curr threshold in
  let '(r_curr, t_curr, inliers) :=
    if decide (5 < length inliers)%nat then
      let (r', t') := refine (rows b1 inliers) (rows b2 inliers) t_curr r_curr in
      (r', t', two_view_reconstruction_inliers b1 b2 r' t' threshold)
    else (r_curr, t_curr, inliers) in
  (mT r_curr, vopp (mvec (mT r_curr) t_curr), inliers).
(** reconstruction.py:424-484 *)
Definition two_view_reconstruction_5pt (b1 b2 : list vec) (r : mat) (t : vec) (threshold : R) (check_reversal : bool) (reversal_ratio : R) : option motion :=
  let configurations := if check_reversal then [false; true] else [false] in
  let results := omap (fun transposed =>
    let m := two_view_reconstruction_and_refinement b1 b2 r t threshold transposed in
    if decide (length m.2 <= 5)%nat then None else Some m) configurations in
  match results with
  | [m] => Some m
  | [m1; m2] =>
      let len1 := length m1.2 in let len2 := length m2.2 in
      let ratio := INR (min len1 len2) / INR (max len1 len2) in
      if Rlt_dec reversal_ratio ratio then None else if decide (len2 < len1)%nat then Some m1 else Some m2
  | _ => None
  end.
Inductive method := FivePoint | PlaneBased.
(** reconstruction.py:487-559; [robust] is what relative_pose_ransac gives *)
Definition two_view_reconstruction_general (robust : mat * vec) (svd : option (mat * (R * R * R) * mat)) (b1 b2 : list vec) (threshold : R)
    (check_reversal : bool) (reversal_ratio : R) : option (motion * method) :=
  let five := two_view_reconstruction_5pt b1 b2 robust.1 robust.2 threshold check_reversal reversal_ratio in
  let plane := two_view_reconstruction_plane_based svd b1 b2 threshold in
  match five, plane with
  | Some m, _ =>
      if decide (length (inliers_of plane) < length m.2)%nat then Some (m, FivePoint)
      else match plane with Some p => Some (p, PlaneBased) | None => None end
  | None, Some p => Some (p, PlaneBased)
  | None, None => None
  end.
End Refine.

(** reconstruction.py:382-390 *)
Definition two_view_rotation_inliers (b1 b2 : list vec) (r : mat) (threshold : R) : list nat :=
  nonzero (zip_with (fun x y => if Rlt_dec (norm (vsub (mvec r y) x)) threshold then true else false) b1 b2).
