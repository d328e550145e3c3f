(** Model of /repo/opensfm/src/geometry/absolute_pose.h:125-201 and src/absolute_pose.cc:34-57 (poses from many points), of
    transform.h:8-43 and of relative_pose.cc:20-33 (rotations between points), in exact arithmetic. Eigen's singular value
    decomposition is a parameter. None: the result has values that are not finite. *)
From stdpp Require Import prelude.
From Coq Require Import Reals.
From Verif Require Import Lin TriangModel FitModel P3pModel.
Local Open Scope R_scope.

(** transform.h:8-20 and 22-43: [centred] is the difference to the average, [covariance] the sum of the products q p^T, the end as in ClosestRotationMatrix *)
Definition RotationBetweenPoints (svd : svd_of) (samples : list (vec * vec)) : mat :=
  ClosestRotationMatrix svd (covariance (centred (fst <$> samples)) (centred (snd <$> samples))).
(** absolute_pose.h:134, 170: F *)
Definition sight (v : vec) : mat := mscale (/ dot v v) (outer v v).
(** absolute_pose.h:125-142; a bearing of 0 divides by 0 *)
Definition TranslationBetweenPoints (samples : list (vec * vec)) (rotation : mat) : option vec :=
  let F1 := foldl (fun acc s => madd acc (sight s.1)) mzero samples in
  let F2 := foldl (fun acc s => vadd acc (mvec (madd (sight s.1) (mscale (-1) mI)) (mvec rotation s.2))) v0 samples in
  if existsb (fun s => if Req_EM_T (dot s.1 s.1) 0 then true else false) samples then None else
  match samples with
  | [] => None
  | _ =>
      let n := INR (length samples) in
      i ← inverse (madd mI (mscale (-1) (mscale (/ n) F1)));
      Some (mvec i (vscale (/ n) F2))
  end.
(** 166-177: the points of the lines of sight nearest to where the points are, and the pose for them *)
Definition npoints_rotation (svd : svd_of) (samples : list (vec * vec)) (pose : mat * vec) : mat :=
  RotationBetweenPoints svd ((fun s => (mvec (sight s.1) (vadd (mvec pose.1 s.2) pose.2), s.2)) <$> samples).
(** 163-185; the relative change of a translation of 0 is not below anything *)
Fixpoint npoints_loop (svd : svd_of) (samples : list (vec * vec)) (iterations : nat) (pose : mat * vec) : option (mat * vec) :=
  match iterations with
  | O => Some pose
  | S n =>
      let rotation := npoints_rotation svd samples pose in
      new_translation ← TranslationBetweenPoints samples rotation;
      if Req_EM_T (norm pose.2) 0 then npoints_loop svd samples n (rotation, new_translation)
      else if Rlt_dec (norm (vsub new_translation pose.2) / norm pose.2) (/ 10 ^ 7) then Some (rotation, pose.2)
      else npoints_loop svd samples n (rotation, new_translation)
  end.
(** 144-160 *)
Definition npoints_start (svd : svd_of) (samples : list (vec * vec)) : option (mat * vec) :=
  let q_average := vmean (fst <$> samples) in let p_average := vmean (snd <$> samples) in
  let s_num := spread (centred (snd <$> samples)) in let s_denum := spread (centred (fst <$> samples)) in
  if Req_EM_T s_denum 0 then None else
  let rotation := RotationBetweenPoints svd samples in
  Some (rotation, vsub (vscale (sqrt (s_num / s_denum)) q_average) (mvec rotation p_average)).
Definition AbsolutePoseNPoints (svd : svd_of) (samples : list (vec * vec)) : option (mat * vec) :=
  npoints_start svd samples ≫= npoints_loop svd samples 100.
(** 198-201 *)
Definition AbsolutePoseNPointsKnownRotation (samples : list (vec * vec)) : option vec := TranslationBetweenPoints samples mI.
(** absolute_pose.cc:34-57: with bearings made unit vectors *)
Definition absolute_pose_n_points (svd : svd_of) (samples : list (vec * vec)) : option (mat * vec) := AbsolutePoseNPoints svd ((fun s => (normalized s.1, s.2)) <$> samples).
Definition absolute_pose_n_points_known_rotation (samples : list (vec * vec)) : option vec := AbsolutePoseNPointsKnownRotation ((fun s => (normalized s.1, s.2)) <$> samples).
(** relative_pose.cc:20-33 *)
Definition RelativeRotationNPoints (svd : svd_of) (samples : list (vec * vec)) : mat := mT (RotationBetweenPoints svd samples).
