(** Model of the robust estimators: /repo/opensfm/src/robust/robust_estimator.h (Estimate, ShouldStop, RunEstimation), scorer.h,
    random_sampler.h, model.h, in exact real arithmetic (errors that are not numbers are not modelled), for an arbitrary kind of
    model; and of the models themselves as far as their errors and thresholds go (line_model.h, absolute_pose_model.h,
    absolute_pose_known_rotation_model.h, relative_rotation_model.h, similarity_model.h) with the python wrappers of
    /repo/opensfm/multiview.py:443-540. *)
From stdpp Require Import prelude gmap sorting.
From Coq Require Import Reals.
From Verif Require Import Base Lin RotModel PoseModel TriangModel BundleModel CullModel.
Local Open Scope R_scope.

(** ** scorer.h: from the norms of the errors, a score and the indices of the inliers *)
(** scorer.h:24-42 *)
Definition RansacScoring (threshold : R) (errors : list R) : R * list nat :=
  foldl (fun '(score, inliers) '(index, v) => if Rlt_dec v threshold then (score + 1, inliers ++ [index]) else (score, inliers))
        (0, []) (imap pair errors).
(** scorer.h:67-91 *)
Definition score_eps : R := / 10 ^ 8.
Definition MSacScoring (threshold : R) (errors : list R) : R * list nat :=
  let '(score, inliers) :=
    foldl (fun '(score, inliers) '(index, v) =>
             if Rle_dec v threshold then (score + v * v, inliers ++ [index]) else (score + threshold * threshold, inliers))
          (0, []) (imap pair errors) in
  (1 / (score + score_eps), inliers).
(** scorer.h:44-65, 93-119: nth_element leaves at its place the element a sort would put there. For no error at all the
    behaviour is undefined; 0 here. *)
Definition ComputeMedian (errors : list R) : R := default 0 (merge_sort Rle errors !! (length errors / 2)%nat).
Definition LMedSScoring (multiplier : R) (errors : list R) : R * list nat :=
  let median := ComputeMedian errors in
  let mad := 1.4826 * median in
  let threshold := multiplier * mad in
  let inliers := foldl (fun inliers '(index, v) => if Rle_dec v threshold then inliers ++ [index] else inliers) [] (imap pair errors) in
  (1 / (median + score_eps), inliers).
Inductive ransac_type := RANSAC | MSAC | LMedS.
(** robust_estimator.h:120-144; [threshold]: after ThresholdAdapter *)
Definition scoring (t : ransac_type) (threshold : R) : list R -> R * list nat :=
  match t with RANSAC => RansacScoring threshold | MSAC => MSacScoring threshold | LMedS => LMedSScoring threshold end.

(** robust_estimator.h:9-17 *)
Record params := Params {
  iterations : nat; probability : R; use_local_optimization : bool; use_iteration_reduction : bool; local_optimization_iterations : nat }.
Definition default_params : params := Params 100 (99 / 100) true true 10.
(** numeric_limits<double>::epsilon() *)
Definition epsilon : R := / 2 ^ 52.

(** 19-34. The logarithms of 0 are infinite: with q = 0 the quotient is 0, with a probability of 1 it is infinite; with more than 1 it
    is not a number. *)
Definition ShouldStop (minimal : nat) (p : params) (inliers samples_count iteration : nat) : bool :=
  if negb (use_iteration_reduction p) then false
  else
    let inliers_ratio := INR inliers / INR samples_count in
    let proba_one_outlier := Rmin (1 - epsilon) (1 - inliers_ratio ^ minimal) in
    if Rle_dec 1 (probability p) then false
    else if Req_EM_T proba_one_outlier 0 then (if decide (0 < iteration)%nat then true else false)
    else if Rlt_dec (ln (1 - probability p) / ln proba_one_outlier) (INR iteration) then true else false.

(** ** random_sampler.h. The generator: [draw pos range_max] is the value between 0 and [range_max] of the draw number [pos]. *)
Section Sampler.
Variable draw : nat -> nat -> nat.
(** 28-33: the do-while loop. [fuel] bounds the number of draws; None: not finished *)
Fixpoint fresh (fuel pos range_max : nat) (used : list nat) : option (nat * nat) :=
  match fuel with
  | 0%nat => None
  | S fuel => let v := draw pos range_max in if decide (v ∈ used) then fresh fuel (S pos) range_max used else Some (v, S pos)
  end.
(** 25-36 *)
Fixpoint GenerateOneSample (fuel size pos range_max : nat) (used : list nat) : option (list nat * nat) :=
  match size with
  | 0%nat => Some (used, pos)
  | S size => '(v, pos) ← fresh fuel pos range_max used; GenerateOneSample fuel size pos range_max (used ++ [v])
  end.
(** 11-23. Without samples, range_max is -1 and the behaviour undefined: IndexError here *)
Definition GetRandomSamples {A : Type} (fuel : nat) (samples : list A) (size pos : nat) : res (list A * nat) :=
  if decide (samples = []) then Err IndexError else
  try (indices, pos) := of_option Diverges (GenerateOneSample fuel size pos (length samples - 1) []) in
  Ok (omap (fun i => samples !! i) indices, pos).
End Sampler.

Section Estimate.
Context {Data Model : Type}.
Variable draw : nat -> nat -> nat.
Variable fuel : nat.
(** MODEL: the number of samples of a minimal set, the solvers (a list of at most MAX_MODELS models), the norm of the error *)
Variable minimal : nat.
Variable estimate estimate_non_minimal : list Data -> list Model.
Variable error : Model -> Data -> R.
Variable scorer : list R -> R * list nat.

(** scorer.h:6-19; None: not initialized *)
Record score_info := Score { score : R; inliers : list nat; model : option Model; lo_model : option Model }.
Definition score0 : score_info := Score 0 [] None None.
(** std::max(a, b): a unless a < b *)
Definition max_score (a b : score_info) : score_info := if Rlt_dec (score a) (score b) then b else a.
(** model.h:15-24 and Score *)
Definition evaluate (samples : list Data) (m : Model) (minimal_model : option Model) : score_info :=
  let '(s, i) := scorer (error m <$> samples) in Score s i minimal_model (Some m).

(** The state of the loop: best_score, the number of draws, whether to stop; and, for the specification only, the minimal samples drawn
    and the models evaluated so far. *)
Record state := State { best : score_info; pos : nat; stop : bool; drawn : list (list Data); seen : list Model }.

(** robust_estimator.h:97-112 *)
Definition try_lo_model (samples : list Data) (s : state) (m : Model) : state :=
  let lo_score := evaluate samples m (model (best s)) in
  State (max_score lo_score (best s)) (pos s) (stop s) (drawn s) (seen s ++ [m]).
(** 75-113 *)
Definition local_optimization (samples : list Data) (s : state) : res state :=
  let inliers_samples := omap (fun i => samples !! i) (inliers (best s)) in
  let lo_sample_size := Nat.max (Nat.min 12 (length (inliers (best s)) / 2)) minimal in
  try (lo_random_samples, p) := GetRandomSamples draw fuel inliers_samples lo_sample_size (pos s) in
  Ok (foldl (try_lo_model samples) (State (best s) p (stop s) (drawn s) (seen s)) (estimate_non_minimal lo_random_samples)).
(** 55-117: one model of the sample number [i] *)
Definition try_model (p : params) (samples : list Data) (i : nat) (s : state) (m : Model) : res state :=
  if stop s then Ok s else
  let score_m := evaluate samples m (Some m) in
  let s := State (max_score score_m (best s)) (pos s) (stop s) (drawn s) (seen s ++ [m]) in
  let best_found := (if Req_EM_T (score score_m) (score (best s)) then true else false) && (minimal <=? length (inliers score_m))%nat in
  try s := (if best_found && use_local_optimization p
            then foldM (fun s _ => local_optimization samples s) s (seq 0 (local_optimization_iterations p)) else Ok s) in
  Ok (State (best s) (pos s) (ShouldStop minimal p (length (inliers (best s))) (length samples) i) (drawn s) (seen s)).
(** 47-118; [n] more iterations, [i] the next one *)
Fixpoint loop (p : params) (samples : list Data) (n i : nat) (s : state) : res state :=
  match n with
  | 0%nat => Ok s
  | S n =>
      if stop s then Ok s else
      try (random_samples, q) := GetRandomSamples draw fuel samples minimal (pos s) in
      try s := foldM (try_model p samples i) (State (best s) q false (drawn s ++ [random_samples]) (seen s)) (estimate random_samples) in
      loop p samples n (S i) s
  end.
(** 36-119 *)
Definition run (p : params) (samples : list Data) : res state := loop p samples (iterations p) 0 (State score0 0 false [] []).
Definition Estimate (p : params) (samples : list Data) : res score_info := try s := run p samples in Ok (best s).
End Estimate.
Arguments score_info : clear implicits.

(** ** The models *)
(** line_model.h. For two points with one abscissa (not 0) the code returns a model with infinite coefficients unless they are not
    numbers; its errors are infinite or not numbers, so that it has no inliers: here, no model. *)
Definition line_estimate (l : list (R * R)) : list (R * R) :=
  match l with
  | x1 :: x2 :: _ =>
      if Req_EM_T x1.1 x2.1 then []
      else
        let b := (x1.1 * x2.2 - x1.2 * x2.1) / (x1.1 - x2.1) in
        if Req_EM_T x1.1 0 then [] else let a := (x1.2 - b) / x1.1 in [(a, b)]
  | _ => []
  end.
Definition line_error (m : R * R) (d : R * R) : R := Rabs (d.2 - (m.1 * d.1 + m.2)).
(** ThresholdAdapter of the poses and rotations *)
Definition angle_adapter (threshold_angle : R) : R := 1 - cos threshold_angle.
(** absolute_pose_model.h:33-44: data = (bearing, point); the model is the 3x4 matrix of a rotation and a translation *)
Definition absolute_pose_error (m : mat * vec) (d : vec * vec) : R :=
  Rabs (1 - dot (normalized d.1) (normalized (vadd (mvec m.1 d.2) m.2))).
(** absolute_pose_known_rotation_model.h:32-41 *)
Definition known_rotation_error (m : vec) (d : vec * vec) : R := Rabs (1 - dot (normalized d.1) (normalized (vadd d.2 m))).
(** relative_rotation_model.h:31-35 *)
Definition relative_rotation_error (m : mat) (d : vec * vec) : R := Rabs (1 - dot (mvec m d.1) d.2).
(** similarity_model.h:23-26: the model is s R and t *)
Definition similarity_error (m : mat * vec) (d : vec * vec) : R := norm (vsub d.2 (vadd (mvec m.1 d.1) m.2)).
(** multiview.py:466-490 (absolute_pose_ransac) and 492-516: the pose returned for a model [R t] *)
Definition ransac_pose (m : mat * vec) : mat * vec := (mT m.1, vopp (mvec (mT m.1) m.2)).
(** multiview.py:443-463 *)
Definition ransac_position (m : vec) : mat * vec := (mI, vopp m).
