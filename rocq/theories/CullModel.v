(** Model of the culling of points: remove_outliers and its threshold (/repo/opensfm/reconstruction.py:1224-1289) and
    /repo/opensfm/src/sfm/src/map_helpers.cc (FilterBadlyConditionedPoints, RemoveIsolatedPoints), over the maps of MapModel.v
    whose landmarks hold 3D points, in exact real arithmetic. *)
From stdpp Require Import prelude gmap strings sorting.
From Coq Require Import Reals.
From Verif Require Import Base Lin TriangModel MapModel BundleModel.
Local Open Scope R_scope.

Global Instance Rle_decision : RelDecision Rle := Rle_dec.
Global Instance Rlt_decision : RelDecision Rlt := Rlt_dec.

(** std::accumulate over a vector *)
Definition accumulate (l : list R) : R := foldl Rplus 0 l.
Definition average (l : list R) : R := accumulate l / INR (length l).
(** map_helpers.cc:131-144 and 201-210: the mean, and the standard deviation around it *)
Definition deviation (l : list R) : R :=
  let avg := average l in sqrt (accumulate ((fun x => (x - avg) * (x - avg)) <$> l) / INR (length l)).

(** np.median: the middle value, or the mean of the two middle values; not a number for no value at all *)
Definition median (l : list R) : option R :=
  let s := merge_sort Rle l in
  let n := length l in
  if Nat.odd n then s !! (n / 2)%nat
  else match s !! (n / 2 - 1)%nat, s !! (n / 2)%nat with Some a, Some b => Some ((a + b) / 2) | _, _ => None end.

(** reconstruction.py:1224-1238: the median of each coordinate, and 1.486 times the median distance to it. For no error at all numpy
    raises an AxisError (a ValueError). *)
Definition get_error_distribution (errors : list (R * R)) : res (R * R * R) :=
  match median (fst <$> errors), median (snd <$> errors) with
  | Some mx, Some my =>
      match median ((fun e => sqrt ((e.1 - mx) * (e.1 - mx) + (e.2 - my) * (e.2 - my))) <$> errors) with
      | Some d => Ok (mx, my, 1.486 * d)
      | None => Err ValueError
      end
  | _, _ => Err ValueError
  end.
(** The configuration: bundle_outlier_filtering_type with bundle_outlier_fixed_threshold and bundle_outlier_auto_ratio *)
Inductive filtering := FIXED (threshold : R) | AUTO (ratio : R) | OTHER.
(** reconstruction.py:1241-1250. The standard deviation is a number, added to both coordinates of the mean. *)
Definition get_actual_threshold (c : filtering) (errors : list (R * R)) : res R :=
  match c with
  | FIXED t => Ok t
  | AUTO ratio => try (mx, my, d) := get_error_distribution errors in
                  Ok (ratio * sqrt ((mx + d) * (mx + d) + (my + d) * (my + d)))
  | OTHER => Ok 1
  end.

Section Cull.
Context {C B P D X O Rf : Type}.
Notation map := (@map C B P vec D X O Rf). Notation landmark := (landmark vec).
Variable enumL : gmap string landmark -> list (string * landmark).
Variable enumF : gmap string (bool * Z) -> list (string * (bool * Z)).
(** the order in which the errors of a landmark are visited (std::map converted to a dict), and a python set of ids *)
Variable enumE : gmap string (R * R) -> list (string * (R * R)).
Variable enumT : gset string -> list string.

(** A map and the reprojection errors of its landmarks (landmark.h:55, [reproj_errors_]), by landmark and shot. A landmark without
    errors is a landmark with no entry. Errors are the 2D errors of ordinary cameras. *)
Record scored := Scored { c_map : map; c_errors : gmap string (gmap string (R * R)) }.
Definition errors_of (s : scored) (lm : string) : gmap string (R * R) := default ∅ (c_errors s !! lm).

(** map.cc:78-83 with landmark.cc:15-19, 44-49: the error goes with the observation *)
Definition remove_observation_of (s : scored) (shot_id lm : string) : res scored :=
  try m := remove_observation (c_map s) shot_id lm in
  Ok (Scored m (alter (delete shot_id) lm (c_errors s))).
(** map.cc:303-320: the errors go with the landmark *)
Definition remove_landmark_of (s : scored) (lm : string) : res scored :=
  try m := remove_landmark enumF (c_map s) lm in
  Ok (Scored m (delete lm (c_errors s))).

(** reconstruction.py:1268-1275; KeyError for a point that does not exist *)
Definition outliers_of (threshold : R) (s : scored) (points : list string) : res (list (string * string)) :=
  foldM (fun acc p =>
           try _ := of_option KeyError (m_landmarks (c_map s) !! p) in
           Ok (acc ++ ((fun se => (p, se.1)) <$>
                       filter (fun se => threshold * threshold < se.2.1 * se.2.1 + se.2.2 * se.2.2) (enumE (errors_of s p)))))
        [] points.
(** 1277-1286 *)
Definition drop_outliers (s : scored) (outliers : list (string * string)) : res scored :=
  foldM (fun s '(lm, shot_id) => remove_observation_of s shot_id lm) s outliers.
Definition drop_unseen (s : scored) (tracks : list string) : res scored :=
  foldM (fun s lm => match m_landmarks (c_map s) !! lm with
                     | None => Ok s
                     | Some l => if decide (size (lm_obs l) < 2)%nat then remove_landmark_of s lm else Ok s
                     end) s tracks.
(** 1253-1289. [points]: the ids given, or None *)
Definition remove_outliers (c : filtering) (points : option (list string)) (s : scored) : res (nat * scored) :=
  let all := fst <$> enumL (m_landmarks (c_map s)) in
  try threshold := get_actual_threshold c (mjoin ((fun l => snd <$> enumE (errors_of s l)) <$> all)) in
  try outliers := outliers_of threshold s (default all points) in
  try s := drop_outliers s outliers in
  try s := drop_unseen s (enumT (list_to_set (fst <$> outliers))) in
  Ok (length outliers, s).

(** map_helpers.cc:34-64: the cameras, poses and observations of a landmark; [origin] is Pose::GetOrigin *)
Variable pcompose : P -> P -> P.
Variable origin : P -> vec.
Definition views_of (m : map) (lm : string) (l : landmark) : list (C * P * O) :=
  omap (fun '(s, (pano, _)) =>
          x ← m_shots m !! (pano, s); c ← m_cameras m !! sh_camera x; p ← shot_pose pcompose m (pano, s); o ← sh_obs x !! lm; Some (c, p, o))
       (enumF (lm_obs l)).
(** 66-80: the loop stops at the first pair *)
Fixpoint wide_pair (min_angle : R) (rays : list vec) : bool :=
  match rays with
  | [] => false
  | r :: rays' => existsb (fun r' => gt_opt (AngleBetweenVectors r r') min_angle) rays' || wide_pair min_angle rays'
  end.
(** 85-127: what the covariance of the point given its views yields: None when one of the numerical checks (finite covariance,
    determinant, eigenvalues) fails, otherwise the condition number. The computation is not modelled: an arbitrary function. *)
Variable condition : list (C * P * O) -> vec -> option R.
(** 32-127: true for what is removed at once, with the condition number of the others *)
Definition first_pass (m : map) (min_angle : R) (lm : string) (l : landmark) : option R :=
  let views := views_of m lm l in
  let rays := (fun v : C * P * O => normalized (vsub (lm_pos l) (origin v.1.2))) <$> views in
  if wide_pair min_angle rays then condition views (lm_pos l) else None.
(** 148-155 and 213-220: the loops over the landmarks to remove *)
Definition remove_listed (m : map) (ids : list string) : res (nat * map) :=
  foldM (fun '(n, m) lm => match m_landmarks m !! lm with
                           | None => Ok (n, m)
                           | Some _ => try m := remove_landmark enumF m lm in Ok (S n, m)
                           end) (0%nat, m) ids.
(** 20-158 *)
Definition FilterBadlyConditionedPoints (m : map) (min_angle_deg : R) : res (nat * map) :=
  let min_angle := min_angle_deg * PI / 180 in
  let scored := (fun '(id, l) => (id, first_pass m min_angle id l)) <$> enumL (m_landmarks m) in
  let failed := fst <$> filter (fun x => x.2 = None) scored in
  let conds := omap (fun '(id, c) => c ← c; Some (id, c)) scored in
  let threshold := average (snd <$> conds) + 1 * deviation (snd <$> conds) in
  let culled := match conds with [] => [] | _ => fst <$> filter (fun x => threshold < x.2) conds end in
  remove_listed m (failed ++ culled).

(** 188-200: the k + 1 nearest points in increasing order of squared distance, without the first (the point itself, or one at the same
    place); their average distance. The kd-tree search is exact (no limit on comparisons): it is modelled by a sort. The
    rounding of the coordinates to single precision is not modelled. *)
Definition dist2 (p q : vec) : R := dot (vsub p q) (vsub p q).
Definition neighbor_average (k : nat) (positions : list vec) (p : vec) : R :=
  let found := take k (drop 1 (merge_sort Rle (dist2 p <$> positions))) in
  match found with [] => 0 | _ => accumulate found / INR (length found) end.
(** 160-222. A negative k is converted to a size_t larger than any number of landmarks. *)
Definition RemoveIsolatedPoints (m : map) (k : Z) : res (nat * map) :=
  if decide (k < 0 \/ Z.of_nat (size (m_landmarks m)) <= k)%Z then Ok (0%nat, m)
  else
    let lms := enumL (m_landmarks m) in
    let positions := (fun x => lm_pos x.2) <$> lms in
    let avg_dists := neighbor_average (Z.to_nat k) positions <$> positions in
    let threshold := average avg_dists + 1.25 * deviation avg_dists in
    remove_listed m (fst <$> filter (fun x : string * R => threshold < x.2) (zip (fst <$> lms) avg_dists)).
End Cull.
