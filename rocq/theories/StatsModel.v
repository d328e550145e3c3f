(** Model of the statistics of reconstructions: /repo/opensfm/stats.py:25-460, over the integers and the reals. Dictionaries whose order is not used are finite maps; the histograms of numpy, the dates and the JSON of the report are not modelled. *)
From stdpp Require Import prelude strings gmap sorting.
From Coq Require Import Reals.
From Verif Require Import Base Lin RotModel PoseModel.
Local Open Scope R_scope.

(** 29-40: points with their numbers of observations; [track_length] is the number of observations of a track *)
Definition point_length (track_length : string -> nat) (p : string * nat) : nat := if decide (p.2 = 0%nat) then track_length p.1 else p.2.
(** hist[k] += v *)
Definition add_count {K} `{Countable K} (k : K) (v : nat) (h : gmap K nat) : gmap K nat := <[k := (default 0 (h !! k) + v)%nat]> h.
Definition length_histogram (track_length : string -> nat) (points : list (string * nat)) : gmap nat nat :=
  foldl (fun h p => add_count (point_length track_length p) 1 h) ∅ points.
Definition by_length (a b : nat * nat) : Prop := (a.1 <= b.1)%nat.
Global Instance by_length_dec : RelDecision by_length. Proof. intros a b. unfold by_length. apply _. Defined.
(** 217-229, 232: the histogram of all reconstructions, sorted *)
Definition hist_agg (track_length : string -> nat) (recs : list (list (string * nat))) : list (nat * nat) :=
  merge_sort by_length (map_to_list (foldl (fun acc points => foldl (fun acc kv => add_count kv.1 kv.2 acc) acc (map_to_list (length_histogram track_length points))) (∅ : gmap nat nat) recs)).
Definition nsum (l : list nat) : nat := foldr Nat.add 0%nat l.
Record track_statistics := TrackStatistics { reconstructed_points_count : nat; observations_count : nat; average_track_length : R; average_track_length_over_two : R; histogram_track_length : list (nat * nat) }.
(** 202-251: the parts about tracks *)
Definition tracks_statistics (track_length : string -> nat) (recs : list (list (string * nat))) : track_statistics :=
  let hist := hist_agg track_length recs in
  let points_count := nsum (length <$> recs) in
  let points_count_over_two := nsum (snd <$> drop 1 hist) in
  let observations := nsum ((fun kv => kv.1 * kv.2)%nat <$> hist) in
  TrackStatistics points_count observations
    (if decide (0 < points_count)%nat then INR observations / INR points_count else -1)
    (if decide (0 < points_count_over_two)%nat then INR (nsum ((fun kv => kv.1 * kv.2)%nat <$> drop 1 hist)) / INR points_count_over_two else -1)
    hist.

(** 140-186: the errors of the observations of a shot; None is not-a-number *)
Record shot_errors := ShotErrors { se_width : nat; se_height : nat; se_normalized : list (R * R); se_pixel : list (R * R); se_angle : list (option R) }.
Definition norm2d (p : R * R) : R := sqrt (p.1 * p.1 + p.2 * p.2).
Definition RESIDUAL_PIXEL_CUTOFF : R := 4.
Record error_sums := ErrorSums { es_normalized : R; es_pixels : R; es_angular : R; es_all : list (R * R * R) }.
Definition add_error (normalizer : R) (acc : error_sums) (e : (R * R) * ((R * R) * option R)) : error_sums :=
  let norm_pixels := norm2d (e.2.1.1 * normalizer, e.2.1.2 * normalizer) in
  match e.2.2 with
  | None => acc
  | Some norm_angle =>
      if Rlt_dec RESIDUAL_PIXEL_CUTOFF norm_pixels then acc
      else ErrorSums (es_normalized acc + norm2d e.1) (es_pixels acc + norm_pixels) (es_angular acc + norm_angle) (es_all acc ++ [(norm2d e.1, norm_pixels, norm_angle)])
  end.
Definition add_shot (acc : error_sums) (s : shot_errors) : error_sums :=
  foldl (add_error (INR (max (se_width s) (se_height s)))) acc (zip (se_normalized s) (zip (se_pixel s) (se_angle s))).
Definition projection_error (recs : list (list shot_errors)) : R * R * R :=
  let sums := foldl (foldl add_shot) (ErrorSums 0 0 0 []) recs in
  let error_count := length (es_all sums) in
  if decide (error_count = 0%nat) then (-1, -1, -1)
  else (es_normalized sums / INR error_count, es_pixels sums / INR error_count, es_angular sums / INR error_count).

(** 43-52: a shot is its camera, its GPS position if it has one and its origin *)
Definition gps_error (biases : gmap string similarity) (shot : string * option vec * vec) : res (option vec) :=
  let '(camera, gps, origin) := shot in
  match gps with
  | None => Ok None
  | Some g => try bias := of_option KeyError (biases !! camera) in Ok (Some (vadd origin (vopp (sim_transform bias g))))
  end.
Definition gps_errors_of (biases : gmap string similarity) (shots : list (string * option vec * vec)) : res (list vec) :=
  foldl (fun acc s => try l := acc in try e := gps_error biases s in Ok (l ++ match e with Some e => [e] | None => [] end)) (Ok []) shots.
(** 78-82 *)
Definition all_gps_errors (recs : list (gmap string similarity * list (string * option vec * vec))) : res (list vec) :=
  foldl (fun acc r => try l := acc in try e := gps_errors_of r.1 r.2 in Ok (l ++ e)) (Ok []) recs.
Definition rsum (l : list R) : R := foldr Rplus 0 l.
Definition rmean (l : list R) : R := rsum l / INR (length l).
(** np.std *)
Definition rstd (l : list R) : R := sqrt (rmean ((fun x => (x - rmean l) * (x - rmean l)) <$> l)).
Record errors_stats := ErrorsStats { st_mean : vec; st_std : vec; st_error : vec; st_average : R }.
(** 55-75: None is the empty dictionary *)
Definition gps_gcp_errors_stats (errors : list vec) : option errors_stats :=
  if decide (length errors = 0%nat) then None
  else let xs := vx <$> errors in let ys := vy <$> errors in let zs := vz <$> errors in
       let rms l := sqrt (rmean ((fun x => x * x) <$> l)) in
       Some (ErrorsStats (Vec (rmean xs) (rmean ys) (rmean zs)) (Vec (rstd xs) (rstd ys) (rstd zs)) (Vec (rms xs) (rms ys) (rms zs)) (rmean (norm <$> errors))).

(** 297-318: a report is None if there is no file, or its wall_time and wall_times *)
Definition step_time (report : option (option R * option (list R))) : R :=
  match report with
  | None => -1
  | Some (Some t, _) => t
  | Some (None, Some l) => rsum l
  | Some (None, None) => -1
  end.
Definition total_time (reports : list (option (option R * option (list R)))) : R :=
  rsum (omap (fun x => if Rle_dec 0 x then Some x else None) (step_time <$> reports)).
(** 327-337: the origins of all shots *)
Definition area (origins : list vec) : R :=
  let '(min_x, min_y, max_x, max_y) := foldl (fun '(a, b, c, d) o => (Rmin a (vx o), Rmin b (vy o), Rmax c (vx o), Rmax d (vy o))) (10 ^ 30, 10 ^ 30, 0, 0) origins in
  if Req_EM_T min_x (10 ^ 30) then -1 else (max_x - min_x) * (max_y - min_y).

(** 348-359, 373-378: the dictionaries of detected and reconstructed features; None is -1 everywhere. Means and medians, of doubles in the code, are rounded down *)
Record summary := Summary { su_min : nat; su_max : nat; su_mean : nat; su_median : nat }.
Definition nmedian (l : list nat) : nat :=
  let s := merge_sort le l in
  let n := length l in
  if decide (n mod 2 = 1)%nat then default 0%nat (s !! (n / 2)%nat) else ((default 0 (s !! (n / 2 - 1)) + default 0 (s !! (n / 2))) / 2)%nat.
Definition summary_of (l : list nat) : option summary :=
  match l with
  | [] => None
  | x :: r => Some (Summary (foldl min x r) (foldl max x r) (nsum l / length l) (nmedian l))
  end.
(** 361-371: reconstructions are their points and shots; [observations] gives the tracks of a shot, None if the shot is not in the tracks manager *)
Definition per_shots (observations : string -> option (list string)) (recs : list (gset string * list string)) : gmap string nat :=
  foldl (fun acc r => foldl (fun acc s => match observations s with
                                          | None => acc
                                          | Some l => foldl (fun acc p => if decide (p ∈ r.1) then add_count s 1 acc else acc) acc l
                                          end) acc r.2) (∅ : gmap string nat) recs.

(** 390-414: [recs], in the order of argsort, which is not stable, are the cameras of the reconstructions; initial and optimized values *)
Definition camera_step {A} (stats : res (gmap string (A * option A))) (c : string * A) : res (gmap string (A * option A)) :=
  try stats := stats in
  try e := of_option KeyError (stats !! c.1) in
  match e.2 with Some _ => Ok stats | None => Ok (<[c.1 := (e.1, Some c.2)]> stats) end.
Definition cameras_statistics {A} (models : gmap string A) (recs : list (list (string * A))) : res (gmap string (A * A)) :=
  try stats := foldl (foldl camera_step) (Ok ((fun m => (m, None)) <$> models)) recs in
  Ok (omap (fun e => (fun o => (e.1, o)) <$> e.2) stats).
