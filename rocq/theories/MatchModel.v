(** Model of /repo/opensfm/matching.py (descriptor matchers, filters, unfiltering, the match() pipeline, saving), of
    src/features/src/matching.cc (MatchUsingWords) and of the readers of the match files in dataset.py and tracking.py. *)
From stdpp Require Import prelude list sorting gmap strings.
From Verif Require Import Base.

(** A match: index of a feature in the first image, index of a feature in the second one. *)
Notation fmatch := (nat * nat)%type.
Definition swap (p : fmatch) : fmatch := (p.2, p.1).

(** ** Descriptor matchers *)
Section Matchers.
(** Distances between descriptors: values compared by [le]; [below a b] is the test "a < ratio * b" as computed. *)
Context {D : Type} (le : relation D) `{!RelDecision le} (below : D -> D -> bool).
(** list(set): the order of the resulting matches is not specified *)
Context (enum : gset fmatch -> list fmatch).

(** cv2.DescriptorMatcher.knnMatch with k=2 for one query: the at most two allowed train features of smallest distance,
    nearest first. A library function: modelled as a stable sort by distance. *)
Definition nearer (d : nat -> D) : relation nat := fun a b => le (d a) (d b).
Global Instance nearer_dec d : RelDecision (nearer d) := fun a b => decide_rel le (d a) (d b).
Definition knn2 (d : nat -> D) (allowed : list nat) : list nat := take 2 (merge_sort (nearer d) allowed).

(** match_brute_force, matching.py:724-757. [d i j]: distance of feature i of the first image to feature j of the second;
    [mask i j]: the epipolar mask (true everywhere when there is none). *)
Definition match_brute_force (n1 n2 : nat) (d : nat -> nat -> D) (mask : nat -> nat -> bool) : list fmatch :=
  omap (fun i =>
    match knn2 (d i) (filter (fun j => mask i j = true) (seq 0 n2)) with
    | [m; n] => if below (d i m) (d i n) then Some (i, m) else None
    | _ => None
    end) (seq 0 n1).

(** The intersection that closes all three symmetric matchers, matching.py:680-685, 719-722, 774-778 *)
Definition keep_symmetric (ij ji : list fmatch) : list fmatch :=
  enum (list_to_set ij ∩ list_to_set (map swap ji)).

(** match_brute_force_symmetric, 760-778. The L2 and Hamming distances do not depend on the order of their arguments. *)
Definition match_brute_force_symmetric (n1 n2 : nat) (d : nat -> nat -> D) (mask : nat -> nat -> bool) : list fmatch :=
  keep_symmetric (match_brute_force n1 n2 d mask) (match_brute_force n2 n1 (fun j i => d i j) (fun j i => mask i j)).

(** match_flann, 684-699. [search q]: the two (approximate) neighbours of the query feature q of the second image in the
    index of the first one and their squared distances; for squared distances [below] is the test with the squared ratio. *)
Definition match_flann (search : nat -> (nat * nat) * (D * D)) (n2 : nat) : list fmatch :=
  omap (fun q => let '((a, _), (da, db)) := search q in if below da db then Some (a, q) else None) (seq 0 n2).
(** match_flann_symmetric, 702-722 *)
Definition match_flann_symmetric (search1 search2 : nat -> (nat * nat) * (D * D)) (n1 n2 : nat) : list fmatch :=
  keep_symmetric (match_flann search1 n2) (match_flann search2 n1).

(** MatchUsingWords, matching.cc:24-70. Distances start at infinity: None. *)
Definition best2 : Type := option (nat * D) * option D.
Definition less_inf (x : D) (y : option D) : bool := match y with None => true | Some y => bool_decide (~ le y x) end.
(** 49-59: one candidate *)
Definition visit_word (d : nat -> D) (st : best2) (j : nat) : best2 :=
  let x := d j in
  if less_inf x (snd <$> st.1) then (Some (j, x), snd <$> st.1)
  else if less_inf x st.2 then (st.1, Some x)
  else st.
(** 43-65: the words of one feature, nearest first; words2 is the first column, one word per feature *)
Fixpoint visit_words (d : nat -> D) (w2 : list nat) (max_checks : Z) (words : list nat) (checks : nat) (st : best2) : best2 :=
  match words with
  | [] => st
  | w :: rest =>
      let found := filter (fun j => w2 !! j = Some w) (seq 0 (length w2)) in (* equal_range: equal keys in insertion order *)
      let st' := foldl (visit_word d) st found in
      if decide (max_checks <= Z.of_nat (checks + length found))%Z then st' else visit_words d w2 max_checks rest (checks + length found) st'
  end.
(** 66: best < lowes_ratio * second_best; with a positive ratio, ratio * infinity is infinity, and infinity < infinity is false *)
Definition word_match (i : nat) (st : best2) : option fmatch :=
  match st with
  | (Some (j, x), Some y) => if below x y then Some (i, j) else None
  | (Some (j, x), None) => Some (i, j)
  | (None, _) => None
  end.
(** match_words, matching.py:643-663 *)
Definition match_words (d : nat -> nat -> D) (words1 : list (list nat)) (w2 : list nat) (max_checks : Z) : list fmatch :=
  omap (fun '(i, words) => word_match i (visit_words (d i) w2 max_checks words 0 (None, None))) (imap pair words1).
(** match_words_symmetric, 666-685: words[:, 0] is the column of nearest words *)
Definition first_column (words : list (list nat)) : list nat := map (fun r => hd 0 r) words.
Definition match_words_symmetric (d : nat -> nat -> D) (words1 words2 : list (list nat)) (max_checks : Z) : list fmatch :=
  keep_symmetric (match_words d words1 (first_column words2) max_checks)
                 (match_words (fun j i => d i j) words2 (first_column words1) max_checks).
End Matchers.

(** ** Filters, matching.py:929-1064 *)
(** _non_static_matches, 952-974: [static] is the test of 966 negated; 0.85 = 17/20 in exact arithmetic *)
Definition non_static_matches (static : fmatch -> bool) (matches : list fmatch) : list fmatch :=
  let res := filter (fun m => static m = false) matches in
  let n := length matches `max` 1 in
  if decide (20 * length res < 3 * n) then matches else res.
(** _not_on_pano_poles_matches, 977-1003: [lat1 i] is min_lat < p1[i][1] < max_lat *)
Definition not_on_pano_poles (pano1 pano2 : bool) (lat1 lat2 : nat -> bool) (matches : list fmatch) : list fmatch :=
  if pano1 || pano2 then filter (fun m => (negb pano1 || lat1 m.1) && (negb pano2 || lat2 m.2) = true) matches else matches.
(** _not_on_vermont_watermark 1006-1032, _not_on_blackvue_watermark 1035-1064: [is1]: the first image is of that make,
    [valid1 i]: feature i is outside of the watermark *)
Definition not_on_watermark (is1 is2 : bool) (valid1 valid2 : nat -> bool) (matches : list fmatch) : list fmatch :=
  let matches := if is1 then filter (fun m => valid1 m.1 = true) matches else matches in
  if is2 then filter (fun m => valid2 m.2 = true) matches else matches.
(** What apply_adhoc_filters reads in the images and their metadata *)
Record adhoc := Adhoc {
  static : fmatch -> bool; pano1 : bool; pano2 : bool; lat1 : nat -> bool; lat2 : nat -> bool;
  vermont1 : bool; vermont2 : bool; vermont_valid1 : nat -> bool; vermont_valid2 : nat -> bool;
  blackvue1 : bool; blackvue2 : bool; blackvue_valid1 : nat -> bool; blackvue_valid2 : nat -> bool }.
(** apply_adhoc_filters, 929-949 *)
Definition apply_adhoc_filters (f : adhoc) (matches : list fmatch) : list fmatch :=
  let m := non_static_matches (static f) matches in
  let m := not_on_pano_poles (pano1 f) (pano2 f) (lat1 f) (lat2 f) m in
  let m := not_on_watermark (vermont1 f) (vermont2 f) (vermont_valid1 f) (vermont_valid2 f) m in
  not_on_watermark (blackvue1 f) (blackvue2 f) (blackvue_valid1 f) (blackvue_valid2 f) m.

(** ** Robust matching *)
(** matches[inliers] *)
Fixpoint select {A} (mask : list bool) (l : list A) : list A :=
  match mask, l with
  | b :: mask', x :: l' => if b then x :: select mask' l' else select mask' l'
  | _, _ => []
  end.
(** robust_match, 891-919, with robust_match_fundamental 781-803 or robust_match_calibrated 855-888: [ransac] stands for the
    estimation (random, numerical), which answers no model or a mask of inliers. *)
Definition robust_match (ransac : list fmatch -> option (list bool)) (matches : list fmatch) : list fmatch :=
  if decide (length matches < 8) then [] else
  match ransac matches with None => [] | Some inliers => select inliers matches end.

(** ** From masked to original features *)
(** np.flatnonzero *)
Definition flatnonzero (mask : list bool) : list nat := filter (fun i => mask !! i = Some true) (seq 0 (length mask)).
(** unfilter_matches, 922-926 *)
Definition unfilter_matches (matches : list fmatch) (m1 m2 : list bool) : res (list fmatch) :=
  let i1 := flatnonzero m1 in
  let i2 := flatnonzero m2 in
  foldr (fun '(a, b) r => try l := r in try x := of_option IndexError (i1 !! a) in try y := of_option IndexError (i2 !! b) in Ok ((x, y) :: l)) (Ok []) matches.

(** FeaturesData.mask (features.py:82-93): indexing an array by a boolean mask is [select]. *)

(** match, 559-640. [m1], [m2]: the feature masks (feature_loading.py:32-70), as long as the feature lists; [matcher n1 n2]:
    the descriptor matcher of _match_descriptors_impl (346-435) or of the guided version on the masked features; the masked
    features of both images are counted first (373-379). *)
Definition masked_count (m : list bool) : nat := length (flatnonzero m).
Definition match_images_pair (matcher : list fmatch) (filters : option adhoc) (ransac : list fmatch -> option (list bool))
    (min_match : nat) (m1 m2 : list bool) : res (list fmatch) :=
  let matches := if decide (masked_count m1 < 2 \/ masked_count m2 < 2) then []
                 else match filters with Some f => apply_adhoc_filters f matcher | None => matcher end in
  if decide (length matches < min_match) then Ok [] else
  try rmatches := unfilter_matches (robust_match ransac matches) m1 m2 in
  if decide (length rmatches < min_match) then Ok [] else Ok rmatches.

(** ** Saving and finding matches *)
(** The match files: image -> dictionary other image -> matches. *)
Notation files := (gmap string (gmap string (list fmatch))).
(** save_matches, 127-152. [pairs]: matched_pairs.items(). The files are written only after all pairs were assigned. *)
Definition assign_pair (images_ref : list string) (acc : res files) (p : (string * string) * list fmatch) : res files :=
  try per_im := acc in
  let '((im1, im2), m) := p in
  if decide (im1 ∈ images_ref) then Ok (<[im1 := <[im2 := m]> (default ∅ (per_im !! im1))]> per_im)
  else if decide (im2 ∈ images_ref) then Ok (<[im2 := <[im1 := m]> (default ∅ (per_im !! im2))]> per_im)
  else Err RuntimeError.
Definition save_matches (disk : files) (images_ref : list string) (pairs : list ((string * string) * list fmatch)) : res files :=
  let empty : files := list_to_map (map (fun im => (im, ∅)) images_ref) in
  try per_im := foldl (assign_pair images_ref) (Ok empty) pairs in
  Ok (per_im ∪ disk). (* data.save_matches writes or overwrites the file of every reference *)
(** find_matches, dataset.py:394-404 *)
Definition find_matches (disk : files) (im1 im2 : string) : list fmatch :=
  match disk !! im1 ≫= (.!! im2) with
  | Some m => m
  | None => match disk !! im2 ≫= (.!! im1) with Some m => map swap m | None => [] end
  end.
(** load_matches, tracking.py:56-69: a missing file is skipped *)
Definition load_image (disk : files) (images : list string) (im1 : string) (acc : gmap (string * string) (list fmatch)) : gmap (string * string) (list fmatch) :=
  match disk !! im1 with
  | None => acc
  | Some f => map_fold (fun im2 m acc => if decide (im2 ∈ images) then <[(im1, im2) := m]> acc else acc) acc f
  end.
Definition load_matches (disk : files) (images : list string) : gmap (string * string) (list fmatch) :=
  foldl (fun acc im1 => load_image disk images im1 acc) ∅ images.
(** match_images_with_pairs, matching.py:62-95: the results of parallel_map come in the order of the arguments (context.py:22-42) *)
Definition match_images_with_pairs (mtch : string -> string -> list fmatch) (pairs : list (string * string)) : gmap (string * string) (list fmatch) :=
  foldl (fun acc '(im1, im2) => <[(im1, im2) := mtch im1 im2]> acc) ∅ pairs.
