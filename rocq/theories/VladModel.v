(** Model of the vectors that images are compared by: /repo/opensfm/vlad.py, bow.py and src/features/src/matching.cc:90-145. Real numbers stand for the floating point
    numbers, so a squared distance is always below the largest float with which the search starts. *)
From stdpp Require Import prelude strings gmap.
From Coq Require Import Reals.
From Verif Require Import Base.
Local Open Scope R_scope.

(** A matrix: the number of columns and the rows *)
Record matrix := Matrix { m_cols : nat; m_rows : list (list R) }.
Definition total (l : list R) : R := foldr Rplus 0 l.
(** (feature - center).squaredNorm() *)
Definition squared_norm (u v : list R) : R := total (zip_with (fun x y => (x - y) * (x - y)) u v).
(** matching.cc:105-113: the loop over the centers, from the j-th on; None is the start, the largest float and the center -1 *)
Fixpoint best_center (feature : list R) (centers : list (list R)) (j : nat) (best : option (R * nat)) : option (R * nat) :=
  match centers with
  | [] => best
  | c :: centers =>
      let d := squared_norm feature c in
      best_center feature centers (S j) (match best with Some (b, _) => if Rlt_dec d b then Some (d, j) else best | None => Some (d, j) end)
  end.
(** matching.cc:115-116: segment(start, size) += s *)
Definition add_segment (v : list R) (start : nat) (s : list R) : list R := take start v ++ zip_with Rplus (drop start v) s ++ drop (start + length s) v.
Definition add_feature (centers : matrix) (v : list R) (feature : list R) : list R :=
  match best_center feature (m_rows centers) 0 None with
  | Some (_, j) => match m_rows centers !! j with Some c => add_segment v (j * m_cols centers) (zip_with Rminus feature c) | None => v end
  | None => v
  end.
(** matching.cc:90-119 *)
Definition compute_vlad_descriptor (features centers : matrix) : res (list R) :=
  if decide (length (m_rows centers) = 0%nat \/ m_cols centers = 0%nat) then Err RuntimeError
  else Ok (foldl (add_feature centers) (replicate (length (m_rows centers) * m_cols centers) 0) (m_rows features)).
(** vlad.py:11-22; whether the types of the numbers agree is an argument *)
Definition unnormalized_vlad (same_type : bool) (features centers : matrix) : res (option (list R)) :=
  if decide (m_cols centers = m_cols features) then if same_type then try v := compute_vlad_descriptor features centers in Ok (Some v) else Ok None else Ok None.
(** vlad.py:25-33; None where all the components are not-a-numbers, 0 / 0 *)
Definition sign (x : R) : R := if Rlt_dec x 0 then -1 else if Rlt_dec 0 x then 1 else 0.
Definition norm_of (v : list R) : R := sqrt (total ((fun x => x * x) <$> v)).
Definition signed_square_root_normalize (v : list R) : option (list R) :=
  let v := (fun x => sign x * sqrt (Rabs x)) <$> v in
  if Req_EM_T (norm_of v) 0 then None else Some ((fun x => x / norm_of v) <$> v).
(** vlad.py:64-79, without the cache: None is no histogram, Some None a histogram of not-a-numbers *)
Definition vlad_histogram (same_type : bool) (words : matrix) (descriptors : option matrix) : res (option (option (list R))) :=
  match descriptors with
  | None => Ok None
  | Some d => try v := unnormalized_vlad same_type d words in Ok (signed_square_root_normalize <$> v)
  end.
(** matching.cc:121-145; the other images in the order of the set *)
Definition compute_vlad_distances (descriptors : gmap string (list R)) (image : string) (other_images : list string) : list R * list string :=
  match descriptors !! image with
  | None => ([], [])
  | Some reference =>
      foldl (fun acc candidate => if decide (candidate = image) then acc else
        match descriptors !! candidate with None => acc | Some v => (acc.1 ++ [norm_of (zip_with Rminus reference v)], acc.2 ++ [candidate]) end) ([], []) other_images
  end.
(** bow.py:12-15 *)
Definition word_weights (frequencies : list R) : list R := (fun f => ln (total frequencies / f)) <$> frequencies.
(** np.bincount with minlength: a ValueError for a negative word *)
Definition bincount (words : list Z) (minlength : nat) : res (list R) :=
  if decide (Exists (fun w => (w < 0)%Z) words) then Err ValueError
  else let n := foldr (fun w n => Nat.max (S (Z.to_nat w)) n) minlength words in
       Ok ((fun i => INR (length (filter (fun w => w = Z.of_nat i) words))) <$> seq 0 n).
(** bow.py:34-36; None where the sum is 0 and all the components are not-a-numbers. The ValueError is the one of factors of different lengths (a vocabulary of one word,
    which numpy repeats, is not modelled) *)
Definition bow_histogram (frequencies : list R) (words : list Z) : res (option (list R)) :=
  try counts := bincount words (length frequencies) in
  if decide (length counts = length frequencies) then
    let h := zip_with Rmult counts (word_weights frequencies) in
    Ok (if Req_EM_T (total h) 0 then None else Some ((fun x => x / total h) <$> h))
  else Err ValueError.
(** bow.py:38-49 and pairs_selection.py:690-707 *)
Definition bow_distance (h1 h2 : list R) : R := total (zip_with (fun x y => Rabs (x - y)) h1 h2).
