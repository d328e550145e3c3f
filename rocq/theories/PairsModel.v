(** Model of /repo/opensfm/pairs_selection.py: the selection of the image pairs to match. *)
From stdpp Require Import prelude gmap strings sorting.
From Verif Require Import Base.

Notation image := string (only parsing).
Notation pair := (string * string)%type.

(** pairs_selection.py:29-33. Python compares strings by code points; [String.ltb] compares bytes, which is the same order
    on UTF-8. *)
Definition sorted_pair (im1 im2 : image) : pair := if String.ltb im1 im2 then (im1, im2) else (im2, im1).

(** ** ordered_pairs, pairs_selection.py:750-782 *)
(** 757-760: the adjacency lists; [pairs] is the set in its iteration order *)
Definition push (m : gmap string (list string)) (k v : string) : gmap string (list string) := <[k := default [] (m !! k) ++ [v]]> m.
Definition per_image (pairs : list pair) : gmap string (list string) :=
  foldl (fun m '(im1, im2) => push (push m im1 im2) im2 im1) ∅ pairs.
(** python truth of an optional string: the empty string counts as missing *)
Definition truthy (n : option string) : bool := match n with Some s => bool_decide (s <> "") | None => false end.
Record walk := Walk { w_next : option string; w_ordered : gset pair; w_remaining : gset string }.
(** 770-775 *)
Fixpoint scan (im1 : image) (l : list image) (w : walk) : walk :=
  match l with
  | [] => w
  | im2 :: l' =>
      scan im1 l'
        (if decide ((im2, im1) ∈ w_ordered w) then w
         else let ordered := {[ (im1, im2) ]} ∪ w_ordered w in
              if negb (truthy (w_next w)) && bool_decide (im2 ∈ w_remaining w)
              then Walk (Some im2) ordered (w_remaining w ∖ {[ im2 ]})
              else Walk (w_next w) ordered (w_remaining w))
  end.
(** [remaining.pop()] returns an arbitrary element: [pick] chooses it, differently at each call if it likes. *)
Section Ordered.
Variable pick : nat -> gset string -> string.
(** 766-778, the while loop; it runs at most once per reference image *)
Fixpoint visit (fuel : nat) (adj : gmap string (list string)) (w : walk) : res (gset pair) :=
  match w_next w with
  | Some im1 =>
      if decide (im1 = "") then Ok (w_ordered w) else
      match fuel with
      | 0 => Err Diverges
      | S fuel' =>
          let w1 := scan im1 (default [] (adj !! im1)) (Walk None (w_ordered w) (w_remaining w)) in
          let w2 := if negb (truthy (w_next w1)) && bool_decide (w_remaining w1 <> ∅)
                    then let x := pick fuel (w_remaining w1) in Walk (Some x) (w_ordered w1) (w_remaining w1 ∖ {[ x ]})
                    else w1 in
          visit fuel' adj w2
      end
  | None => Ok (w_ordered w)
  end.
(** 762-782; the result is the set [ordered] in some order *)
Definition ordered_pairs (pairs : list pair) (images_ref : list image) : res (gset pair) :=
  let remaining : gset string := list_to_set images_ref in
  if decide (remaining = ∅) then Ok ∅ else
  let x := pick (S (size remaining)) remaining in
  visit (size remaining) (per_image pairs) (Walk (Some x) ∅ (remaining ∖ {[ x ]})).
End Ordered.

(** ** Sequence order, pairs_selection.py:523-539 *)
Definition candidates_by_order (images_ref images_cand : list image) (max_neighbors : Z) : gset pair :=
  if decide (max_neighbors <= 0)%Z then ∅ else
  let n := Z.to_nat ((max_neighbors + 1) / 2) in
  list_to_set (mjoin (imap (fun i image_ref =>
    let a := i - n in
    let b := length images_cand `min` (i + n) in
    omap (fun j => image_cand ← images_cand !! j;
                   if decide (image_ref <> image_cand) then Some (sorted_pair image_ref image_cand) else None) (seq a (b - a))) images_ref)).

Section Knn.
(** Distances: any type with a decidable order; points: any type. *)
Context {D Pt : Type} (le : D -> D -> Prop) `{!RelDecision le}.
Variable zero big : D.                        (* 0 and 99999999.0 *)
Variable origin : Pt.                         (* a row of np.zeros *)
(** scipy's cKDTree(points).query(point, k=nn, distance_upper_bound=bound): [nn] indices, padded with [len(points)] *)
Variable query : list Pt -> Pt -> nat -> D -> list nat.

(** The loop shared by pairs_selection.py:194-213 and 500-520: the [nn] nearest candidates of each reference image. A
    query with less than one neighbour raises ValueError. *)
Definition ref_neighbours (points : list Pt) (point : Pt) (image_ref : image) (images_cand : list image) (k : Z) (bound : D) : res (list pair) :=
  let nn := (if decide (image_ref ∈ images_cand) then k + 1 else k)%Z in
  if decide (nn < 1)%Z then Err ValueError else
  Ok (omap (fun j => image_cand ← images_cand !! j;
                     if decide (image_cand <> image_ref) then Some (sorted_pair image_ref image_cand) else None)
           (query points point (Z.to_nat nn) bound)).
Fixpoint all_neighbours (points : list Pt) (at_ : image -> option Pt) (images_ref images_cand : list image) (k : Z) (bound : D) : res (list pair) :=
  match images_ref with
  | [] => Ok []
  | r :: rs =>
      try point := of_option KeyError (at_ r) in
      try l := ref_neighbours points point r images_cand k bound in
      try ls := all_neighbours points at_ rs images_cand k bound in
      Ok (l ++ ls)
  end.

(** ** GPS distance, pairs_selection.py:154-214. [gps] is the representative point of each image that has one
    (get_representative_points, 104-151, computes them; the orientation based variant only moves them). *)
Definition candidates_by_distance (gps : image -> option Pt) (images_ref images_cand : list image) (max_neighbors : Z) (max_distance : D) : res (gset pair) :=
  if decide (images_cand = []) then Ok ∅ else
  if bool_decide (max_neighbors <= 0)%Z && bool_decide (le max_distance zero) then Ok ∅ else
  let max_neighbors := if decide (max_neighbors = 0)%Z then 99999999%Z else max_neighbors in
  let max_distance := if decide (le max_distance zero /\ le zero max_distance) then big else max_distance in
  let k := (Z.of_nat (length images_cand) `min` max_neighbors)%Z in
  let all := remove_dups (images_cand ++ images_ref) in
  let found := filter (fun im => is_Some (gps im)) all in
  if decide (length found <> length all) then Ok ∅ else
  if decide (length found < length images_cand) then Err IndexError else
  try rows := foldr (fun im acc => try l := acc in try p := of_option KeyError (gps im) in Ok (p :: l)) (Ok []) images_cand in
  let points := rows ++ replicate (length found - length images_cand) origin in
  try l := all_neighbours points gps images_ref images_cand k max_distance in
  Ok (list_to_set l).

(** ** Capture time, pairs_selection.py:481-520 *)
Variable infinity : D.                         (* the default distance_upper_bound *)
Definition candidates_by_time (time : image -> option Pt) (images_ref images_cand : list image) (max_neighbors : Z) : res (gset pair) :=
  if decide (max_neighbors <= 0)%Z then Ok ∅ else
  let k := (Z.of_nat (length images_cand) `min` max_neighbors)%Z in
  try rows := foldr (fun im acc => try l := acc in try p := of_option KeyError (time im) in Ok (p :: l)) (Ok []) images_cand in
  try l := all_neighbours rows time images_ref images_cand k infinity in
  Ok (list_to_set l).

End Knn.

(** ** Visual similarity *)
Section Metric.
Context {D Pt T : Type} (le : D -> D -> Prop) `{!RelDecision le}.
Variable zero big infinity : D. Variable origin : Pt.
Variable query : list Pt -> Pt -> nat -> D -> list nat.
Variable time_query : list T -> T -> nat -> D -> list nat.
(** np.argsort *)
Variable argsort : list D -> list nat.
Section Hist.
Context {H : Type}.
Variable hdist : H -> H -> D.
(** bow_distances, pairs_selection.py:637-656; compute_vlad_distances, src/features/src/matching.cc:121-145 loops over the
    sorted set of the other images instead *)
Definition hist_distances (hist : image -> option H) (im : image) (others : list image) : image * list D * list image :=
  match hist im with
  | None => (im, [], [])
  | Some h =>
      let l := omap (fun im2 => if decide (im2 <> im) then h2 ← hist im2; Some (hdist h h2, im2) else None) others in
      (im, l.*1, l.*2)
  end.
End Hist.

(** pairs_from_neighbors, pairs_selection.py:711-747 *)
Definition put_pairs (im : image) (l : list (image * D)) (m : gmap pair D) : gmap pair D :=
  foldl (fun m '(im2, d) => <[sorted_pair im im2 := d]> m) m l.
Fixpoint split_cameras (cam : image -> string) (im : image) (n : nat) (l : list (image * D)) (same other : list (image * D)) : list (image * D) * list (image * D) :=
  match l with
  | [] => (same, other)
  | (im2, d) :: l' =>
      let '(same1, other1) :=
        if decide (cam im2 = cam im)
        then (if decide (length same < n) then same ++ [(im2, d)] else same, other)
        else (same, if decide (length other < n) then other ++ [(im2, d)] else other) in
      if decide (2 * n <= length same1 + length other1) then (same1, other1)
      else split_cameras cam im n l' same1 other1
  end.
(** [other[i]], [distances[i]] for i in order *)
Definition in_order (order : list nat) (distances : list D) (other : list image) : list (image * D) :=
  omap (fun i => im2 ← other !! i; d ← distances !! i; Some (im2, d)) order.
Definition pairs_from_neighbors (cam : image -> string) (im : image) (distances : list D) (order : list nat) (other : list image) (n : nat) : gmap pair D :=
  let '(same, others) := split_cameras cam im n (in_order order distances other) [] [] in
  put_pairs im (same ++ others) ∅.

(** construct_pairs, pairs_selection.py:420-444; [m ∪ m'] with the entries of the new map first is dict.update *)
Fixpoint construct_pairs (cam : image -> string) (results : list (image * list D * list image)) (n : nat) (enforce : bool) (pairs : gmap pair D) : gmap pair D :=
  match results with
  | [] => pairs
  | (im, distances, other) :: rs =>
      let order := argsort distances in
      construct_pairs cam rs n enforce
        (if enforce then pairs_from_neighbors cam im distances order other n ∪ pairs
         else put_pairs im (in_order (take n order) distances other) pairs)
  end.

(** preempt_candidates, pairs_selection.py:383-417, without the set of images to load; [enumP] is the iteration order of
    the set of GPS pairs, the result is the dict in insertion order *)
Variable enumP : gset pair -> list pair.
Fixpoint push_assoc (k v : string) (l : list (string * list string)) : list (string * list string) :=
  match l with
  | [] => [(k, [v])]
  | (k', vs) :: l' => if decide (k' = k) then (k', vs ++ [v]) :: l' else (k', vs) :: push_assoc k v l'
  end.
Definition preempt_candidates (gps : image -> option Pt) (images_ref images_cand : list image) (max_gps_neighbors : Z) (max_gps_distance : D) : res (list (string * list string)) :=
  if negb (bool_decide (le max_gps_distance zero)) || bool_decide (0 < max_gps_neighbors)%Z then
    try gps_pairs := candidates_by_distance le zero big origin query gps images_ref images_cand max_gps_neighbors max_gps_distance in
    Ok (foldl (fun acc '(p0, p1) =>
          let acc1 := if decide (p0 ∈ images_ref) then push_assoc p0 p1 acc else acc in
          if decide (p1 ∈ images_ref) then push_assoc p1 p0 acc1 else acc1) [] (enumP gps_pairs))
  else Ok (map (fun im => (im, images_cand)) (remove_dups images_ref)).

(** match_candidates_with_bow / compute_bow_affinity, 287-344 (parallel_map keeps the order of its arguments) *)
Context {H : Type}.
Variable hdist : H -> H -> D.
Definition candidates_with_bow (gps : image -> option Pt) (hist : image -> option H) (cam : image -> string)
    (images_ref images_cand : list image) (n : Z) (max_gps_distance : D) (max_gps_neighbors : Z) (enforce : bool) : res (gmap pair D) :=
  if decide (n <= 0)%Z then Ok ∅ else
  try pre := preempt_candidates gps images_ref images_cand max_gps_neighbors max_gps_distance in
  Ok (construct_pairs cam (map (fun '(im, cands) => hist_distances hdist hist im cands) pre) (Z.to_nat n) enforce ∅).
(** match_candidates_with_vlad / compute_vlad_affinity, 330-415 *)
Definition names_le (a b : string) : Prop := String.leb a b = true.
Global Instance names_le_dec : RelDecision names_le := fun a b => decide (String.leb a b = true).
Definition candidates_with_vlad (gps : image -> option Pt) (hist : image -> option H) (cam : image -> string)
    (images_ref images_cand : list image) (n : Z) (max_gps_distance : D) (max_gps_neighbors : Z) (enforce : bool) : res (gmap pair D) :=
  if decide (n <= 0)%Z then Ok ∅ else
  try pre := preempt_candidates gps images_ref images_cand max_gps_neighbors max_gps_distance in
  let pre := if decide (pre = []) then map (fun im => (im, images_cand)) (remove_dups images_ref) else pre in
  Ok (construct_pairs cam (map (fun '(im, cands) => hist_distances hdist hist im (merge_sort names_le (remove_dups cands))) pre) (Z.to_nat n) enforce ∅).

(** ** Triangulation, pairs_selection.py:222-284. [triangles] lists the simplices of all the rounds (scipy's Delaunay of the
    points, then of jittered points); [enumI] is the order of list(images_cand_set | images_ref_set). *)
Definition candidates_by_graph (images : list image) (triangles : list (nat * nat * nat)) (images_ref images_cand : list image) (rounds : Z) : gset pair :=
  if bool_decide (length images_cand < 4) || bool_decide (rounds < 1)%Z then ∅ else
  list_to_set (omap (fun '(v1, v2) =>
    image1 ← images !! v1; image2 ← images !! v2;
    if decide (image1 = image2) then None else
    if decide (image1 ∈ images_cand /\ image2 ∈ images_ref \/ image2 ∈ images_cand /\ image1 ∈ images_ref)
    then Some (sorted_pair image1 image2) else None)
    (mjoin (map (fun '(a, b, c) => [(a, b); (a, c); (b, c)]) triangles))).

(** ** match_candidates_from_metadata, pairs_selection.py:542-634 *)
Record config := Config {
  matching_gps_distance : D; matching_gps_neighbors : Z; matching_graph_rounds : Z; matching_time_neighbors : Z;
  matching_order_neighbors : Z; matching_bow_neighbors : Z; matching_bow_gps_distance : D; matching_bow_gps_neighbors : Z;
  matching_bow_other_cameras : bool; matching_vlad_neighbors : Z; matching_vlad_gps_distance : D;
  matching_vlad_gps_neighbors : Z; matching_vlad_other_cameras : bool }.
(** max_distance == gps_neighbors == ... == 0 *)
Definition all_disabled (gd : D) (gn tn on bn vn gr : Z) : Prop :=
  (le gd zero /\ le zero gd) /\ gn = 0%Z /\ tn = 0%Z /\ on = 0%Z /\ bn = 0%Z /\ vn = 0%Z /\ gr = 0%Z.
Global Instance all_disabled_dec gd gn tn on bn vn gr : Decision (all_disabled gd gn tn on bn vn gr).
Proof. unfold all_disabled. apply _. Defined.
(** 609: every reference with every candidate *)
Definition all_pairs (images_ref images_cand : list image) : gset pair :=
  list_to_set (mjoin (map (fun i => omap (fun j => if decide (i <> j) then Some (sorted_pair i j) else None) images_cand) images_ref)).
Variable pick : nat -> gset string -> string.
(** 542-634. [all_gps] is the test that every exif has a position. *)
Definition match_candidates (cfg : config) (all_gps : bool) (gps : image -> option Pt) (time : image -> option T)
    (bow vlad : image -> option H) (cam : image -> string) (graph_images : list image) (triangles : list (nat * nat * nat))
    (images_ref images_cand : list image) : res (gset pair) :=
  let gn := if all_gps then matching_gps_neighbors cfg else 0%Z in
  let gd := if all_gps then matching_gps_distance cfg else zero in
  let gr := if all_gps then matching_graph_rounds cfg else 0%Z in
  let refs := merge_sort names_le images_ref in
  try pairs := (
    if decide (all_disabled gd gn (matching_time_neighbors cfg) (matching_order_neighbors cfg) (matching_bow_neighbors cfg) (matching_vlad_neighbors cfg) gr)
    then Ok (all_pairs refs images_cand)
    else
      try d := candidates_by_distance le zero big origin query gps refs images_cand gn gd in
      let g := candidates_by_graph graph_images triangles refs images_cand gr in
      try t := candidates_by_time time_query infinity time refs images_cand (matching_time_neighbors cfg) in
      let o := candidates_by_order refs images_cand (matching_order_neighbors cfg) in
      try b := candidates_with_bow gps bow cam refs images_cand (matching_bow_neighbors cfg) (matching_bow_gps_distance cfg) (matching_bow_gps_neighbors cfg) (matching_bow_other_cameras cfg) in
      try v := candidates_with_vlad gps vlad cam refs images_cand (matching_vlad_neighbors cfg) (matching_vlad_gps_distance cfg) (matching_vlad_gps_neighbors cfg) (matching_vlad_other_cameras cfg) in
      Ok (d ∪ g ∪ t ∪ o ∪ dom b ∪ dom v)) in
  ordered_pairs pick (enumP pairs) refs.
End Metric.
