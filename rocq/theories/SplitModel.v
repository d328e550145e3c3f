(** Model of the split of a dataset into submodels: /repo/opensfm/actions/create_submodels.py, /repo/opensfm/large/tools.py:48-74 and
    /repo/opensfm/large/metadataset.py, in exact real arithmetic. Not modelled: the links to the images and to the other files of the
    dataset, the geojson reports, the centers of the clusters (only their number is used), a negative overlap. *)
From stdpp Require Import prelude gmap strings pretty sorting.
From Coq Require Import Ascii Reals.
From Coq Require String.
From Verif Require Import Base Lin TextModel PyText GeoModel RigModel BundleModel.
Local Open Scope string_scope.
Local Open Scope list_scope.

(** [s.split(sep)] *)
Fixpoint split_on (sep : ascii) (s : string) : list string :=
  match s with
  | "" => [""]
  | String a s' => if decide (a = sep) then "" :: split_on sep s' else match split_on sep s' with [] => [String a ""] | w :: ws => String a w :: ws end
  end.
(** [os.path.basename] *)
Definition basename (path : string) : string := default "" (last (split_on "/" path)).
Fixpoint zeros (n : nat) : string := match n with O => "" | S n => String "0" (zeros n) end.
(** metadataset.py:41-44 with the template of config.py:390, "submodels/submodel_%04d"; the directory in submodels/ *)
Definition submodel_name (i : nat) : string := let d := pretty i in "submodel_" +:+ zeros (4 - String.length d) +:+ d.

Section Split.
Variable show : R -> string.             (* str of a float *)
Variable parse : string -> option R.     (* float of a text; it ignores white space around *)
Variable f32 : R -> R.                   (* rounding to np.float32 *)
Variable kmeans : list (R * R) -> nat -> list nat.    (* tools.py:36-45, the labels; the points start at random *)

(** create_submodels.py:38-54; [exif image] holds exif["gps"]["latitude"] and ["longitude"] *)
Definition images_list (images : list string) (exif : string -> option R * option R) : list (string * (R * R)) :=
  omap (fun image => match exif image with (Some lat, Some lon) => Some (image, (lat, lon)) | _ => None end) images.
(** metadataset.py:123-126 *)
Fixpoint create_image_list (ills : list (string * (R * R))) : string :=
  match ills with [] => "" | (image, (lat, lon)) :: rest => image +:+ String TAB (show lat +:+ String TAB (show lon +:+ String NL (create_image_list rest))) end.
(** metadataset.py:128-132 *)
Definition image_with_gps (line : string) : res (string * (R * R)) :=
  match split_on TAB line with
  | [image; lat; lon] => try lat := of_option ValueError (parse lat) in try lon := of_option ValueError (parse lon) in Ok (image, (lat, lon))
  | _ => Err ValueError
  end.
Definition images_with_gps (text : string) : res (list (string * (R * R))) := foldM (fun l line => try x := image_with_gps line in Ok (l ++ [x])) [] (getlines NL text).

(** create_submodels.py:57-64, metadataset.py:115-118: image_cluster and the keys of cluster_images *)
Definition group_line (st : gmap string string * gset string) (line : string) : res (gmap string string * gset string) :=
  match py_words line with [image; cluster] => Ok (<[image := cluster]> st.1, {[cluster]} ∪ st.2) | _ => Err ValueError end.
(** 63-64, 71-88: the labels and the number of clusters *)
Definition read_image_groups (text : string) (ills : list (string * (R * R))) : res (list nat * nat) :=
  try st := foldM group_line (∅, ∅) (getlines NL text) in
  let groups := merge_sort string_le (elements st.2) in
  try labels := foldM (fun l '(image, _) =>
    try cluster := of_option KeyError (st.1 !! image) in
    try label := of_option KeyError (fst <$> list_find (fun g => g = cluster) groups) in Ok (l ++ [label])) [] ills in
  Ok (labels, length groups).
(** 91-111: cv2.kmeans throws without points; [size] is an int of the configuration *)
Definition cluster_images (ills : list (string * (R * R))) (size : nat) : res (list nat * nat) :=
  if decide (size = 0) then Err ZeroDivisionError
  else if decide (ills = []) then Err RuntimeError
  else let K := (length ills + size - 1) / size in Ok (kmeans ((fun x => (f32 x.2.1, f32 x.2.2)) <$> ills) K, K).

Local Open Scope R_scope.
(** tools.py:51-58 *)
Definition mean (l : list R) : R := foldr Rplus 0 l / INR (length l).
Definition topocentrics (positions : list (R * R)) : list (R * R) :=
  let reflat := mean positions.*1 in let reflon := mean positions.*2 in
  (fun p => let v := topocentric_from_lla p.1 p.2 0 reflat reflon 0 in (vx v, vy v)) <$> positions.
Definition distance (p q : R * R) : R := sqrt ((p.1 - q.1) * (p.1 - q.1) + (p.2 - q.2) * (p.2 - q.2)).
(** cKDTree.query_ball_point: the indices of the points within a distance, in some order (union1d sorts them) *)
Definition query_ball_point (points : list (R * R)) (p : R * R) (d : R) : list nat :=
  omap (fun '(i, q) => if Rle_dec (distance p q) d then Some i else None) (imap pair points).
(** np.union1d *)
Definition union1d (a b : list nat) : list nat := merge_sort le (remove_dups (a ++ b)).
(** np.where(labels == label)[0] *)
Definition where_label (labels : list nat) (label : nat) : list nat := omap (fun '(i, l) => if decide (l = label) then Some i else None) (imap pair labels).
(** 48-74 *)
Definition add_cluster_neighbors (positions : list (R * R)) (labels : list nat) (K : nat) (max_distance : R) : res (list (list nat)) :=
  if decide (positions = []) then Err IndexError else
  let topo := topocentrics positions in
  Ok ((fun label => let idx := where_label labels label in
    let neighbors := mjoin ((fun i => query_ball_point topo (nth i topo (0, 0)) max_distance) <$> idx) in union1d idx neighbors) <$> seq 0 K).
(** create_submodels.py:118-120: an empty list makes an array of floats, which is not a list of indices *)
Definition take_images (images : list string) (cluster : list nat) : res (list string) :=
  if decide (cluster = []) then Err TypeError else foldM (fun l i => try x := of_option IndexError (images !! i) in Ok (l ++ [x])) [] cluster.
(** metadataset.py:176-199: the directory of a submodel, as the text of its image_list.txt *)
Fixpoint submodel_image_list (cluster : list string) : string :=
  match cluster with [] => "" | image :: rest => "images/" +:+ image +:+ String NL (submodel_image_list rest) end.
Definition create_submodels (clusters : list (list string)) (dirs : gmap string string) : gmap string string :=
  foldl (fun d '(i, c) => <[submodel_name i := submodel_image_list c]> d) dirs (imap pair clusters).
(** metadataset.py:165-173 *)
Definition remove_submodels (dirs : gmap string string) : gmap string string := foldl (fun d path => delete path d) dirs (map_to_list dirs).*1.
(** create_submodels.py:16-35. [dirs] are the directories in submodels/ before; [groups] is the text of image_groups.txt, if there is one. *)
Definition run_dataset (images : list string) (exif : string -> option R * option R) (groups : option string) (size : nat) (overlap : R)
    (dirs : gmap string string) : res (gmap string string) :=
  let dirs := remove_submodels dirs in
  let text := create_image_list (images_list images exif) in
  try ills := images_with_gps text in
  try x := match groups with Some t => read_image_groups t ills | None => cluster_images ills size end in
  try clusters := add_cluster_neighbors ((fun x => (f32 x.2.1, f32 x.2.2)) <$> ills) x.1 x.2 overlap in
  try image_clusters := foldM (fun l c => try y := take_images (ills.*1) c in Ok (l ++ [y])) [] clusters in
  Ok (create_submodels image_clusters dirs).
End Split.

(** dataset.py:70-87, 226-233 on image_list.txt: the images of the dataset of a submodel. [splitlines] cuts at newlines only here. *)
Definition submodel_images (text : string) : list string := basename <$> getlines NL text.
(** metadataset.py:232-241 *)
Fixpoint paths_from (fuel i : nat) (dirs : gmap string string) : list string :=
  match fuel with
  | O => []
  | S fuel => match dirs !! submodel_name i with Some _ => submodel_name i :: paths_from fuel (S i) dirs | None => [] end
  end.
Definition get_submodel_paths (dirs : gmap string string) : list string := paths_from (N.to_nat 999999) 0 dirs.
