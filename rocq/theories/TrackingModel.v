(** Model of /repo/opensfm/tracking.py: create_tracks_manager (72-150), _good_track (238-244), on top of the models of
    UnionFind and TracksManager. *)
From stdpp Require Import prelude gmap strings pretty.
From Verif Require Import Base UnionFindModel TracksModel.

Notation feature := (string * nat)%type.   (* (image, index of the feature in the image) *)

(** The constant pymap.Observation.NO_SEMANTIC_VALUE, observation.h:51. *)
Definition NO_VALUE : Z := -1.

Section Tracking.
(** Doubles are abstract; [finite] is "neither NaN nor infinite", [fmul], [fmax] are python's [*] and [max]. *)
Context {F : Type}.
Variable finite : F -> bool.
Variable fmul fmax : F -> F -> F.
(** Comparison of (image, index) tuples, used by UnionFind to break ties. Arbitrary. *)
Variable gtk : feature -> feature -> bool.

(** The arguments. numpy arrays are lists of rows; indices are natural numbers (negative feature indices, which numpy
    would wrap around, are not modelled). [matches] is a dict, in insertion order. *)
Variable features : gmap string (list (F * F * F)).
Variable colors : gmap string (list (Z * Z * Z)).
Variable segmentations instances : gmap string (list Z).
Variable matches : list ((string * string) * list (nat * nat)).
Variable min_length : nat.
Variable depths : gmap string (list F).
Variable depth_is_radial : bool.
Variable depth_std_deviation : F.

(** tracking.py:85-88 *)
Fixpoint unions (u : uf feature) (im1 im2 : string) (l : list (nat * nat)) : res (uf feature) :=
  match l with
  | [] => Ok u
  | (f1, f2) :: l' => try u1 := uf_union gtk u [(im1, f1); (im2, f2)] in unions u1 im1 im2 l'
  end.
Fixpoint all_unions (u : uf feature) (ms : list ((string * string) * list (nat * nat))) : res (uf feature) :=
  match ms with
  | [] => Ok u
  | ((im1, im2), l) :: ms' => try u1 := unions u im1 im2 l in all_unions u1 ms'
  end.

(** tracking.py:93-96: an insertion-ordered dict of lists. *)
Fixpoint sets_add {K A} `{EqDecision K} (sets : list (K * list A)) (p : K) (i : A) : list (K * list A) :=
  match sets with
  | [] => [(p, [i])]
  | (q, l) :: sets' => if decide (q = p) then (q, l ++ [i]) :: sets' else (q, l) :: sets_add sets' p i
  end.

(** tracking.py:90-96: the keys are fixed during the loop, the look-ups compress paths. *)
Fixpoint group_sets (u : uf feature) (keys : list feature) (sets : list (feature * list feature))
    : res (list (feature * list feature)) :=
  match keys with
  | [] => Ok sets
  | i :: keys' => try (u1, p) := uf_find u i in group_sets u1 keys' (sets_add sets p i)
  end.

(** tracking.py:238-244 *)
Definition good_track (track : list feature) : bool :=
  if decide (length track < min_length) then false
  else if decide (length track.*1 <> size (list_to_set track.*1 : gset string)) then false
  else true.

(** tracking.py:106-143: [Ok None] is the [continue] of line 107. *)
Definition make_obs (image : string) (featureid : nat) : res (option (observation F)) :=
  match features !! image with
  | None => Ok None
  | Some fs =>
      try (x, y, s) := of_option IndexError (fs !! featureid) in
      try cs := of_option KeyError (colors !! image) in
      try (r, g, b) := of_option IndexError (cs !! featureid) in
      try segmentation := match segmentations !! image with
                          | Some l => of_option IndexError (l !! featureid) | None => Ok NO_VALUE end in
      try instance := match instances !! image with
                      | Some l => of_option IndexError (l !! featureid) | None => Ok NO_VALUE end in
      try prior := match depths !! image with
                   | Some l =>
                       try depth_value := of_option IndexError (l !! featureid) in
                       Ok (if finite depth_value
                           then Some (Depth depth_value depth_is_radial (fmax (fmul depth_std_deviation depth_value) depth_std_deviation))
                           else None)
                   | None => Ok None end in
      Ok (Some (Obs x y s r g b (Z.of_nat featureid) segmentation instance prior))
  end.

(** tracking.py:105-145, one track *)
Fixpoint add_track (m : tm (observation F)) (tid : string) (track : list feature) : res (tm (observation F)) :=
  match track with
  | [] => Ok m
  | (image, featureid) :: track' =>
      try o := make_obs image featureid in
      match o with
      | None => add_track m tid track'
      | Some obs => add_track (tm_add m image tid obs) tid track'
      end
  end.
(** tracking.py:104: [enumerate], [str] of the index *)
Fixpoint add_tracks (m : tm (observation F)) (n : nat) (tracks : list (list feature)) : res (tm (observation F)) :=
  match tracks with
  | [] => Ok m
  | track :: tracks' => try m1 := add_track m (pretty n) track in add_tracks m1 (S n) tracks'
  end.

(** tracking.py:72-150 (logging omitted) *)
Definition create_tracks_manager : res (tm (observation F)) :=
  try u := all_unions uf_empty matches in
  try sets := group_sets u (uf_keys u) [] in
  let tracks := filter (fun t => good_track t = true) sets.*2 in
  add_tracks tm_empty 0 tracks.
End Tracking.
