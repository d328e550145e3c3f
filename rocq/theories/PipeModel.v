(** Model of /repo/opensfm/dense.py (depth maps of a dataset) and of the depth map files of dataset.py:894-971 *)
From stdpp Require Import prelude gmap strings sorting.
From Coq Require Import Reals.
From Verif Require Import Base Lin DenseModel.
Local Open Scope R_scope.

(** *** Neighbours *)
(** dense.py:456-471; the inverse cosine of a quotient by 0 (not a number: no comparison holds) is that of 0 here, which is outside the range too *)
Definition angle_between_points (origin p1 p2 : vec) : R :=
  let a := vsub p1 origin in let b := vsub p2 origin in acos (dot a b / sqrt (dot a a * dot b b)).
(** dense.py:418-454. A shot is its id here; [origin] its position, [points] the coordinates of the points, [common] the item of common_tracks for the shot *)
Section Neighbours.
Variable shots : gset string.
Variable origin : string -> vec.
Variable points : gmap string vec.
Definition in_range (c1 c2 : vec) (track : string) : bool :=
  match points !! track with
  | None => false
  | Some p => let theta := angle_between_points p c1 c2 in
              (if Rlt_dec (PI / 60) theta then true else false) && (if Rlt_dec theta (PI / 6) then true else false)
  end.
Definition pair_score (s o : string) (tracks : list string) : nat := length (filter (fun t => in_range (origin s) (origin o) t = true) tracks).
Definition higher (a b : string * nat) : Prop := (b.2 <= a.2)%nat.
Global Instance higher_dec : RelDecision higher := fun a b => decide (b.2 <= a.2)%nat.
Definition candidates (s : string) (common : list (string * list string)) : list (string * nat) :=
  omap (fun e : string * list string => if bool_decide (e.1 ∈ shots) && (20 <? pair_score s e.1 e.2)%nat then Some (e.1, pair_score s e.1 e.2) else None) common.
Definition find_neighboring_images (s : string) (common : list (string * list string)) (num_neighbors : nat) : list string :=
  s :: (fst <$> take num_neighbors (merge_sort higher (candidates s common))).
End Neighbours.
(** dense.py:397-416; [pairs] are the items of all_common_tracks_without_features, the result is an insertion ordered dict of dicts *)
Definition dict_set {V} (k : string) (v : V) (d : list (string * V)) : list (string * V) :=
  if decide (k ∈ fst <$> d) then (fun e : string * V => if decide (e.1 = k) then (k, v) else e) <$> d else d ++ [(k, v)].
Definition dict_get {V} (k : string) (d : list (string * V)) : option V := snd <$> head (filter (fun e : string * V => e.1 = k) d).
Definition add_pair (res : list (string * list (string * list string))) (e : (string * string) * list string) : list (string * list (string * list string)) :=
  let '((im1, im2), v) := e in
  let res := dict_set im1 (dict_set im2 v (default [] (dict_get im1 res))) res in
  dict_set im2 (dict_set im1 v (default [] (dict_get im2 res))) res.
Definition common_tracks_double_dict (shot_ids : list string) (pairs : list ((string * string) * list string)) : list (string * list (string * list string)) :=
  foldl add_pair ((fun im => (im, [])) <$> shot_ids) pairs.

Global Instance depth_le_dec : RelDecision Rle := Rle_dec.
(** *** Depth range, dense.py:364-395. numpy's percentile with linear interpolation; of no values it is not a number, None here *)
Definition percentile (l : list R) (q : R) : option R :=
  let sorted := merge_sort Rle l in
  let index := q / 100 * (INR (length l) - 1) in
  let k := Z.to_nat (Int_part index) in
  a ← sorted !! k; Some (match sorted !! S k with Some b => a + (index - INR k) * (b - a) | None => a end).
(** [or]: a configured value of 0 is not one *)
Definition py_or (a b : R) : R := if Req_EM_T a 0 then b else a.
Definition compute_depth_range (depths : list R) (config_min_depth config_max_depth : R) : option (R * R) :=
  lo ← percentile depths 10; hi ← percentile depths 90;
  Some (py_or config_min_depth (lo * (9 / 10)), py_or config_max_depth (hi * (11 / 10))).
(** dense.py:127-128: the depths that are saved *)
Definition saved_depth (max_depth min_correlation_score : R) (p : pixel) : R :=
  px_depth p * (if Rlt_dec (px_depth p) max_depth then 1 else 0) * (if Rlt_dec min_correlation_score (px_score p) then 1 else 0).
(** dense.py:292-295 and scale_down_image 485-490: the size of the images *)
Definition view_size (original_width original_height resolution : Z) : Z * Z :=
  let width := Z.min original_width resolution in
  let height := (width * original_height / original_width)%Z in
  (Z.min width original_width, Z.min height original_height).
(** dense.py:493-513: the vertices, as points and colours; [zip] stops with the shorter list *)
Definition depthmap_vertices (K Rm : mat) (t : vec) (depth : image R) (colors : list (Z * Z * Z)) : list (vec * (Z * Z * Z)) :=
  omap (fun e : (Z * Z) * (Z * Z * Z) => let '((i, j), c) := e in
    if Req_EM_T (im_at depth i j) 0 then None else Some (Backproject (IZR j) (IZR i) (im_at depth i j) K Rm t, c)) (zip (pixels depth) colors).

(** *** The stages, dense.py:15-89, and their files *)
(** what is in a file that exists: all of what was saved, or the beginning of it (the process was killed while saving) *)
Inductive file (A : Type) := Whole (a : A) | Torn.
Arguments Whole {A} _. Arguments Torn {A}.
Definition load {A} (f : file A) : option A := match f with Whole a => Some a | Torn => None end.
Record store (Raw Cln Pts : Type) := Store { raw : gmap string (file Raw); clean : gmap string (file Cln); pruned : gmap string (file Pts) }.
Arguments Store {_ _ _} _ _ _. Arguments raw {_ _ _} _. Arguments clean {_ _ _} _. Arguments pruned {_ _ _} _.

Section Stages.
Context {Raw Cln Pts : Type}.
(** the estimation, for a shot (None: an exception); the cleaning, of the views in order, the first of which is the reference; the pruning *)
Variable estimate : string -> option Raw.
Variable clean_views : list (string * Raw) -> Raw -> Cln.
Variable prune_views : list (string * Cln) -> Pts.
Variable neighbors : string -> list string.
Notation store := (store Raw Cln Pts).
(** 91-135 with 60-68 *)
Definition compute_depthmap (st : store) (s : string) : store :=
  match raw st !! s with
  | Some _ => st
  | None => match estimate s with Some r => Store (<[s := Whole r]> (raw st)) (clean st) (pruned st) | None => st end
  end.
(** 306-321, 350-371: the views that have a file, in the order of the neighbours; None when one cannot be loaded *)
Definition views_of {A} (files : gmap string (file A)) (ids : list string) : option (list (string * A)) :=
  mapM (fun e : string * file A => (fun a => (e.1, a)) <$> load e.2) (omap (fun s => (fun f => (s, f)) <$> files !! s) ids).
(** 161-187 with 70-78. With no view at all memory outside is read: as if an exception were raised here *)
Definition clean_depthmap (st : store) (s : string) : store :=
  match clean st !! s with
  | Some _ => st
  | None =>
      match views_of (raw st) (neighbors s), raw st !! s ≫= load with
      | Some (v :: vs), Some r => Store (raw st) (<[s := Whole (clean_views (v :: vs) r)]> (clean st)) (pruned st)
      | _, _ => st
      end
  end.
(** 204-229 with 80-89 *)
Definition prune_depthmap (st : store) (s : string) : store :=
  match pruned st !! s with
  | Some _ => st
  | None =>
      match views_of (clean st) (neighbors s) with
      | Some (v :: vs) => Store (raw st) (clean st) (<[s := Whole (prune_views (v :: vs))]> (pruned st))
      | _ => st
      end
  end.
(** 35-57: the shots with more than one neighbour; [parallel_map] runs the tasks of a stage in any order, the next stage begins when all have ended *)
Definition active (s : string) : bool := (1 <? length (neighbors s))%nat.
Inductive task := Estimate (s : string) | Cleaning (s : string) | Pruning (s : string).
Definition run_task (st : store) (t : task) : store :=
  match t with Estimate s => compute_depthmap st s | Cleaning s => clean_depthmap st s | Pruning s => prune_depthmap st s end.
Definition tasks (order1 order2 order3 : list string) : list task := (Estimate <$> order1) ++ (Cleaning <$> order2) ++ (Pruning <$> order3).
Definition run (st : store) (ts : list task) : store := foldl run_task st ts.
End Stages.
(** 232-281: the clouds of the shots that have one, one after the other; None when a file cannot be loaded *)
Definition cloud : Type := list vec * list vec * list (Z * Z * Z) * list Z.
Definition concatenate (l : list cloud) : cloud :=
  (mjoin ((fun c : cloud => c.1.1.1) <$> l), mjoin ((fun c : cloud => c.1.1.2) <$> l), mjoin ((fun c : cloud => c.1.2) <$> l), mjoin ((fun c : cloud => c.2) <$> l)).
Definition merge_depthmaps (shots : list string) (files : gmap string (file cloud)) : option cloud :=
  l ← mapM load (omap (fun s => files !! s) shots); Some (concatenate l).
