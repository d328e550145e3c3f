(** Model of the annotations of ground control points: /repo/annotation_gui_gcp/lib/gcp_manager.py, the manager behind the annotation tool. Files are the JSON values of JsonModel; reading and writing their text, and the dataclasses' hashes, are not modelled. As in the code, numbers read from a file are not checked: coordinates, precisions and the fields of positions are JSON values, and null stands for None. *)
From stdpp Require Import prelude strings pretty.
From Coq Require Import Reals.
From Verif Require Import Base JsonModel.

(** Dictionaries with their order *)
Section Dict.
Context {A : Type}.
Fixpoint aget (d : list (string * A)) (key : string) : option A := match d with [] => None | (k, v) :: d' => if decide (k = key) then Some v else aget d' key end.
Fixpoint aset (d : list (string * A)) (key : string) (v : A) : list (string * A) := match d with [] => [(key, v)] | (k, x) :: d' => if decide (k = key) then (key, v) :: d' else (k, x) :: aset d' key v end.
Definition adel (d : list (string * A)) (key : string) : list (string * A) := filter (fun kv => kv.1 <> key) d.
End Dict.

(** 68-76 *)
Record geodetic := Geodetic { longitude : json; latitude : json; horizontal_std : json; measured_at : json; altitude : json; vertical_std : json }.
(** 102-116: PointMeasurement and PointMeasurement3D: the coordinates of the second kind have three entries *)
Inductive coords := Coords2 (x y precision : json) | Coords3 (x y z precision : json).
Record observation := Observation { image_id : string; measure : coords }.
(** 119-123 *)
Record control_point := Point { point_id : string; observations : list observation; geodetic_measurement : option geodetic }.
(** 182-186: the state of the generator (10-14) is the next number *)
Record manager := Manager { points : list (string * control_point); next_number : nat; gcp_reprojections : list (string * list (string * R)) }.
Definition with_points (m : manager) (ps : list (string * control_point)) : manager := Manager ps (next_number m) (gcp_reprojections m).

(** 77-88 *)
Definition geodetic_to_dict (g : geodetic) : jdict :=
  let d := [("latitude", latitude g); ("longitude", longitude g); ("horizontal_std", horizontal_std g); ("measured_at", measured_at g)] in
  let d := match altitude g with JNull => d | a => jset d "altitude" a end in
  match vertical_std g with JNull => d | v => jset d "vertical_std" v end.
(** 209-216, 291-298: the keys are looked up in this order *)
Definition read_geodetic (geo : jdict) : res geodetic :=
  try lon := jreq geo "longitude" in
  try lat := jreq geo "latitude" in
  try at_ := jreq geo "measured_at" in
  Ok (Geodetic lon lat (default (JInt 100) (jget geo "horizontal_std")) at_ (default JNull (jget geo "altitude")) (default JNull (jget geo "vertical_std"))).
(** The truth of a Python value *)
Definition truthy (j : json) : Prop :=
  match j with JNull => False | JInt z => z <> 0%Z | JNum x => x <> 0%R | JStr s => s <> "" | JList l => l <> [] | JObj l => l <> [] end.
Global Instance truthy_dec j : Decision (truthy j).
Proof. destruct j as [|z|x|s|l|l]; cbn; try apply _; [|destruct l; [right|left]; naive_solver..]. destruct (Req_EM_T x 0); [right|left]; naive_solver. Defined.

(** 132-148 *)
Definition observation_to_json (o : observation) : json :=
  match measure o with
  | Coords2 x y p => JObj [("shot_id", JStr (image_id o)); ("projection", JList [x; y]); ("precision", p)]
  | Coords3 x y z p => JObj [("shot_id", JStr (image_id o)); ("point", JList [x; y; z]); ("precision", p)]
  end.
Definition entry (l : list json) (i : nat) : res json := of_option IndexError (l !! i).
(** 151-178: shots with names that are not strings, and coordinates that are not lists, are rejected here *)
Definition observation_from_json (j : json) : res observation :=
  try obs := as_obj j in
  match jget obs "projection" with
  | Some p =>
    try shot := jreq obs "shot_id" in try shot := as_str shot in
    try projection := as_list p in try x := entry projection 0 in try y := entry projection 1 in
    Ok (Observation shot (Coords2 x y (default (JNum (4 / 1000)) (jget obs "precision"))))
  | None =>
    match jget obs "point" with
    | Some p =>
      try shot := jreq obs "shot_id" in try shot := as_str shot in
      try point := as_list p in try x := entry point 0 in try y := entry point 1 in try z := entry point 2 in
      Ok (Observation shot (Coords3 x y z (default JNull (jget obs "precision"))))
    | None => Err ValueError
    end
  end.
(** 202-216: one point of a file *)
Definition read_point (j : json) : res control_point :=
  try d := as_obj j in
  try id := jreq d "id" in try id := as_str id in
  try l := as_list (default (JList []) (jget d "observations")) in
  try obs := mapR observation_from_json l in
  let geo := default JNull (jget d "position") in
  if decide (truthy geo) then try geo := as_obj geo in try g := read_geodetic geo in Ok (Point id obs (Some g))
  else Ok (Point id obs None).
(** 202-217: the points read before the first error stay *)
Fixpoint read_points (ps : list (string * control_point)) (l : list json) : list (string * control_point) * res () :=
  match l with
  | [] => (ps, Ok ())
  | j :: l' => match read_point j with Ok p => read_points (aset ps (point_id p) p) l' | Err e => (ps, Err e) end
  end.
(** 195-217: None if the file cannot be opened or parsed; the points are cleared before *)
Definition load_from_file (m : manager) (file : option json) : manager * res () :=
  match (try j := of_option RuntimeError file in try d := as_obj j in try ps := jreq d "points" in as_list ps) with
  | Ok l => let '(ps, r) := read_points [] l in (with_points m ps, r)
  | Err e => (with_points m [], Err e)
  end.
(** 219-231 *)
Definition point_to_json (p : control_point) : json :=
  JObj ([("id", JStr (point_id p)); ("observations", JList (observation_to_json <$> observations p))] ++
    match geodetic_measurement p with Some g => [("position", JObj (geodetic_to_dict g))] | None => [] end).
Definition points_to_json (m : manager) : list json := point_to_json <$> (points m).*2.
(** json.dump(..., sort_keys=True) *)
Fixpoint insert_key (k : string) (v : json) (d : jdict) : jdict :=
  match d with [] => [(k, v)] | (k', v') :: d' => if decide (String.compare k' k = Lt) then (k', v') :: insert_key k v d' else (k, v) :: (k', v') :: d' end.
Fixpoint sort_keys (j : json) : json :=
  match j with
  | JList l => JList (sort_keys <$> l)
  | JObj d => JObj (foldr (fun kv acc => insert_key kv.1 kv.2 acc) [] ((fun kv => (kv.1, sort_keys kv.2)) <$> d))
  | _ => j
  end.
(** 233-238: what is written *)
Definition write_to_file (m : manager) : json := sort_keys (JObj [("points", JList (points_to_json m))]).

(** 240-264 *)
Definition get_visible_points_coords (m : manager) (main_image : string) : list (string * coords) :=
  foldl (fun acc p => foldl (fun acc o => if decide (image_id o = main_image) then aset acc (point_id p) (measure o) else acc) acc (observations p)) [] (points m).*2.
(** 266-267 *)
Definition point_exists (m : manager) (id : string) : bool := match aget (points m) id with Some _ => true | None => false end.
(** 269-274: the numbers up to the first that is free *)
Fixpoint free_number (fuel : nat) (m : manager) (n : nat) : res nat :=
  match fuel with O => Err Diverges | S fuel => if point_exists m (pretty n) then free_number fuel m (S n) else Ok n end.
Definition add_point (m : manager) : res (manager * string) :=
  try n := free_number (S (length (points m))) m (next_number m) in
  let id := pretty n in
  Ok (Manager (aset (points m) id (Point id [] None)) (S n) (gcp_reprojections m), id).
(** 358-364 *)
Definition get_observation (m : manager) (id shot : string) : res (option observation) :=
  try p := of_option KeyError (aget (points m) id) in Ok (List.find (fun o => bool_decide (image_id o = shot)) (observations p)).
(** 276-315: [geo] is empty for None; the point is shared with the dictionary *)
Definition add_point_observation (m : manager) (id shot : string) (c : coords) (geo : jdict) : res manager :=
  try p := of_option KeyError (aget (points m) id) in
  try o := get_observation m id shot in
  match o with
  | Some _ => Err AssertionError
  | None =>
    try g := (match geo with
              | [] => Ok (geodetic_measurement p)
              | _ => try t := jreq geo "measured_at" in match t with JInt _ => try g := read_geodetic geo in Ok (Some g) | _ => Err AssertionError end
              end) in
    Ok (with_points m (aset (points m) id (Point (point_id p) (observations p ++ [Observation shot c]) g)))
  end.
(** 317-337 *)
Definition get_worst_gcp (m : manager) : option string :=
  snd (foldl (fun acc g => if point_exists m g.1 then foldl (fun acc s => if Rlt_dec acc.1 s.2 then (s.2, Some g.1) else acc) acc g.2 else acc) (0%R, None) (gcp_reprojections m)).
(** 339-352: the images of [gcp] with errors that are in [image_keys]; the first of those with the largest error is returned. The code goes through a set: between equal errors its choice depends on hashes *)
Definition shot_with_max_gcp_error (m : manager) (image_keys : list string) (gcp : string) : res (option string) :=
  try errs := of_option KeyError (aget (gcp_reprojections m) gcp) in
  let annotated := filter (fun s => s.1 ∈ image_keys) errs in
  Ok (match annotated with
      | [] => None
      | s :: l => Some (foldl (fun best s => if Rlt_dec best.2 s.2 then s else best) s l).1
      end).
(** 354-356 *)
Definition remove_gcp (m : manager) (id : string) : manager := if point_exists m id then with_points m (adel (points m) id) else m.
(** 366-377 *)
Definition remove_point_observation (m : manager) (id shot : string) (remove_latlon : bool) : res manager :=
  try p := of_option KeyError (aget (points m) id) in
  let p' := Point (point_id p) (filter (fun o => image_id o <> shot) (observations p)) (if remove_latlon then None else geodetic_measurement p) in
  let errs := match aget (gcp_reprojections m) id with
              | Some e => match aget e shot with Some _ => aset (gcp_reprojections m) id (aset e shot 0%R) | None => gcp_reprojections m end
              | None => gcp_reprojections m
              end in
  Ok (Manager (aset (points m) id p') (next_number m) errs).

(** A session: a sequence of calls. An exception leaves the manager as it is, except while loading *)
Inductive call :=
  | CLoad (file : option json) | CLoadErrors (errors : list (string * list (string * R)))
  | CAdd | CObserve (id shot : string) (c : coords) (geo : jdict) | CUnobserve (id shot : string) (latlon : bool) | CRemove (id : string).
Definition do_call (m : manager) (c : call) : manager :=
  match c with
  | CLoad f => (load_from_file m f).1
  | CLoadErrors e => Manager (points m) (next_number m) e
  | CAdd => match add_point m with Ok (m', _) => m' | Err _ => m end
  | CObserve id shot c geo => match add_point_observation m id shot c geo with Ok m' => m' | Err _ => m end
  | CUnobserve id shot b => match remove_point_observation m id shot b with Ok m' => m' | Err _ => m end
  | CRemove id => remove_gcp m id
  end.
Definition session (cs : list call) : manager := foldl do_call (Manager [] 0 []) cs.
(** The names given by add_point in a session *)
Fixpoint names_given (m : manager) (cs : list call) : list string :=
  match cs with
  | [] => []
  | c :: cs' => match c with CAdd => match add_point m with Ok (_, id) => [id] | Err _ => [] end | _ => [] end ++ names_given (do_call m c) cs'
  end.
