(** Model of the ground control point files: /repo/opensfm/io.py:888-1061 and /repo/opensfm/src/map/ground_control_points.h.
    Coordinates are exact reals; in gcp_list.txt a number may also be NaN ([None]); infinities are not modelled. *)
From Coq Require Import Reals Ascii.
From stdpp Require Import prelude gmap strings pretty.
From Verif Require Import Base TextModel PyText JsonModel PixelModel.
Local Close Scope R_scope.
Local Open Scope string_scope.
Local Open Scope list_scope.

(** ground_control_points.h:17-31, 6-16, 32-50; [num] is the type of the numbers. [role_] has no default value: reading it
    before it is set is undefined behaviour; here a new point has the role given by the caller. *)
Record gcp_observation num := GcpObservation { go_shot : string; go_projection : num * num; go_uid : Z }.
Arguments GcpObservation {num} _ _ _.  Arguments go_shot {num} _.  Arguments go_projection {num} _.  Arguments go_uid {num} _.
Inductive gcp_role := Optimization | MetricsOnly.
Record gcp num := Gcp {
  gcp_id : string; gcp_survey_point : Z; gcp_has_altitude : bool; gcp_obs : list (gcp_observation num);
  gcp_lla : gmap string num; gcp_role_ : gcp_role }.
Arguments Gcp {num} _ _ _ _ _ _.  Arguments gcp_id {num} _.  Arguments gcp_survey_point {num} _.  Arguments gcp_has_altitude {num} _.
Arguments gcp_obs {num} _.  Arguments gcp_lla {num} _.  Arguments gcp_role_ {num} _.
(** ground_control_points.h:52-65; [map::at] throws out_of_range, an IndexError in Python *)
Definition get_lla_vec {num} (zero : num) (p : gcp num) : res (num * num * num) :=
  try lat := of_option IndexError (gcp_lla p !! "latitude") in
  try lon := of_option IndexError (gcp_lla p !! "longitude") in
  if gcp_has_altitude p then try alt := of_option IndexError (gcp_lla p !! "altitude") in Ok (lat, lon, alt) else Ok (lat, lon, zero).
Definition set_lla {num} (p : gcp num) (lat lon alt : num) : gcp num :=
  Gcp (gcp_id p) (gcp_survey_point p) true (gcp_obs p) (<["altitude" := alt]> (<["longitude" := lon]> (<["latitude" := lat]> (gcp_lla p)))) (gcp_role_ p).
(** ground_control_points.h:78-80 *)
Definition add_gcp_observation {num} (p : gcp num) (o : gcp_observation num) : gcp num :=
  Gcp (gcp_id p) (gcp_survey_point p) (gcp_has_altitude p) (gcp_obs p ++ [o]) (gcp_lla p) (gcp_role_ p).

(** *** ground_control_points.json *)
(** io.py:1030-1061 *)
Definition gcp_observation_to_json (o : gcp_observation R) : json :=
  JObj [("shot_id", JStr (go_shot o)); ("projection", JList [JNum (go_projection o).1; JNum (go_projection o).2])].
Definition gcp_position_to_json (p : gcp R) : res jdict :=
  if decide (gcp_lla p = ∅) then Ok []
  else
    try lat := of_option KeyError (gcp_lla p !! "latitude") in
    try lon := of_option KeyError (gcp_lla p !! "longitude") in
    if gcp_has_altitude p then
      try alt := of_option KeyError (gcp_lla p !! "altitude") in
      Ok [("position", JObj [("latitude", JNum lat); ("longitude", JNum lon); ("altitude", JNum alt)])]
    else Ok [("position", JObj [("latitude", JNum lat); ("longitude", JNum lon)])].
Definition gcp_to_json (p : gcp R) : res json :=
  try position := gcp_position_to_json p in
  Ok (JObj ([("id", JStr (gcp_id p))] ++ position ++ [("observations", JList (map gcp_observation_to_json (gcp_obs p)))])).
Definition write_ground_control_points (l : list (gcp R)) : res json :=
  try points := mapR gcp_to_json l in Ok (JObj [("points", JList points)]).

(** io.py:996-1027. Assigning [o_dict["projection"]] converts an array of two numbers (anything else is a TypeError);
    assigning a dictionary to [lla] converts its values to doubles. A null or empty position is ignored. *)
Definition as_pair (j : json) : res (R * R) :=
  match j with JList [a; b] => try x := as_real a in try y := as_real b in Ok (x, y) | _ => Err TypeError end.
Definition gcp_observation_from_json (j : json) : res (gcp_observation R) :=
  try d := as_obj j in
  try s := jreq d "shot_id" in try shot := as_str s in
  match jget d "projection" with
  | Some p => try xy := as_pair p in Ok (GcpObservation shot xy 0)
  | None => Ok (GcpObservation shot (0%R, 0%R) 0)
  end.
Definition as_lla (j : json) : res (gmap string R) :=
  try d := as_obj j in
  try l := mapR (fun kv => try x := as_real kv.2 in Ok (kv.1, x)) d in Ok (list_to_map l).
Definition gcp_position_from_json (o : option json) : res (gmap string R) :=
  match o with None | Some JNull | Some (JObj []) => Ok ∅ | Some q => as_lla q end.
Definition gcp_from_json (role : gcp_role) (j : json) : res (gcp R) :=
  try d := as_obj j in
  try i := jreq d "id" in try id := as_str i in
  try lla := gcp_position_from_json (jget d "position") in
  try os := jreq d "observations" in try ol := as_list os in
  try obs := mapR gcp_observation_from_json ol in
  Ok (Gcp id 0 (bool_decide (is_Some (lla !! "altitude"))) obs lla role).
Definition read_ground_control_points (role : gcp_role) (j : json) : res (list (gcp R)) :=
  try d := as_obj j in try ps := jreq d "points" in try l := as_list ps in mapR (gcp_from_json role) l.

(** *** gcp_list.txt *)
(** Numbers as [float(word)] gives them: a real, or NaN *)
Notation num := (option R).
(** Equality of two floats; NaN is equal to nothing. Each [float("nan")] is a new object, so the identity test that Python
    makes first when it compares tuples does not help. *)
Definition same_num (a b : num) : bool := match a, b with Some x, Some y => if Req_EM_T x y then true else false | _, _ => false end.
Notation gcp_key := (num * num * num)%type.
Definition same_key (k l : gcp_key) : bool := same_num k.1.1 l.1.1 && same_num k.1.2 l.1.2 && same_num k.2 l.2.

(** The transformation of io.py:957-973, of which pyproj gives the meaning: a proj4 definition, or an EPSG code *)
Inductive crs := Proj4 (definition : string) | Epsg (code : Z).

Section Gcp.
(** [float(word)]: ValueError when it is not a number. *)
Context (parse_float : string -> res num).
(** [Transformer.from_proj(CRS(...), EPSG:4326)] and its [transform(easting, northing)] = (lat, lon). *)
Context (transform : crs -> num -> num -> num * num).
(** [int(text)] *)
Context (parse_int : string -> res Z).

(** The last character *)
Fixpoint last_char (s : string) : option ascii := match s with "" => None | String a "" => Some a | String _ s' => last_char s' end.
Fixpoint but_last (s : string) : string := match s with "" => "" | String a "" => "" | String a s' => String a (but_last s') end.
(** io.py:939-954 *)
Definition parse_utm_projection_string (line : string) : res string :=
  let words := py_words (lower line) in
  if decide (length words <> 3) then Err AssertionError
  else
    try z := of_option IndexError (py_words line !! 2%nat) in
    let zone := upper z in
    try nh :=
      match last_char zone with
      | Some "N"%char => try n := parse_int (but_last zone) in Ok (n, "north")
      | Some "S"%char => try n := parse_int (but_last zone) in Ok (n, "south")
      | Some _ => try n := parse_int zone in Ok (n, "north")
      | None => Err IndexError
      end in
    Ok ("+proj=utm +zone=" +:+ pretty (nh.1 : Z) +:+ " +" +:+ nh.2 +:+ " +ellps=WGS84 +datum=WGS84 +units=m +no_defs").
(** [sub in s] *)
Fixpoint contains (sub s : string) : bool :=
  starts_with sub s || match s with "" => false | String _ s' => contains sub s' end.
(** io.py:957-973. [line.split(":")[1]] is the text between the first two colons. *)
Definition parse_projection (line : string) : res (option crs) :=
  if decide (strip line = "WGS84") then Ok None
  else if starts_with "WGS84 UTM" (upper line) then try s := parse_utm_projection_string line in Ok (Some (Proj4 s))
  else if contains "+proj" line then Ok (Some (Proj4 line))
  else if starts_with "EPSG:" (upper line) then
    try t := of_option IndexError (getlines ":" line !! 1%nat) in try n := parse_int t in Ok (Some (Epsg n))
  else Err ValueError.
(** io.py:976-978 *)
Definition valid_gcp_line (line : string) : bool :=
  match strip line with "" => false | String a _ => negb (bool_decide (a = "#"%char)) end.

(** A dictionary of points by key, in insertion order *)
Fixpoint find_point {A} (points : list (gcp_key * A)) (k : gcp_key) : option A :=
  match points with [] => None | (l, p) :: ps => if same_key l k then Some p else find_point ps k end.
(** The point object stored under the key is modified *)
Fixpoint update_point {A} (points : list (gcp_key * A)) (k : gcp_key) (f : A -> A) : list (gcp_key * A) :=
  match points with [] => [] | (l, p) :: ps => if same_key l k then (l, f p) :: ps else (l, p) :: update_point ps k f end.

Definition normalized (w h : Z) (x y : num) : num * num :=
  ((fun x => (normalized_image_coordinates (x, 0%R) w h).1) <$> x, (fun y => (normalized_image_coordinates (0%R, y) w h).2) <$> y).
(** io.py:894-934: one line. [exifs] gives width and height of each image. *)
Definition read_gcp_line (role : gcp_role) (projection : option crs) (exifs : gmap string (Z * Z))
    (points : list (gcp_key * gcp num)) (line : string) : res (list (gcp_key * gcp num)) :=
  let words := split_max 5 line in
  match take 5 words with
  | [w0; w1; w2; w3; w4] =>
      try easting := parse_float w0 in try northing := parse_float w1 in try alt := parse_float w2 in
      try pixel_x := parse_float w3 in try pixel_y := parse_float w4 in
      let key := (easting, northing, alt) in
      try rest := of_option IndexError (words !! 5%nat) in
      try shot := of_option IndexError (py_words rest !! 0%nat) in
      match exifs !! shot with
      | None => Ok points
      | Some (width, height) =>
          let o := GcpObservation shot (normalized width height pixel_x pixel_y) 0 in
          match find_point points key with
          | Some _ => Ok (update_point points key (fun p => add_gcp_observation p o))
          | None =>
              let '(alt, has_altitude) := match alt with None => (Some 0%R, false) | Some a => (Some a, true) end in
              let '(lat, lon) := match projection with Some c => transform c easting northing | None => (northing, easting) end in
              Ok (points ++ [(key, Gcp ("unnamed-" +:+ pretty (Z.of_nat (length points))) 0 has_altitude [o]
                (<["altitude" := alt]> (<["longitude" := lon]> {["latitude" := lat]})) role)])
          end
      end
  | _ => Err ValueError
  end.
Fixpoint read_gcp_list_lines (role : gcp_role) (projection : option crs) (exifs : gmap string (Z * Z))
    (points : list (gcp_key * gcp num)) (lines : list string) : res (list (gcp num)) :=
  match lines with
  | [] => Ok (map snd points)
  | l :: ls => try points' := read_gcp_line role projection exifs points l in read_gcp_list_lines role projection exifs points' ls
  end.
(** io.py:981-993; the text of the file, whose lines keep no newline here (they do in Python: white space at their end) *)
Definition read_gcp_list (role : gcp_role) (exifs : gmap string (Z * Z)) (text : string) : res (list (gcp num)) :=
  match filter (fun l => valid_gcp_line l = true) (getlines NL text) with
  | [] => Err StopIteration
  | header :: lines => try projection := parse_projection header in read_gcp_list_lines role projection exifs [] lines
  end.
End Gcp.
