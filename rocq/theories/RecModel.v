(** Model of the reconstruction codec of /repo/opensfm/io.py (pose_from_json .. reconstruction_from_json, shot_to_json ..
    reconstruction_to_json, the metadata codec) and of the methods of /repo/opensfm/types.py:Reconstruction it calls, on
    the map of MapModel.v with the cameras of CamModel.v and the poses of PoseModel.v. Exact real arithmetic.
    The id stored in a rig camera or rig instance (a second copy of its key in the map) is taken to be the key: Python can
    assign it, OpenSfM never does. Matrices (covariance, mesh vertices and faces) are lists of rows, which is what is
    written to the file; the column count of a matrix without rows is not kept. *)
From Coq Require Import Reals.
From stdpp Require Import prelude gmap strings.
From Verif Require Import Base JsonModel CamModel Lin RotModel TracksModel MapModel PoseModel.
Local Close Scope R_scope.

(** src/map/shot.h:26-45 *)
Record measurements := Measurements {
  ms_capture_time : option R; ms_gps_position : option vec; ms_gps_accuracy : option R; ms_compass_accuracy : option R;
  ms_compass_angle : option R; ms_gravity_down : option vec; ms_opk_accuracy : option R; ms_opk_angles : option vec;
  ms_orientation : option Z; ms_sequence_key : option string; ms_attributes : gmap string string }.
Definition no_measurements : measurements := Measurements None None None None None None None None None None ∅.
(** shot.h:145-161 *)
Record shot_data := ShotData { sd_metadata : measurements; sd_scale : R; sd_covariance : list (list R); sd_merge_cc : Z }.
Definition data0 : shot_data := ShotData no_measurements 1%R [] 0.
(** shot.h:15-24 *)
Record mesh := Mesh { me_vertices : list (list R); me_faces : list (list R) }.
Definition mesh0 : mesh := Mesh [] [].
(** similarity.h:12-14 *)
Definition bias0 : similarity := Similarity pose0 1%R.

(** [list(v)] of a 3-vector; a list passed as a 3-vector *)
Definition jvec (v : vec) : json := JList [JNum (vx v); JNum (vy v); JNum (vz v)].
Definition as_vec (j : json) : res vec :=
  match j with
  | JList [a; b; c] => try x := as_real a in try y := as_real b in try z := as_real c in Ok (Vec x y z)
  | _ => Err TypeError
  end.
Definition jrows (m : list (list R)) : json := JList (List.map (fun r => JList (List.map JNum r)) m).
Definition as_rows (j : json) : res (list (list R)) :=
  try l := as_list j in mapR (fun r => try x := as_list r in mapR as_real x) l.
(** [if o.has_value: d[k] = o.value] *)
Definition jset_opt (d : jdict) (k : string) (o : option json) : jdict := match o with Some j => jset d k j | None => d end.

(** io.py:548-582 *)
Definition pymap_metadata_to_json (m : measurements) : jdict :=
  let d := jset_opt [] "orientation" (JInt <$> ms_orientation m) in
  let d := jset_opt d "capture_time" (JNum <$> ms_capture_time m) in
  let d := jset_opt d "gps_dop" (JNum <$> ms_gps_accuracy m) in
  let d := jset_opt d "gps_position" (jvec <$> ms_gps_position m) in
  let d := jset_opt d "gravity_down" (jvec <$> ms_gravity_down m) in
  let d := match ms_compass_angle m, ms_compass_accuracy m with
           | Some a, Some c => jset d "compass" (JObj [("angle", JNum a); ("accuracy", JNum c)])
           | Some a, None => jset d "compass" (JObj [("angle", JNum a)])
           | None, Some c => jset d "compass" (JObj [("accuracy", JNum c)])
           | None, None => d
           end in
  jset_opt d "skey" (JStr <$> ms_sequence_key m).
(** [if obj.get(k) is not None: field = obj.get(k)] *)
Definition jread {A} (conv : json -> res A) (o : option json) : res (option A) :=
  match o with None | Some JNull => Ok None | Some j => try a := conv j in Ok (Some a) end.
(** [if k in compass: field = compass[k]] *)
Definition jread_in {A} (conv : json -> res A) (o : option json) : res (option A) :=
  match o with None => Ok None | Some j => try a := conv j in Ok (Some a) end.
(** io.py:585-606 *)
Definition json_to_pymap_metadata (d : jdict) : res measurements :=
  try orientation := jread as_int (jget d "orientation") in
  try capture_time := jread as_real (jget d "capture_time") in
  try gps_accuracy := jread as_real (jget d "gps_dop") in
  try gps_position := jread as_vec (jget d "gps_position") in
  try sequence_key := jread as_str (jget d "skey") in
  try gravity_down := jread as_vec (jget d "gravity_down") in
  try compass := jread as_obj (jget d "compass") in
  try angle := jread_in as_real (c ← compass; jget c "angle") in
  try accuracy := jread_in as_real (c ← compass; jget c "accuracy") in
  Ok (Measurements capture_time gps_position gps_accuracy accuracy angle gravity_down None None orientation sequence_key ∅).

(** io.py:163-168; [pose.rotation = ], [pose.translation = ] *)
Definition pose_from_json (d : jdict) : res pose :=
  try r := jreq d "rotation" in
  try r := as_vec r in
  let p := set_rotation pose0 r in
  match jget d "translation" with None => Ok p | Some j => try t := as_vec j in Ok (set_translation p t) end.
(** io.py:223-228, 246-251: rig cameras and rig instances, the translation is required *)
Definition rig_pose_from_json (d : jdict) : res pose :=
  try r := jreq d "rotation" in
  try r := as_vec r in
  try t := jreq d "translation" in
  try t := as_vec t in
  Ok (set_translation (set_rotation pose0 r) t).
(** io.py:171-172, 682-687 *)
Definition bias_from_json (d : jdict) : res similarity :=
  try r := jreq d "rotation" in
  try r := as_vec r in
  try t := jreq d "translation" in
  try t := as_vec t in
  try s := jreq d "scale" in
  try s := as_real s in
  Ok (similarity_of_vector r t s).
(** similarity.h:17: the property [rotation] of a similarity is that of its pose *)
Definition bias_to_json (b : similarity) : jdict :=
  [("rotation", jvec (get_rotation (sim_pose b))); ("translation", jvec (sim_translation b)); ("scale", JNum (sim_scale b))].

(** [for a in l: s = f(s, a)], stopping at the first exception *)
Definition foldR {A S} (f : S -> A -> res S) : list A -> S -> res S :=
  fix go l s := match l with [] => Ok s | a :: l' => try s' := f s a in go l' s' end.
(** [for k, v in d.items()], the values being dictionaries *)
Definition over_items {S} (f : S -> string -> jdict -> res S) (d : jdict) (s : S) : res S :=
  foldR (fun s kv => try o := as_obj kv.2 in f s kv.1 o) d s.

Section Rec.
Context {O : Type}.
Notation shot := (shot shot_data mesh O). Notation landmark := (landmark vec). Notation instance := (instance pose).
Notation rec := (@map camera similarity pose vec shot_data mesh O (R * R * R)).
Notation create_shot := (create_shot data0 mesh0 compose inverse).
Notation create_instance := (create_instance pose0).

(** types.py:131-139 *)
Definition rec_add_camera (m : rec) (c : camera) : rec :=
  match m_cameras m !! cam_id c with Some _ => m | None => create_camera bias0 m (cam_id c) c end.
(** types.py:149-157 *)
Definition rec_add_rig_camera (m : rec) (id : string) (p : pose) : res rec :=
  match m_rig_cameras m !! id with Some _ => Ok m | None => create_rig_camera m id p end.
(** types.py:159-175 with a new RigInstance(id), which has no shots: UpdateRigInstance (map.cc:439-448) overwrites *)
Definition rec_add_rig_instance (m : rec) (id : string) : res rec :=
  try m := match m_instances m !! id with Some _ => Ok m | None => create_instance m id end in
  Ok (set_instances m (<[id := Instance pose0 ∅]> (m_instances m))).
(** types.py:178-214; [None] and the empty string are both falsy *)
Definition truthy (o : option string) : option string := match o with Some s => if decide (s = "") then None else Some s | None => None end.
Definition rec_create_shot (m : rec) (id camera : string) (p : pose) (rig_camera rig_instance : option string) : res rec :=
  let rc := default camera (truthy rig_camera) in
  let ri := default id (truthy rig_instance) in
  try m := match truthy rig_camera with Some _ => Ok m | None => rec_add_rig_camera m camera pose0 end in
  try _ := of_option RuntimeError (m_rig_cameras m !! rc) in
  try m := match truthy rig_instance with
           | Some _ => Ok m
           | None => match m_instances m !! id with Some _ => Ok m | None => rec_add_rig_instance m id end
           end in
  try _ := of_option RuntimeError (m_instances m !! ri) in
  create_shot m (false, id) camera rc ri (Some p).
Definition PANOSHOT_RIG_PREFIX := "panoshot_". (* types.py:12 *)
(** types.py:249-267 *)
Definition rec_create_pano_shot (m : rec) (id camera : string) (p : pose) : res rec :=
  let rc := PANOSHOT_RIG_PREFIX +:+ camera in
  let ri := PANOSHOT_RIG_PREFIX +:+ id in
  try m := rec_add_rig_camera m rc pose0 in
  try m := match m_instances m !! ri with Some _ => Ok m | None => rec_add_rig_instance m ri end in
  create_shot m (true, id) camera rc ri (Some p).

(** io.py:175-187 *)
Definition assign_shot_attributes (m : rec) (k : shot_key) (d : jdict) : res rec :=
  try meta := json_to_pymap_metadata d in
  try scale := match jget d "scale" with None => Ok 1%R | Some j => as_real j end in
  try cov := match jget d "covariance" with None => Ok [] | Some j => as_rows j end in
  try cc := match jget d "merge_cc" with None => Ok 0%Z | Some j => as_int j end in
  try m := assign_shot m k (ShotData meta scale cov cc) in
  match jget d "vertices", jget d "faces" with
  | Some v, Some f => try v := as_rows v in try f := as_rows f in set_mesh m k (Mesh v f)
  | _, _ => Ok m
  end.
(** io.py:190-211 *)
Definition shot_from_json (rig_shots : gmap string (string * string)) (pano : bool) (m : rec) (key : string) (d : jdict) : res rec :=
  try p := pose_from_json d in
  try cam := jreq d "camera" in
  try cam := as_str cam in
  try m := (if pano then rec_create_pano_shot m key cam p
            else rec_create_shot m key cam p (snd <$> rig_shots !! key) (fst <$> rig_shots !! key)) in
  assign_shot_attributes m (pano, key) d.
(** io.py:226-234; a color is read as integers *)
Definition as_color (j : json) : res (Z * Z * Z) :=
  match j with
  | JList [a; b; c] => try x := py_int a in try y := py_int b in try z := py_int c in Ok (x, y, z)
  | _ => Err TypeError
  end.
Definition point_from_json (m : rec) (key : string) (d : jdict) : res rec :=
  try x := jreq d "coordinates" in
  try x := as_vec x in
  try m := create_landmark m key x in
  try c := jreq d "color" in
  try c := as_color c in
  set_landmark m key x c.
Definition rig_camera_from_json (m : rec) (key : string) (d : jdict) : res rec :=
  try p := rig_pose_from_json d in rec_add_rig_camera m key p.
(** io.py:239-252 *)
Definition rig_instance_from_json (m : rec) (key : string) (d : jdict) : res rec :=
  try m := rec_add_rig_instance m key in
  try p := rig_pose_from_json d in
  instance_set_pose m key p.
(** io.py:255-269. The values of rig_camera_ids are read as strings here; the code passes them on unread. *)
Definition instance_members (i_key : string) (ri : jdict) : res (list (string * (string * string))) :=
  try ids := jreq ri "rig_camera_ids" in
  try ids := as_obj ids in
  mapR (fun kv => try c := as_str kv.2 in Ok (kv.1, (i_key, c))) ids.
Definition rig_instance_camera_per_shot (obj : jdict) : res (gmap string (string * string)) :=
  try panos := match jget obj "pano_shots" with Some j => try d := as_obj j in Ok d.*1 | None => Ok [] end in
  match jget obj "rig_instances" with
  | None => Ok ∅
  | Some j =>
      try d := as_obj j in
      try ls := mapR (fun kv => try o := as_obj kv.2 in instance_members kv.1 o) d in
      Ok (foldl (fun acc kv => if decide (kv.1 ∈ panos) then acc else <[kv.1 := kv.2]> acc) ∅ (concat ls))
  end.
(** io.py:272-339; [section] is a dictionary that may be absent *)
Definition section {S} (obj : jdict) (key : string) (f : S -> string -> jdict -> res S) (s : S) : res S :=
  match jget obj key with None => Ok s | Some j => try d := as_obj j in over_items f d s end.
Definition reference_from_json (m : rec) (obj : jdict) : res rec :=
  match jget obj "reference_lla" with
  | None => Ok m
  | Some j =>
      try lla := as_obj j in
      try lat := jreal lla "latitude" in
      try lon := jreal lla "longitude" in
      try alt := jreal lla "altitude" in
      Ok (set_reference m (Some (lat, lon, alt)))
  end.
Definition reconstruction_from_json (obj : jdict) : res rec :=
  try cams := jreq obj "cameras" in
  try cams := as_obj cams in
  try m := over_items (fun m k d => try c := camera_from_json k d in Ok (rec_add_camera m c)) cams map_empty in
  try m := section obj "biases" (fun m k d => try b := bias_from_json d in set_bias m k b) m in
  try m := section obj "rig_cameras" rig_camera_from_json m in
  try m := section obj "rig_instances" rig_instance_from_json m in
  try rig_shots := rig_instance_camera_per_shot obj in
  try shots := jreq obj "shots" in
  try shots := as_obj shots in
  try m := over_items (shot_from_json rig_shots false) shots m in
  try m := section obj "points" point_from_json m in
  try m := section obj "pano_shots" (shot_from_json rig_shots true) m in
  reference_from_json m obj.

(** Writing. Iteration orders of the hash maps of the map: arbitrary. *)
Variable enumL : gmap string landmark -> list (string * landmark).
Variable enumS : gmap shot_key shot -> list (shot_key * shot).
Variable enumI : gmap string (bool * string) -> list (string * (bool * string)).
Variable enumC : gmap string camera -> list (string * camera).
Variable enumB : gmap string similarity -> list (string * similarity).
Variable enumP : gmap string pose -> list (string * pose).
Variable enumN : gmap string instance -> list (string * instance).

(** io.py:498-519. The attributes scale, covariance and merge_cc, the metadata and the mesh always exist. *)
Definition shot_to_json (m : rec) (k : shot_key) (s : shot) : res jdict :=
  try p := of_option KeyError (get_pose m k) in
  try c := of_option KeyError (m_cameras m !! sh_camera s) in
  let d := [("rotation", jvec (get_rotation p)); ("translation", jvec (get_translation p)); ("camera", JStr (cam_id c))] in
  let d := jupdate d (pymap_metadata_to_json (sd_metadata (sh_data s))) in
  let d := jset d "vertices" (jrows (me_vertices (sh_mesh s))) in
  let d := jset d "faces" (jrows (me_faces (sh_mesh s))) in
  let d := jset d "scale" (JNum (sd_scale (sh_data s))) in
  let d := jset d "covariance" (jrows (sd_covariance (sh_data s))) in
  Ok (jset d "merge_cc" (JInt (sd_merge_cc (sh_data s)))).
(** io.py:522-543 *)
Definition rig_camera_to_json (p : pose) : jdict := [("rotation", jvec (get_rotation p)); ("translation", jvec (get_translation p))].
Definition rig_instance_to_json (i : instance) : jdict :=
  [("translation", jvec (get_translation (in_pose i))); ("rotation", jvec (get_rotation (in_pose i)));
   ("rig_camera_ids", JObj (List.map (fun e => (e.1, JStr e.2.2)) (enumI (in_members i))))].
(** io.py:609-616 *)
Definition point_to_json (l : landmark) : jdict :=
  let '(r, g, b) := lm_color l in
  [("color", JList [JNum (IZR r); JNum (IZR g); JNum (IZR b)]); ("coordinates", jvec (lm_pos l))].
Definition named {A} (f : A -> jdict) (l : list (string * A)) : jdict := List.map (fun e => (e.1, JObj (f e.2))) l.
Definition shots_to_json (m : rec) (pano : bool) : res jdict :=
  mapR (fun e => try d := shot_to_json m e.1 e.2 in Ok (e.1.2, JObj d)) (filter (fun e => e.1.1 = pano) (enumS (m_shots m))).
(** io.py:619-679. The getter of [reference] always gives a converter, of (0, 0, 0) when none was set. *)
Definition reconstruction_to_json (m : rec) : res jdict :=
  try cams := cameras_to_json (enumC (m_cameras m)) in
  try shots := shots_to_json m false in
  try panos := shots_to_json m true in
  let '(lat, lon, alt) := default (0%R, 0%R, 0%R) (m_reference m) in
  Ok ([("cameras", JObj cams); ("shots", JObj shots); ("points", JObj (named point_to_json (enumL (m_landmarks m))));
       ("biases", JObj (named bias_to_json (enumB (m_bias m))))]
      ++ (if decide (size (m_rig_cameras m) = 0) then [] else [("rig_cameras", JObj (named rig_camera_to_json (enumP (m_rig_cameras m))))])
      ++ (if decide (size (m_instances m) = 0) then [] else [("rig_instances", JObj (named rig_instance_to_json (enumN (m_instances m))))])
      ++ (match panos with [] => [] | _ => [("pano_shots", JObj panos)] end)
      ++ [("reference_lla", JObj [("latitude", JNum lat); ("longitude", JNum lon); ("altitude", JNum alt)])]).
End Rec.
