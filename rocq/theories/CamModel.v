(** Model of the camera codecs of /repo/opensfm/io.py (camera_from_json, camera_to_json, cameras_from_json,
    cameras_to_json, camera_from_vector, camera_to_vector) and of the part of /repo/opensfm/src/geometry/src/camera.cc they
    use. Exact real arithmetic. NotImplementedError, a subclass of RuntimeError in Python, is [RuntimeError]. *)
From Coq Require Import Reals.
From stdpp Require Import prelude strings.
From Verif Require Import Base JsonModel.
Local Close Scope R_scope.

(** src/geometry/camera_instances.h:8-20 (ProjectionType; NONE is never used) and camera.h:9-28 (Camera::Parameters) *)
Inductive ptype := PERSPECTIVE | BROWN | FISHEYE | FISHEYE_OPENCV | FISHEYE62 | FISHEYE624 | SPHERICAL | DUAL | RADIAL | SIMPLE_RADIAL.
Inductive param := Transition | K1 | K2 | K3 | K4 | K5 | K6 | P1 | P2 | Focal | AspectRatio | Cx | Cy | S0 | S1 | S2 | S3 | PNone.
Global Instance param_eq_dec : EqDecision param. Proof. solve_decision. Defined.
Global Instance ptype_eq_dec : EqDecision ptype. Proof. solve_decision. Defined.

(** camera.h:85-88 and 115-118: the members of class Camera. *)
Record camera := Camera {
  cam_id : string; cam_width : Z; cam_height : Z;
  cam_type : ptype; cam_params : list param; cam_values : list R }.

(** camera.cc:10-171, the named constructors. A new Camera has an empty id and width = height = 1 (camera.h:85-87). *)
Definition new_camera (t : ptype) (ps : list param) (vs : list R) : camera := Camera "" 1 1 t ps vs.
Definition create_perspective (focal k1 k2 : R) : camera := new_camera PERSPECTIVE [K1; K2; Focal] [k1; k2; focal].
Definition create_fisheye (focal k1 k2 : R) : camera := new_camera FISHEYE [K1; K2; Focal] [k1; k2; focal].
Definition create_brown (focal aspect : R) (pp : R * R) (d : list R) : res camera :=
  match d with
  | [d0; d1; d2; d3; d4] => Ok (new_camera BROWN [K1; K2; K3; P1; P2; Focal; AspectRatio; Cx; Cy] [d0; d1; d2; d3; d4; focal; aspect; pp.1; pp.2])
  | _ => Err RuntimeError
  end.
Definition create_fisheye_opencv (focal aspect : R) (pp : R * R) (d : list R) : res camera :=
  match d with
  | [d0; d1; d2; d3] => Ok (new_camera FISHEYE_OPENCV [K1; K2; K3; K4; Focal; AspectRatio; Cx; Cy] [d0; d1; d2; d3; focal; aspect; pp.1; pp.2])
  | _ => Err RuntimeError
  end.
Definition create_fisheye62 (focal aspect : R) (pp : R * R) (d : list R) : res camera :=
  match d with
  | [d0; d1; d2; d3; d4; d5; d6; d7] =>
      Ok (new_camera FISHEYE62 [K1; K2; K3; K4; K5; K6; P1; P2; Focal; AspectRatio; Cx; Cy]
                     [d0; d1; d2; d3; d4; d5; d6; d7; focal; aspect; pp.1; pp.2])
  | _ => Err RuntimeError
  end.
Definition create_fisheye624 (focal aspect : R) (pp : R * R) (d : list R) : res camera :=
  match d with
  | [d0; d1; d2; d3; d4; d5; d6; d7; d8; d9; d10; d11] =>
      Ok (new_camera FISHEYE624 [K1; K2; K3; K4; K5; K6; P1; P2; S0; S1; S2; S3; Focal; AspectRatio; Cx; Cy]
                     [d0; d1; d2; d3; d4; d5; d6; d7; d8; d9; d10; d11; focal; aspect; pp.1; pp.2])
  | _ => Err RuntimeError
  end.
Definition create_dual (transition focal k1 k2 : R) : camera := new_camera DUAL [Transition; K1; K2; Focal] [transition; k1; k2; focal].
Definition create_spherical : camera := new_camera SPHERICAL [PNone] [0%R].
(** [const Vec2d& distortion]: pybind rejects other sizes with a TypeError *)
Definition create_radial (focal aspect : R) (pp : R * R) (d : R * R) : camera :=
  new_camera RADIAL [K1; K2; Focal; AspectRatio; Cx; Cy] [d.1; d.2; focal; aspect; pp.1; pp.2].
Definition create_simple_radial (focal aspect : R) (pp : R * R) (k1 : R) : camera :=
  new_camera SIMPLE_RADIAL [K1; Focal; AspectRatio; Cx; Cy] [k1; focal; aspect; pp.1; pp.2].

(** camera.cc:202-210: the first position that holds the parameter. Positions of [values_] without a type (possible only
    after SetParametersValues with a vector of another size) are undefined behaviour, an error here. *)
Fixpoint find_param (ps : list param) (vs : list R) (p : param) : res R :=
  match ps, vs with
  | q :: ps', v :: vs' => if decide (q = p) then Ok v else find_param ps' vs' p
  | _, _ => Err RuntimeError
  end.
Definition get_param (c : camera) (p : param) : res R := find_param (cam_params c) (cam_values c) p.
(** camera.cc:191-200 *)
Fixpoint update_param (ps : list param) (vs : list R) (p : param) (x : R) : res (list R) :=
  match ps, vs with
  | q :: ps', v :: vs' => if decide (q = p) then Ok (x :: vs') else try r := update_param ps' vs' p x in Ok (v :: r)
  | _, _ => Err RuntimeError
  end.
Definition set_param (c : camera) (p : param) (x : R) : res camera :=
  try vs := update_param (cam_params c) (cam_values c) p x in
  Ok (Camera (cam_id c) (cam_width c) (cam_height c) (cam_type c) (cam_params c) vs).

(** The integer value of a parameter: its rank in the enum, camera.h:9-28 *)
Definition param_int (p : param) : nat :=
  match p with
  | Transition => 0 | K1 => 1 | K2 => 2 | K3 => 3 | K4 => 4 | K5 => 5 | K6 => 6 | P1 => 7 | P2 => 8
  | Focal => 9 | AspectRatio => 10 | Cx => 11 | Cy => 12 | S0 => 13 | S1 => 14 | S2 => 15 | S3 => 16 | PNone => 17
  end.
(** src/geometry/python/pybind.cc:141-169, the getter of the property [distortion] *)
Definition disto_types : list param := [K1; K2; K3; K4; K5; K6; P1; P2; S0; S1; S2; S3].
Definition get_distortion (c : camera) : list R :=
  omap (fun p => match get_param c p with Ok v => Some v | Err _ => None end) disto_types.
(** pybind.cc:170-182, its setter. [distortion(count++)] out of the vector is undefined behaviour, an error here. *)
Fixpoint set_disto_loop (c : camera) (types : list param) (d : list R) : res camera :=
  match types with
  | [] => Ok c
  | p :: types' =>
      if decide (param_int K1 <= param_int p /\ param_int p <= param_int S3) then
        match d with
        | [] => Err IndexError
        | x :: d' => try c' := set_param c p x in set_disto_loop c' types' d'
        end
      else set_disto_loop c types' d
  end.
Definition set_distortion (c : camera) (d : list R) : res camera := set_disto_loop c (cam_params c) d.

(** camera.cc:214-243 *)
Definition projection_string (t : ptype) : string :=
  match t with
  | PERSPECTIVE => "perspective" | BROWN => "brown" | FISHEYE => "fisheye" | FISHEYE_OPENCV => "fisheye_opencv"
  | FISHEYE62 => "fisheye62" | FISHEYE624 => "fisheye624" | DUAL => "dual" | SPHERICAL => "spherical"
  | RADIAL => "radial" | SIMPLE_RADIAL => "simple_radial"
  end.
(** src/geometry/python/pybind.cc:199-203 *)
Definition is_panorama (s : string) : bool := bool_decide (s = "spherical") || bool_decide (s = "equirectangular").

(** [x / y] on Python floats *)
Definition py_div (x y : R) : res R := if Req_EM_T y 0 then Err ZeroDivisionError else Ok (x / y)%R.

(** [obj["focal"]] and [obj.get("k1", 0.0)] passed as doubles *)
Definition jreal (d : jdict) (key : string) : res R := try j := jreq d key in as_real j.
Definition jreal0 (d : jdict) (key : string) (dflt : R) : res R :=
  match jget d key with None => Ok dflt | Some j => as_real j end.
Definition jreals0 (d : jdict) (keys : list string) : res (list R) := mapR (fun k => jreal0 d k 0%R) keys.

(** The arguments [obj["focal_x"], obj["focal_y"] / obj["focal_x"], np.array([c_x, c_y])] of io.py:46-49, 65-68, 82-85,
    103-106, 128-131, 143-146 *)
Definition json_focals (d : jdict) : res (R * R * (R * R)) :=
  try fx := jreal d "focal_x" in
  try fy := jreal d "focal_y" in
  try aspect := py_div fy fx in
  try cx := jreal0 d "c_x" 0%R in
  try cy := jreal0 d "c_y" 0%R in
  Ok (fx, aspect, (cx, cy)).

(** io.py:33-159. Errors are the same exceptions, but when several keys are wrong the one raised may differ. *)
Definition camera_from_json (key : string) (d : jdict) : res camera :=
  try pt := match jget d "projection_type" with None => Ok "perspective" | Some j => as_str j end in
  try c :=
    (if decide (pt = "perspective") then
       try f := jreal d "focal" in try k1 := jreal0 d "k1" 0%R in try k2 := jreal0 d "k2" 0%R in Ok (create_perspective f k1 k2)
     else if decide (pt = "brown") then
       try (f, a, pp) := json_focals d in
       try ds := jreals0 d ["k1"; "k2"; "k3"; "p1"; "p2"] in create_brown f a pp ds
     else if decide (pt = "fisheye") then
       try f := jreal d "focal" in try k1 := jreal0 d "k1" 0%R in try k2 := jreal0 d "k2" 0%R in Ok (create_fisheye f k1 k2)
     else if decide (pt = "fisheye_opencv") then
       try (f, a, pp) := json_focals d in
       try ds := jreals0 d ["k1"; "k2"; "k3"; "k4"] in create_fisheye_opencv f a pp ds
     else if decide (pt = "fisheye62") then
       try (f, a, pp) := json_focals d in
       try ds := jreals0 d ["k1"; "k2"; "k3"; "k4"; "k5"; "k6"; "p1"; "p2"] in create_fisheye62 f a pp ds
     else if decide (pt = "fisheye624") then
       try (f, a, pp) := json_focals d in
       try ds := jreals0 d ["k1"; "k2"; "k3"; "k4"; "k5"; "k6"; "p1"; "p2"; "s0"; "s1"; "s2"; "s3"] in create_fisheye624 f a pp ds
     else if decide (pt = "radial") then
       try (f, a, pp) := json_focals d in
       try k1 := jreal0 d "k1" 0%R in try k2 := jreal0 d "k2" 0%R in Ok (create_radial f a pp (k1, k2))
     else if decide (pt = "simple_radial") then
       try (f, a, pp) := json_focals d in
       try k1 := jreal0 d "k1" 0%R in Ok (create_simple_radial f a pp k1)
     else if decide (pt = "dual") then
       try t := jreal0 d "transition" (1 / 2)%R in
       try f := jreal d "focal" in try k1 := jreal0 d "k1" 0%R in try k2 := jreal0 d "k2" 0%R in Ok (create_dual t f k1 k2)
     else if is_panorama pt then Ok create_spherical
     else Err RuntimeError) in
  try w := match jget d "width" with None => Ok 0%Z | Some j => py_int j end in
  try h := match jget d "height" with None => Ok 0%Z | Some j => py_int j end in
  Ok (Camera key w h (cam_type c) (cam_params c) (cam_values c)).

(** Evaluation of a dictionary display whose values are camera properties *)
Definition props (c : camera) (l : list (string * param)) : res jdict :=
  mapR (fun '(k, p) => try v := get_param c p in Ok (k, JNum v)) l.
(** The entries "focal_x": camera.focal, "focal_y": camera.focal * camera.aspect_ratio, "c_x" and "c_y"; the
    [principal_point] property (pybind.cc:186-191) raises out_of_range (IndexError) where [get_param] raises RuntimeError. *)
Definition focals (c : camera) : res jdict :=
  try f := get_param c Focal in
  try a := get_param c AspectRatio in
  try cx := get_param c Cx in
  try cy := get_param c Cy in
  Ok [("focal_x", JNum f); ("focal_y", JNum (f * a)%R); ("c_x", JNum cx); ("c_y", JNum cy)].

(** io.py:360-496 *)
Definition camera_to_json (c : camera) : res jdict :=
  let hd := [("projection_type", JStr (projection_string (cam_type c))); ("width", JInt (cam_width c)); ("height", JInt (cam_height c))] in
  try rest :=
    match cam_type c with
    | PERSPECTIVE => props c [("focal", Focal); ("k1", K1); ("k2", K2)]
    | BROWN => try fs := focals c in try ds := props c [("k1", K1); ("k2", K2); ("p1", P1); ("p2", P2); ("k3", K3)] in Ok (fs ++ ds)
    | FISHEYE => props c [("focal", Focal); ("k1", K1); ("k2", K2)]
    | FISHEYE_OPENCV => try fs := focals c in try ds := props c [("k1", K1); ("k2", K2); ("k3", K3); ("k4", K4)] in Ok (fs ++ ds)
    | FISHEYE62 =>
        try fs := focals c in
        try ds := props c [("k1", K1); ("k2", K2); ("k3", K3); ("k4", K4); ("k5", K5); ("k6", K6); ("p1", P1); ("p2", P2)] in Ok (fs ++ ds)
    | FISHEYE624 =>
        try fs := focals c in
        try ds := props c [("k1", K1); ("k2", K2); ("k3", K3); ("k4", K4); ("k5", K5); ("k6", K6); ("p1", P1); ("p2", P2);
                           ("s0", S0); ("s1", S1); ("s2", S2); ("s3", S3)] in Ok (fs ++ ds)
    | SIMPLE_RADIAL => try fs := focals c in try ds := props c [("k1", K1)] in Ok (fs ++ ds)
    | RADIAL => try fs := focals c in try ds := props c [("k1", K1); ("k2", K2)] in Ok (fs ++ ds)
    | DUAL => props c [("focal", Focal); ("k1", K1); ("k2", K2); ("transition", Transition)]
    | SPHERICAL => Ok []
    end in
  Ok (hd ++ rest).

(** io.py:350-357: dictionaries as association lists *)
Definition cameras_from_json (d : jdict) : res (list (string * camera)) :=
  mapR (fun '(k, j) => try o := as_obj j in try c := camera_from_json k o in Ok (k, c)) d.
(** io.py:650-657: keyed by the id of the camera, not by the key it was under; later cameras overwrite *)
Fixpoint cameras_to_json_loop (acc : jdict) (l : list (string * camera)) : res jdict :=
  match l with
  | [] => Ok acc
  | (_, c) :: l' => try d := camera_to_json c in cameras_to_json_loop (jset acc (cam_id c) (JObj d)) l'
  end.
Definition cameras_to_json (l : list (string * camera)) : res jdict := cameras_to_json_loop [] l.

(** io.py:680-768. Unpacking a list of another length is a ValueError. *)
Definition camera_from_vector (id : string) (w h : Z) (pt : string) (v : list R) : res camera :=
  try c :=
    (if decide (pt = "perspective") then
       match v with [f; k1; k2] => Ok (create_perspective f k1 k2) | _ => Err ValueError end
     else if decide (pt = "brown") then
       match v with
       | [fx; fy; cx; cy; k1; k2; p1; p2; k3] => try a := py_div fy fx in create_brown fx a (cx, cy) [k1; k2; k3; p1; p2]
       | _ => Err ValueError
       end
     else if decide (pt = "fisheye") then
       match v with [f; k1; k2] => Ok (create_fisheye f k1 k2) | _ => Err ValueError end
     else if decide (pt = "fisheye_opencv") then
       match v with
       | [fx; fy; cx; cy; k1; k2; k3; k4] => try a := py_div fy fx in create_fisheye_opencv fx a (cx, cy) [k1; k2; k3; k4]
       | _ => Err ValueError
       end
     else if decide (pt = "fisheye62") then
       match v with
       | [fx; fy; cx; cy; k1; k2; k3; k4; k5; k6; p1; p2] =>
           try a := py_div fy fx in create_fisheye62 fx a (cx, cy) [k1; k2; k3; k4; k5; k6; p1; p2]
       | _ => Err ValueError
       end
     else if decide (pt = "fisheye624") then
       match v with
       | [fx; fy; cx; cy; k1; k2; k3; k4; k5; k6; p1; p2; s0; s1; s2; s3] =>
           try a := py_div fy fx in create_fisheye624 fx a (cx, cy) [k1; k2; k3; k4; k5; k6; p1; p2; s0; s1; s2; s3]
       | _ => Err ValueError
       end
     else if decide (pt = "radial") then
       match v with
       | [fx; fy; cx; cy; k1; k2] => try a := py_div fy fx in Ok (create_radial fx a (cx, cy) (k1, k2))
       | _ => Err ValueError
       end
     else if decide (pt = "simple_radial") then
       match v with
       | [fx; fy; cx; cy; k1] => try a := py_div fy fx in Ok (create_simple_radial fx a (cx, cy) k1)
       | _ => Err ValueError
       end
     else if decide (pt = "dual") then
       match v with [f; k1; k2; t] => Ok (create_dual t f k1 k2) | _ => Err ValueError end
     else if is_panorama pt then Ok create_spherical
     else Err RuntimeError) in
  Ok (Camera id w h (cam_type c) (cam_params c) (cam_values c)).

Definition gets (c : camera) (l : list param) : res (list R) := mapR (get_param c) l.
Definition vfocals (c : camera) : res (list R) :=
  try f := get_param c Focal in
  try a := get_param c AspectRatio in
  try cx := get_param c Cx in
  try cy := get_param c Cy in
  Ok [f; (f * a)%R; cx; cy].
(** io.py:771-863 *)
Definition camera_to_vector (c : camera) : res (list R) :=
  match cam_type c with
  | PERSPECTIVE => gets c [Focal; K1; K2]
  | BROWN => try fs := vfocals c in try ds := gets c [K1; K2; P1; P2; K3] in Ok (fs ++ ds)
  | FISHEYE => gets c [Focal; K1; K2]
  | FISHEYE_OPENCV => try fs := vfocals c in try ds := gets c [K1; K2; K3; K4] in Ok (fs ++ ds)
  | FISHEYE62 => try fs := vfocals c in try ds := gets c [K1; K2; K3; K4; K5; K6; P1; P2] in Ok (fs ++ ds)
  | FISHEYE624 => try fs := vfocals c in try ds := gets c [K1; K2; K3; K4; K5; K6; P1; P2; S0; S1; S2; S3] in Ok (fs ++ ds)
  | RADIAL => try fs := vfocals c in try ds := gets c [K1; K2] in Ok (fs ++ ds)
  | SIMPLE_RADIAL => try fs := vfocals c in try ds := gets c [K1] in Ok (fs ++ ds)
  | DUAL => gets c [Focal; K1; K2; Transition]
  | SPHERICAL => Ok []
  end.
