(** Model of /repo/opensfm/src/map: src/map.cc (class Map), src/shot.cc + shot.h (class Shot), src/landmark.cc +
    landmark.h (class Landmark), src/rig.cc + rig.h (class RigInstance).

    Objects are kept by value in hash maps; the pointers between them (shot -> landmark, landmark -> shot, instance ->
    shot, shot -> camera / rig camera / instance) are modelled by the ids of the objects they point to, so a dangling
    pointer is an id that is not in the map any more. [shots_] and [pano_shots_] are one map here, keyed by
    [(false, id)] for shots and [(true, id)] for pano shots. *)
From stdpp Require Import prelude gmap strings.
From Verif Require Import Base TracksModel.

Notation shot_key := (bool * string)%type.   (* (is pano, id) *)

(** The types the map is parametric in: cameras, biases, poses, 3D points, per shot data copied by AssignShot
    (merge_cc, scale, measurements, covariance), meshes, observations. *)
Section Types.
Context {P V D X O : Type}.
(** shot.h:126-163. [sh_obs] is [landmark_observations_], [sh_feat] is [landmark_id_]. [sh_data] is (merge_cc, scale,
    measurements, covariance). The cached [pose_] is recomputed by every GetPose: not modelled. *)
Record shot := Shot {
  sh_camera : string; sh_rig_camera : string; sh_instance : string; sh_data : D; sh_mesh : X;
  sh_obs : gmap string O; sh_feat : gmap Z string }.
(** landmark.h:48-56. [std::map<Shot*, FeatureId, KeyCompare>] is ordered by the id of the shot: the key is that id, and
    the value carries which shot the pointer designates. Reprojection errors are not modelled. *)
Record landmark := Landmark { lm_pos : V; lm_color : Z * Z * Z; lm_obs : gmap string (bool * Z) }.
(** rig.h:93-107: [shots_] and [shots_rig_cameras_] always have the same keys; here one map from shot id to the kind of
    shot pointed to and the rig camera id. VARIABLE rig cameras ("never used/tested" says rig.cc:33) are not modelled. *)
Record instance := Instance { in_pose : P; in_members : gmap string (bool * string) }.
End Types.
Arguments shot : clear implicits. Arguments landmark : clear implicits. Arguments instance : clear implicits.

Section Map.
Context {C B P V D X O R : Type}.
Variable feature_of : O -> Z.
Variable bias0 : B.            (* Similarity() *)
Variable pose0 : P.            (* Pose() *)
Variable data0 : D.            (* what a new Shot holds *)
Variable mesh0 : X.
Variable pcompose : P -> P -> P.
Variable pinverse : P -> P.
Notation shot := (shot D X O). Notation landmark := (landmark V). Notation instance := (instance P).

(** map.h, private members *)
Record map := Map {
  m_cameras : gmap string C; m_bias : gmap string B;
  m_rig_cameras : gmap string P;      (* id -> pose of the rig camera *)
  m_instances : gmap string instance;
  m_shots : gmap shot_key shot;
  m_landmarks : gmap string landmark;
  m_reference : option R }.
Definition map_empty : map := Map ∅ ∅ ∅ ∅ ∅ ∅ None.

Definition set_shots (m : map) x := Map (m_cameras m) (m_bias m) (m_rig_cameras m) (m_instances m) x (m_landmarks m) (m_reference m).
Definition set_landmarks (m : map) x := Map (m_cameras m) (m_bias m) (m_rig_cameras m) (m_instances m) (m_shots m) x (m_reference m).
Definition set_instances (m : map) x := Map (m_cameras m) (m_bias m) (m_rig_cameras m) x (m_shots m) (m_landmarks m) (m_reference m).
Definition set_rig_cameras (m : map) x := Map (m_cameras m) (m_bias m) x (m_instances m) (m_shots m) (m_landmarks m) (m_reference m).
Definition set_biases (m : map) x := Map (m_cameras m) x (m_rig_cameras m) (m_instances m) (m_shots m) (m_landmarks m) (m_reference m).
Definition set_reference (m : map) x := Map (m_cameras m) (m_bias m) (m_rig_cameras m) (m_instances m) (m_shots m) (m_landmarks m) x.

(** std::map::insert / emplace: no effect when the key exists *)
Definition emplace {K A} `{Countable K} (k : K) (a : A) (m : gmap K A) : gmap K A :=
  match m !! k with Some _ => m | None => <[k := a]> m end.

(** map.cc:322-326 *)
Definition create_camera (m : map) (id : string) (c : C) : map :=
  Map (emplace id c (m_cameras m)) (emplace id bias0 (m_bias m)) (m_rig_cameras m) (m_instances m) (m_shots m) (m_landmarks m) (m_reference m).
(** map.cc:407-415 *)
Definition create_rig_camera (m : map) (id : string) (pose : P) : res map :=
  match m_rig_cameras m !! id with
  | Some _ => Err RuntimeError
  | None => Ok (set_rig_cameras m (<[id := pose]> (m_rig_cameras m)))
  end.
(** map.cc:417-428; a new RigInstance has the default pose and no shot (rig.h:43) *)
Definition create_instance (m : map) (id : string) : res map :=
  match m_instances m !! id with
  | Some _ => Err RuntimeError
  | None => Ok (set_instances m (<[id := Instance pose0 ∅]> (m_instances m)))
  end.
(** map.cc:430-437 *)
Definition remove_instance (m : map) (id : string) : res map :=
  match m_instances m !! id with
  | None => Err RuntimeError
  | Some _ => Ok (set_instances m (delete id (m_instances m)))
  end.

(** rig.cc:18-40 *)
Definition instance_add_shot (i : instance) (rig_camera : string) (k : shot_key) : res instance :=
  if decide (map_Forall (fun _ e => e.2 <> rig_camera) (in_members i))
  then Ok (Instance (in_pose i) (<[k.2 := (k.1, rig_camera)]> (in_members i)))
  else Err RuntimeError.
(** rig.cc:42-57; [rig_camera_pose] is read through the member's rig camera pointer *)
Definition instance_update_pose (rig_cameras : gmap string P) (i : instance) (shot_id : string) (shot_pose : P) : res instance :=
  match in_members i !! shot_id with
  | None => Err RuntimeError
  | Some (_, rc) =>
      try rc_pose := of_option KeyError (rig_cameras !! rc) in
      Ok (Instance (pcompose (pinverse rc_pose) shot_pose) (in_members i))
  end.
(** rig.cc:73-80 *)
Definition instance_remove_shot (i : instance) (shot_id : string) : res instance :=
  match in_members i !! shot_id with
  | None => Err RuntimeError
  | Some _ => Ok (Instance (in_pose i) (delete shot_id (in_members i)))
  end.

(** map.cc:172-207 and 237-254 (CreateShot, with and without a pose, CreatePanoShot), shot.cc:18-41 (constructors).
    The order of the checks differs from nothing observable but the message. *)
Definition create_shot (m : map) (k : shot_key) (camera rig_camera inst : string) (pose : option P) : res map :=
  match m_shots m !! k with
  | Some _ => Err RuntimeError
  | None =>
      match m_cameras m !! camera, m_instances m !! inst, m_rig_cameras m !! rig_camera with
      | Some _, Some i, Some _ =>
          try i1 := instance_add_shot i rig_camera k in
          try i2 := match pose with None => Ok i1 | Some p => instance_update_pose (m_rig_cameras m) i1 k.2 p end in
          Ok (set_shots (set_instances m (<[inst := i2]> (m_instances m)))
                        (<[k := Shot camera rig_camera inst data0 mesh0 ∅ ∅]> (m_shots m)))
      | _, _, _ => Err RuntimeError
      end
  end.

(** shot.cc:146-167 (GetPoseInRig, GetPose). For a single-shot rig with an identity rig camera the instance pose is
    returned instead of [identity o pose], which is the same pose. *)
Definition shot_pose (m : map) (k : shot_key) : option P :=
  s ← m_shots m !! k; i ← m_instances m !! sh_instance s; rc ← m_rig_cameras m !! sh_rig_camera s; Some (pcompose rc (in_pose i)).

(** shot.h:109-112 *)
Definition shot_create_obs (s : shot) (lm : string) (o : O) : shot :=
  Shot (sh_camera s) (sh_rig_camera s) (sh_instance s) (sh_data s) (sh_mesh s) (emplace lm o (sh_obs s)) (emplace (feature_of o) lm (sh_feat s)).
(** shot.cc:126-135 *)
Definition shot_remove_obs (s : shot) (f : Z) : res shot :=
  match sh_feat s !! f with
  | None => Err RuntimeError
  | Some lm => Ok (Shot (sh_camera s) (sh_rig_camera s) (sh_instance s) (sh_data s) (sh_mesh s) (delete lm (sh_obs s)) (delete f (sh_feat s)))
  end.
(** shot.h:105-108: [at] throws out_of_range *)
Definition shot_get_observation (s : shot) (f : Z) : res O :=
  try lm := of_option IndexError (sh_feat s !! f) in of_option IndexError (sh_obs s !! lm).

(** landmark.cc:30-32 *)
Definition lm_add_obs (l : landmark) (k : shot_key) (f : Z) : landmark :=
  Landmark (lm_pos l) (lm_color l) (emplace k.2 (k.1, f) (lm_obs l)).
(** landmark.cc:15-19 *)
Definition lm_remove_obs (l : landmark) (shot_id : string) : landmark :=
  Landmark (lm_pos l) (lm_color l) (delete shot_id (lm_obs l)).

(** map.cc:65-76; by pointers (shots and pano shots) or by ids (shots only) *)
Definition add_observation (m : map) (k : shot_key) (lm : string) (o : O) : res map :=
  match m_shots m !! k, m_landmarks m !! lm with
  | Some s, Some l =>
      Ok (set_landmarks (set_shots m (<[k := shot_create_obs s lm o]> (m_shots m)))
                        (<[lm := lm_add_obs l k (feature_of o)]> (m_landmarks m)))
  | _, _ => Err RuntimeError
  end.
(** map.cc:78-83 (ids of shots only), landmark.cc:21-28 *)
Definition remove_observation (m : map) (shot_id lm : string) : res map :=
  match m_shots m !! (false, shot_id), m_landmarks m !! lm with
  | Some s, Some l =>
      match lm_obs l !! shot_id with
      | None => Err RuntimeError
      | Some (_, f) =>
          try s1 := shot_remove_obs s f in
          Ok (set_landmarks (set_shots m (<[(false, shot_id) := s1]> (m_shots m))) (<[lm := lm_remove_obs l shot_id]> (m_landmarks m)))
      end
  | _, _ => Err RuntimeError
  end.

(** Iteration orders: [landmarks_] is an unordered_map, the maps inside shots and landmarks are ordered by id. *)
Variable enumL : gmap string landmark -> list (string * landmark).
Variable enumF : gmap string (bool * Z) -> list (string * (bool * Z)).
Variable enumO : gmap string O -> list (string * O).
Variable enumS : gmap shot_key shot -> list (shot_key * shot).
Variable enumI : gmap string (bool * string) -> list (string * (bool * string)).
Variable enumC : gmap string C -> list (string * C).
Variable enumB : gmap string B -> list (string * B).

(** map.cc:135-137, 150-152, 311-313: the loops over the observations of one landmark. A dangling shot pointer (undefined
    behaviour) is [Err KeyError]. *)
Fixpoint drop_obs (shots : gmap shot_key shot) (l : list (string * (bool * Z))) : res (gmap shot_key shot) :=
  match l with
  | [] => Ok shots
  | (s, (k, f)) :: l' =>
      try x := of_option KeyError (shots !! (k, s)) in
      try x1 := shot_remove_obs x f in
      drop_obs (<[(k, s) := x1]> shots) l'
  end.
(** map.cc:303-320 *)
Definition remove_landmark (m : map) (lm : string) : res map :=
  match m_landmarks m !! lm with
  | None => Err RuntimeError
  | Some l =>
      try shots := drop_obs (m_shots m) (enumF (lm_obs l)) in
      Ok (set_landmarks (set_shots m shots) (delete lm (m_landmarks m)))
  end.
(** map.cc:131-142 *)
Fixpoint clear_loop (shots : gmap shot_key shot) (ls : list (string * landmark)) : res (gmap shot_key shot) :=
  match ls with
  | [] => Ok shots
  | (_, l) :: ls' => try shots1 := drop_obs shots (enumF (lm_obs l)) in clear_loop shots1 ls'
  end.
Definition clear_landmarks (m : map) : res map :=
  try shots := clear_loop (m_shots m) (enumL (m_landmarks m)) in
  Ok (set_landmarks (set_shots m shots) ∅).
(** map.cc:144-159 *)
Fixpoint clean_loop (n : nat) (m : map) (ls : list (string * landmark)) : res map :=
  match ls with
  | [] => Ok m
  | (id, l) :: ls' =>
      if decide (size (lm_obs l) < n) then
        try shots := drop_obs (m_shots m) (enumF (lm_obs l)) in
        clean_loop n (set_landmarks (set_shots m shots) (delete id (m_landmarks m))) ls'
      else clean_loop n m ls'
  end.
Definition clean_landmarks (m : map) (n : nat) : res map := clean_loop n m (enumL (m_landmarks m)).

(** map.cc:282-293; landmark.cc:6-7 gives the color *)
Definition create_landmark (m : map) (lm : string) (pos : V) : res map :=
  match m_landmarks m !! lm with
  | Some _ => Err RuntimeError
  | None => Ok (set_landmarks m (<[lm := Landmark pos (255, 0, 0)%Z ∅]> (m_landmarks m)))
  end.
(** landmark.h:19, 21: setters through the landmark *)
Definition set_landmark (m : map) (lm : string) (pos : V) (color : Z * Z * Z) : res map :=
  match m_landmarks m !! lm with
  | None => Err RuntimeError
  | Some l => Ok (set_landmarks m (<[lm := Landmark pos color (lm_obs l)]> (m_landmarks m)))
  end.

(** map.cc:209-226 and 256-271 (RemoveShot, RemovePanoShot). A dangling landmark or instance pointer is [Err KeyError]. *)
Fixpoint forget_shot (landmarks : gmap string landmark) (shot_id : string) (l : list (string * O)) : res (gmap string landmark) :=
  match l with
  | [] => Ok landmarks
  | (lm, _) :: l' =>
      try x := of_option KeyError (landmarks !! lm) in
      forget_shot (<[lm := lm_remove_obs x shot_id]> landmarks) shot_id l'
  end.
Definition remove_shot (m : map) (k : shot_key) : res map :=
  match m_shots m !! k with
  | None => Err RuntimeError
  | Some s =>
      try i := of_option KeyError (m_instances m !! sh_instance s) in
      try i1 := instance_remove_shot i k.2 in
      try lms := forget_shot (m_landmarks m) k.2 (enumO (sh_obs s)) in
      Ok (set_landmarks (set_shots (set_instances m (<[sh_instance s := i1]> (m_instances m))) (delete k (m_shots m))) lms)
  end.

(** map.cc:494-501 *)
Definition set_bias (m : map) (id : string) (b : B) : res map :=
  match m_bias m !! id with None => Err RuntimeError | Some _ => Ok (set_biases m (<[id := b]> (m_bias m))) end.
(** rig.h:63 *)
Definition instance_set_pose (m : map) (id : string) (p : P) : res map :=
  match m_instances m !! id with
  | None => Err RuntimeError
  | Some i => Ok (set_instances m (<[id := Instance p (in_members i)]> (m_instances m)))
  end.
(** map.cc:13-18 (AssignShot) and the setters of shot.h that it copies *)
Definition assign_shot (m : map) (k : shot_key) (d : D) : res map :=
  match m_shots m !! k with
  | None => Err RuntimeError
  | Some s => Ok (set_shots m (<[k := Shot (sh_camera s) (sh_rig_camera s) (sh_instance s) d (sh_mesh s) (sh_obs s) (sh_feat s)]> (m_shots m)))
  end.
(** shot.h:145 *)
Definition set_mesh (m : map) (k : shot_key) (x : X) : res map :=
  match m_shots m !! k with
  | None => Err RuntimeError
  | Some s => Ok (set_shots m (<[k := Shot (sh_camera s) (sh_rig_camera s) (sh_instance s) (sh_data s) x (sh_obs s) (sh_feat s)]> (m_shots m)))
  end.

(** map.cc:344-379 (UpdateShotWithRig): [to] is the map written to, [from] the map of [k]. *)
Fixpoint update_members (to from : map) (pano : bool) (inst : string) (l : list (string * (bool * string))) : res map :=
  match l with
  | [] => Ok to
  | (s, (k', _)) :: l' =>
      try x := of_option KeyError (m_shots from !! (k', s)) in
      try cam := of_option KeyError (m_cameras from !! sh_camera x) in
      let to1 := match m_cameras to !! sh_camera x with Some _ => to | None => create_camera to (sh_camera x) cam end in
      try rc := of_option KeyError (m_rig_cameras from !! sh_rig_camera x) in
      try to2 := match m_rig_cameras to1 !! sh_rig_camera x with Some _ => Ok to1 | None => create_rig_camera to1 (sh_rig_camera x) rc end in
      try to3 := match m_shots to2 !! (pano, s) with
                 | Some _ => Ok to2
                 | None =>
                     try p := of_option KeyError (shot_pose from (k', s)) in
                     try to3 := create_shot to2 (pano, s) (sh_camera x) (sh_rig_camera x) inst (Some p) in
                     assign_shot to3 (pano, s) (sh_data x)
                 end in
      update_members to3 from pano inst l'
  end.
Definition update_shot_with_rig (to from : map) (k : shot_key) : res map :=
  try x := of_option KeyError (m_shots from !! k) in
  try i := of_option KeyError (m_instances from !! sh_instance x) in
  try to1 := match m_instances to !! sh_instance x with Some _ => Ok to | None => create_instance to (sh_instance x) end in
  try to2 := update_members to1 from k.1 (sh_instance x) (enumI (in_members i)) in
  try p := of_option KeyError (shot_pose from k) in
  try i2 := of_option RuntimeError (m_instances to2 !! sh_instance x) in
  try i3 := instance_update_pose (m_rig_cameras to2) i2 k.2 p in
  Ok (set_instances to2 (<[sh_instance x := i3]> (m_instances to2))).

(** map.cc:22-63 *)
Fixpoint copy_shots (to from : map) (pano : bool) (l : list (shot_key * shot)) : res map :=
  match l with
  | [] => Ok to
  | (k, _) :: l' =>
      if decide (k.1 = pano) then
        match m_shots to !! k with
        | Some _ => copy_shots to from pano l'
        | None => try to1 := update_shot_with_rig to from k in copy_shots to1 from pano l'
        end
      else copy_shots to from pano l'
  end.
Fixpoint copy_landmarks (to : map) (l : list (string * landmark)) : res map :=
  match l with
  | [] => Ok to
  | (id, lm) :: l' => try to1 := create_landmark to id (lm_pos lm) in copy_landmarks to1 l'
  end.
Fixpoint copy_shot_obs (to : map) (k : shot_key) (l : list (string * O)) : res map :=
  match l with
  | [] => Ok to
  | (lm, o) :: l' => try to1 := add_observation to k lm o in copy_shot_obs to1 k l'
  end.
Fixpoint copy_obs (to : map) (l : list (shot_key * shot)) : res map :=
  match l with
  | [] => Ok to
  | (k, s) :: l' =>
      if decide (k.1 = false) then try to1 := copy_shot_obs to k (enumO (sh_obs s)) in copy_obs to1 l'
      else copy_obs to l'
  end.
Fixpoint copy_biases (to : map) (l : list (string * B)) : res map :=
  match l with
  | [] => Ok to
  | (id, b) :: l' => try to1 := set_bias to id b in copy_biases to1 l'
  end.
Definition deep_copy (m : map) (copy_observations : bool) : res map :=
  let c0 := set_reference map_empty (m_reference m) in
  let c1 := foldl (fun to '(id, c) => create_camera to id c) c0 (enumC (m_cameras m)) in
  try c2 := copy_shots c1 m false (enumS (m_shots m)) in
  try c3 := copy_shots c2 m true (enumS (m_shots m)) in
  try c4 := copy_landmarks c3 (enumL (m_landmarks m)) in
  try c5 := (if copy_observations then copy_obs c4 (enumS (m_shots m)) else Ok c4) in
  copy_biases c5 (enumB (m_bias m)).

(** map.cc:566-579 (ToTracksManager): shots and pano shots together; the two loops are one over [enumS]. *)
Definition to_tracks_manager (m : map) : tm O :=
  foldl (fun acc '(k, s) => foldl (fun acc '(lm, o) => tm_add acc k.2 lm o) acc (enumO (sh_obs s))) tm_empty (enumS (m_shots m)).

(** Calls on one map. Under the usage protocol (MapSpec.v) an exception is raised before anything is written, so a failed
    call leaves the map as it is. *)
Inductive map_op :=
  | MCamera (id : string) (c : C)
  | MRigCamera (id : string) (p : P)
  | MInstance (id : string)
  | MRemoveInstance (id : string)
  | MInstancePose (id : string) (p : P)
  | MShot (k : shot_key) (camera rig_camera inst : string) (pose : option P)
  | MRemoveShot (k : shot_key)
  | MAssign (k : shot_key) (d : D)
  | MMesh (k : shot_key) (x : X)
  | MLandmark (lm : string) (pos : V)
  | MSetLandmark (lm : string) (pos : V) (color : Z * Z * Z)
  | MRemoveLandmark (lm : string)
  | MAddObs (k : shot_key) (lm : string) (o : O)
  | MRemoveObs (shot_id lm : string)
  | MClean (n : nat)
  | MClear
  | MBias (id : string) (b : B)
  | MReference (r : R).
Definition map_exec (m : map) (op : map_op) : res map :=
  match op with
  | MCamera id c => Ok (create_camera m id c)
  | MRigCamera id p => create_rig_camera m id p
  | MInstance id => create_instance m id
  | MRemoveInstance id => remove_instance m id
  | MInstancePose id p => instance_set_pose m id p
  | MShot k c rc i p => create_shot m k c rc i p
  | MRemoveShot k => remove_shot m k
  | MAssign k d => assign_shot m k d
  | MMesh k x => set_mesh m k x
  | MLandmark lm pos => create_landmark m lm pos
  | MSetLandmark lm pos color => set_landmark m lm pos color
  | MRemoveLandmark lm => remove_landmark m lm
  | MAddObs k lm o => add_observation m k lm o
  | MRemoveObs s lm => remove_observation m s lm
  | MClean n => clean_landmarks m n
  | MClear => clear_landmarks m
  | MBias id b => set_bias m id b
  | MReference r => Ok (set_reference m (Some r))
  end.
Definition map_step (m : map) (op : map_op) : map := match map_exec m op with Ok m' => m' | Err _ => m end.
End Map.
