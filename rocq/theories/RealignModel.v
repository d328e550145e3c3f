(** Model of RealignMaps (/repo/opensfm/src/sfm/src/retriangulation.cc, the python function pysfm.realign_maps): the map [to] is moved
    onto the poses of the map [from]. Over the maps of MapModel.v with the poses of PoseModel.v, in exact real arithmetic. *)
From stdpp Require Import prelude gmap strings.
From Coq Require Import Reals.
From Verif Require Import Base Lin RotModel PoseModel GeoModel TriangModel BundleModel CullModel MapModel.
Local Open Scope R_scope.

(** shot.h:135-136 and the rest of what a shot holds: merge_cc, scale, and the measurements *)
Record metadata {M : Type} := Metadata { d_merge_cc : Z; d_scale : R; d_rest : M }.
Arguments metadata : clear implicits. Arguments Metadata {M} _ _ _.
(** camera.h: the values of the parameters, and all the rest (projection type, size, parameter types) *)
Record camera {T : Type} := Camera { c_values : list R; c_kind : T }.
Arguments camera : clear implicits. Arguments Camera {T} _ _.
(** camera.cc:178: no check of the number of values *)
Definition set_parameters_values {T} (c : camera T) (values : list R) : camera T := Camera values (c_kind c).

Section Realign.
Context {T B M X O : Type}.
(** the reference: latitude, longitude, altitude *)
Notation map := (@map (camera T) B pose vec (metadata M) X O vec).
Notation shot := (shot (metadata M) X O). Notation landmark := (landmark vec).
(** the orders of the containers; [enumF]: std::map by id of the shot; [enumI]: the members of a rig instance; [enumS]: the shots of
    the map; [enumT]: an unordered_set *)
Variable enumF : gmap string (bool * Z) -> list (string * (bool * Z)).
Variable enumI : gmap string (bool * string) -> list (string * (bool * string)).
Variable enumO : gmap string O -> list (string * O).
Variable enumS : gmap shot_key shot -> list (shot_key * shot).
Variable enumT : gset string -> list string.

(** map.h:181-183: a map whose reference was never set has the default one (geo.cc:159-160) *)
Definition reference_of (m : map) : vec := default v0 (m_reference m).
(** retriangulation.cc:12-14 with geo.cc:175-177 *)
Definition from_to_offset (from to : map) : vec :=
  let f := reference_of from in let t := reference_of to in
  topocentric_from_lla (vx f) (vy f) (vz f) (vx t) (vy t) (vz t).
(** 16-43: the transform recorded for the shot [id]; the table is a function. None: no such entry. *)
Definition from_to_transform (from to : map) (id : string) : option similarity :=
  shot_from ← m_shots from !! (false, id);
  shot_from_pose ← get_pose from (false, id);
  shot_to_pose ← get_pose to (false, id);
  let shot_from_pose := set_origin shot_from_pose (vadd (get_origin shot_from_pose) (from_to_offset from to)) in
  let s := d_scale (sh_data shot_from) in
  let scale := if Req_EM_T s 0 then 1 else 1 / s in
  let R_to_from := mmul (c_rot shot_from_pose) (w_rot shot_to_pose) in
  let t_from_to := vadd (mvec (mscale (- scale) R_to_from) (get_origin shot_to_pose)) (get_origin shot_from_pose) in
  Some (similarity_of_matrix R_to_from t_from_to scale).
(** 50-61: the closest of the shots that observe the point and have an id known to [from]; None stands for max_dbl *)
Definition closer_shot (from to : map) (point : vec) (best : option (R * string)) (obs : string * (bool * Z)) : option (R * string) :=
  match m_shots from !! (false, obs.1) with
  | None => best
  | Some _ =>
      match get_pose to (obs.2.1, obs.1) with
      | None => best   (* a dangling pointer: undefined behaviour *)
      | Some p =>
          let dist2 := dist2 point (get_origin p) in
          match best with
          | None => Some (dist2, obs.1)
          | Some (d, _) => if Rlt_dec dist2 d then Some (dist2, obs.1) else best
          end
      end
  end.
Definition best_shot (from to : map) (l : landmark) : option (R * string) :=
  foldl (closer_shot from to (lm_pos l)) None (enumF (lm_obs l)).
(** 63-71 *)
Definition moved_point (from to : map) (l : landmark) : vec :=
  match best_shot from to l with
  | None => lm_pos l
  | Some (_, reference_shot) =>
      match from_to_transform from to reference_shot with None => lm_pos l | Some t => sim_transform t (lm_pos l) end
  end.
Definition move_points (from to : map) : map :=
  set_landmarks to ((fun l => Landmark (moved_point from to l) (lm_color l) (lm_obs l)) <$> m_landmarks to).

(** 75-93: [camera_to] is the camera of [to] with the id of the shot's camera. Also the shots to delete. *)
Definition set_cameras (m : map) x : map := Map x (m_bias m) (m_rig_cameras m) (m_instances m) (m_shots m) (m_landmarks m) (m_reference m).
Definition map_shot (from : map) (acc : map * gset string) (e : shot_key * shot) : res (map * gset string) :=
  let '(to, to_delete) := acc in
  let '((pano, id), s) := e in
  if (pano : bool) then Ok (to, to_delete) else
  match m_shots from !! (false, id) with
  | None => Ok (to, {[id]} ∪ to_delete)
  | Some shot_from =>
      try camera_from := of_option KeyError (m_cameras from !! sh_camera shot_from) in
      try camera_to := of_option RuntimeError (m_cameras to !! sh_camera s) in
      let to := set_cameras to (<[sh_camera s := set_parameters_values camera_to (c_values camera_from)]> (m_cameras to)) in
      let d := sh_data s in let d_from := sh_data shot_from in
      let s' := Shot (sh_camera s) (sh_rig_camera s) (sh_instance s) (Metadata (d_merge_cc d_from) (d_scale d_from) (d_rest d)) (sh_mesh s) (sh_obs s) (sh_feat s) in
      Ok (set_shots to (<[(false, id) := s']> (m_shots to)), to_delete)
  end.

(** 96-110: the pose of the first member known to [from] *)
Fixpoint first_known (from : map) (members : list (string * (bool * string))) : option shot :=
  match members with
  | [] => None
  | (id, _) :: rest => match m_shots from !! (false, id) with Some s => Some s | None => first_known from rest end
  end.
Definition map_instance (from to : map) (i : instance pose) : instance pose :=
  match s ← first_known from (enumI (in_members i)); m_instances from !! sh_instance s with
  | None => i
  | Some i_from => Instance (set_origin (in_pose i_from) (vadd (get_origin (in_pose i_from)) (from_to_offset from to))) (in_members i)
  end.
Definition map_instances (from to : map) : map := set_instances to (map_instance from to <$> m_instances to).
(** 113-115 *)
Definition remove_shots (to : map) (ids : list string) : res map := foldM (fun m id => remove_shot enumO m (false, id)) to ids.
(** 7-116 *)
Definition realign_maps (from to : map) (update_points : bool) : res map :=
  let to := if update_points then move_points from to else to in
  try (to, to_delete) := foldM (map_shot from) (to, ∅) (enumS (m_shots to)) in
  let to := map_instances from to in
  remove_shots to (enumT to_delete).
End Realign.
