(** Specification of the realignment of a map onto another one. *)
From stdpp Require Import prelude gmap strings.
From Coq Require Import Reals.
From Verif Require Import Base Lin RotModel PoseModel PoseSpec GeoModel TriangModel BundleModel CullModel MapModel MapSpec RealignModel.
Local Open Scope R_scope.

(** The same orientation, the centre moved by a vector *)
Definition shifted (p : pose) (by_ : vec) (p' : pose) : Prop := valid p' /\ w_rot p' = w_rot p /\ get_origin p' = vadd (get_origin p) by_.
(** Where a point of the local frame of a reference (latitude, longitude, altitude) is on Earth *)
Definition on_earth (reference x : vec) : vec :=
  affine_apply (ecef_from_topocentric_transform (vx reference) (vy reference) (vz reference)) x.
(** A rig camera whose poses are exact: see C11_pose_is_composition *)
Definition regular (rc : pose) : Prop := rc = pose0 \/ is_identity rc = false.

Section Spec.
Context {T B M X O : Type}.
Notation map := (@map (camera T) B pose vec (metadata M) X O vec).
Notation shot := (shot (metadata M) X O). Notation landmark := (landmark vec).

Definition known (from : map) (id : string) : Prop := is_Some (m_shots from !! (false, id)).
(** [id] is a shot that observes the landmark, is known to [from], and no other such shot is closer to the point *)
Definition observer (from to : map) (l : landmark) (id : string) (p : pose) : Prop :=
  exists pano f, lm_obs l !! id = Some (pano, f) /\ known from id /\ get_pose to (pano, id) = Some p.
Definition nearest_observer (from to : map) (l : landmark) (id : string) : Prop :=
  exists p, observer from to l id p /\
    forall id' p', observer from to l id' p' -> norm (vsub (lm_pos l) (get_origin p)) <= norm (vsub (lm_pos l) (get_origin p')).
(** The ratio of the distances in [to] and in [from]: the recorded scale of the shot, 1 when there is none *)
Definition scale_from (sf : shot) : R := if Req_EM_T (d_scale (sh_data sf)) 0 then 1 else d_scale (sh_data sf).
(** [x'] is seen from the shot as it is in [from] (moved by [off]) as [x] was seen from the shot as it is in [to], at a distance
    divided by the scale *)
Definition seen_as (from to : map) (off : vec) (id : string) (x x' : vec) : Prop :=
  exists sf pf pf' pt, m_shots from !! (false, id) = Some sf /\ get_pose from (false, id) = Some pf /\ get_pose to (false, id) = Some pt /\
    shifted pf off pf' /\ transform pf' x' = vscale (1 / scale_from sf) (transform pt x).

(** What realign_maps makes of a shot *)
Definition shot_realigned (from : map) (k : shot_key) (s s' : shot) : Prop :=
  sh_camera s' = sh_camera s /\ sh_rig_camera s' = sh_rig_camera s /\ sh_instance s' = sh_instance s /\ sh_mesh s' = sh_mesh s /\
  sh_obs s' = sh_obs s /\ sh_feat s' = sh_feat s /\
  if k.1 then sh_data s' = sh_data s
  else exists sf, m_shots from !! k = Some sf /\
       sh_data s' = Metadata (d_merge_cc (sh_data sf)) (d_scale (sh_data sf)) (d_rest (sh_data s)).
(** ... of a camera: it gets the values of the camera of one of the shots that use it *)
Definition camera_realigned (from to : map) (id : string) (c c' : camera T) : Prop :=
  c_kind c' = c_kind c /\
  ((c_values c' = c_values c /\ forall x s, m_shots to !! (false, x) = Some s -> sh_camera s = id -> ~ known from x) \/
   exists x s sf cf, m_shots to !! (false, x) = Some s /\ sh_camera s = id /\ m_shots from !! (false, x) = Some sf /\
     m_cameras from !! sh_camera sf = Some cf /\ c_values c' = c_values cf).
(** ... of a rig instance: the pose of the instance of one of its members in [from] *)
Definition instance_realigned (from to' : map) (off : vec) (i i' : instance pose) : Prop :=
  (forall s e, in_members i' !! s = Some e <-> in_members i !! s = Some e /\ is_Some (m_shots to' !! (e.1, s))) /\
  ((in_pose i' = in_pose i /\ forall s, is_Some (in_members i !! s) -> ~ known from s) \/
   exists s sf i_f, is_Some (in_members i !! s) /\ m_shots from !! (false, s) = Some sf /\ m_instances from !! sh_instance sf = Some i_f /\
     shifted (in_pose i_f) off (in_pose i')).
(** ... of a landmark *)
Definition landmark_realigned (from to to' : map) (off : vec) (update_points : bool) (l l' : landmark) : Prop :=
  lm_color l' = lm_color l /\
  (forall s e, lm_obs l' !! s = Some e <-> lm_obs l !! s = Some e /\ is_Some (m_shots to' !! (e.1, s))) /\
  if update_points then
    (lm_pos l' = lm_pos l /\ forall id p, ~ observer from to l id p) \/
    (exists id, nearest_observer from to l id /\
       (seen_as from to off id (lm_pos l) (lm_pos l') \/ (lm_pos l' = lm_pos l /\ m_shots to !! (false, id) = None)))
  else lm_pos l' = lm_pos l.
(** ... of the map *)
Record realigned (from to : map) (update_points : bool) (off : vec) (to' : map) : Prop := {
  ra_shots : forall k s', m_shots to' !! k = Some s' -> exists s, m_shots to !! k = Some s /\ shot_realigned from k s s';
  ra_kept : forall k s, m_shots to !! k = Some s -> (is_Some (m_shots to' !! k) <-> k.1 = true \/ known from k.2);
  ra_cameras : forall id, match m_cameras to !! id, m_cameras to' !! id with
      | Some c, Some c' => camera_realigned from to id c c' | None, None => True | _, _ => False end;
  ra_instances : forall id, match m_instances to !! id, m_instances to' !! id with
      | Some i, Some i' => instance_realigned from to' off i i' | None, None => True | _, _ => False end;
  ra_landmarks : forall id, match m_landmarks to !! id, m_landmarks to' !! id with
      | Some l, Some l' => landmark_realigned from to to' off update_points l l' | None, None => True | _, _ => False end;
  ra_rest : m_bias to' = m_bias to /\ m_rig_cameras to' = m_rig_cameras to /\ m_reference to' = m_reference to }.
End Spec.
