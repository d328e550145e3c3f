(** Specification of the reconstruction file properties: what is kept, and which reconstructions can be saved. *)
From Coq Require Import Reals.
From stdpp Require Import prelude gmap strings.
From Verif Require Import Base CamModel CamSpec Lin MapModel PoseModel PoseSpec RecModel.
Local Close Scope R_scope.

(** The measurements that have a place in the file: all but the orientation angles (opk) and the free attributes. *)
Definition kept_measurements (m : measurements) : measurements :=
  Measurements (ms_capture_time m) (ms_gps_position m) (ms_gps_accuracy m) (ms_compass_accuracy m) (ms_compass_angle m)
               (ms_gravity_down m) None None (ms_orientation m) (ms_sequence_key m) ∅.

Section Spec.
Context {O : Type}.
Notation rec := (@map camera similarity pose vec shot_data mesh O (R * R * R)).
(** What a file keeps of a shot and of a point: everything but their observations (and the measurements above). *)
Definition kept_shot (s : shot shot_data mesh O) : shot shot_data mesh O :=
  Shot (sh_camera s) (sh_rig_camera s) (sh_instance s)
       (ShotData (kept_measurements (sd_metadata (sh_data s))) (sd_scale (sh_data s)) (sd_covariance (sh_data s)) (sd_merge_cc (sh_data s)))
       (sh_mesh s) ∅ ∅.
Definition kept_point (l : landmark vec) : landmark vec := Landmark (lm_pos l) (lm_color l) ∅.

(** The reconstructions that a file can hold: cameras are stored under their id and can be written; biases are rigid motions
    with a scale; no rig camera is a tiny motion that the code confuses with the identity; rig names are not empty; pano
    shots have the rigs that create_pano_shot gives them, and no shot has the name of a pano shot. *)
Record saveable (m : rec) : Prop := Saveable {
  sv_camera : forall id c, m_cameras m !! id = Some c -> cam_id c = id /\ made c /\ recoverable c;
  sv_bias : forall id b, m_bias m !! id = Some b -> valid (sim_pose b);
  sv_rig_camera : forall id p, m_rig_cameras m !! id = Some p -> p = pose0 \/ is_identity p = false;
  sv_names : forall id s, m_shots m !! (false, id) = Some s -> sh_instance s <> "" /\ sh_rig_camera s <> "";
  sv_pano : forall id s, m_shots m !! (true, id) = Some s -> sh_instance s = "panoshot_" +:+ id /\ sh_rig_camera s = "panoshot_" +:+ sh_camera s;
  sv_disjoint : forall id, m_shots m !! (false, id) = None \/ m_shots m !! (true, id) = None }.
End Spec.
