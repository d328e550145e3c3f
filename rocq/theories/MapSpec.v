(** Specification vocabulary for maps: who observes whom, and the usage protocol. *)
From stdpp Require Import prelude gmap strings.
From Verif Require Import Base TracksModel MapModel.

Section Spec.
Context {C B P V D X O R : Type}.
Variable feature_of : O -> Z.
Notation map := (@map C B P V D X O R).
Notation map_op := (@map_op C B P V D X O R).

(** The shot lists an observation of the landmark. *)
Definition shot_sees (m : map) (k : shot_key) (lm : string) (o : O) : Prop :=
  exists s, m_shots m !! k = Some s /\ sh_obs s !! lm = Some o.
(** The landmark lists the shot with a feature id. *)
Definition landmark_lists (m : map) (lm : string) (k : shot_key) (f : Z) : Prop :=
  exists l, m_landmarks m !! lm = Some l /\ lm_obs l !! k.2 = Some (k.1, f).

(** Usage protocol: one landmark per feature of a shot, one feature per landmark in a shot (shots and pano shots with one
    id count as one shot for a landmark), members of an instance have different ids, only empty instances are removed. *)
Definition allowed (m : map) (op : map_op) : Prop :=
  match op with
  | MAddObs k lm o =>
      (forall lm' o', shot_sees m k lm' o' -> feature_of o' <> feature_of o) /\
      (forall b f, ~ landmark_lists m lm (b, k.2) f)
  | MRemoveObs s lm => forall f, ~ landmark_lists m lm (true, s) f
  | MShot k _ _ inst _ => forall i, m_instances m !! inst = Some i -> in_members i !! k.2 = None
  | MRemoveInstance id => forall i, m_instances m !! id = Some i -> in_members i = ∅
  | _ => True
  end.
(** The maps that calls obeying the protocol can produce, whatever the constructor defaults and pose operations. *)
Inductive reachable (step : map -> map_op -> map) : map -> Prop :=
  | reach_empty : reachable step map_empty
  | reach_step m op : reachable step m -> allowed m op -> reachable step (step m op).
(** What a shot holds apart from its observations, and maps that agree on everything but observations and landmarks. *)
Definition shot_body (s : shot D X O) := (sh_camera s, sh_rig_camera s, sh_instance s, sh_data s, sh_mesh s).
Definition same_frame (m m' : map) : Prop :=
  m_cameras m' = m_cameras m /\ m_bias m' = m_bias m /\ m_rig_cameras m' = m_rig_cameras m /\
  m_instances m' = m_instances m /\ m_reference m' = m_reference m /\
  forall k, shot_body <$> m_shots m' !! k = shot_body <$> m_shots m !! k.
(** No reference to an object that does not exist: instances, cameras and rig cameras of shots, members of instances,
    landmarks of shots, shots of landmarks. *)
Record no_dangling (m : map) : Prop := {
  nd_shot : forall k s, m_shots m !! k = Some s ->
    is_Some (m_cameras m !! sh_camera s) /\ is_Some (m_rig_cameras m !! sh_rig_camera s) /\
    exists i, m_instances m !! sh_instance s = Some i /\ in_members i !! k.2 = Some (k.1, sh_rig_camera s);
  nd_instance : forall id i s b rc, m_instances m !! id = Some i -> in_members i !! s = Some (b, rc) ->
    exists x, m_shots m !! (b, s) = Some x /\ sh_instance x = id /\ sh_rig_camera x = rc;
  nd_landmark_of_shot : forall k lm o, shot_sees m k lm o -> is_Some (m_landmarks m !! lm);
  nd_shot_of_landmark : forall k lm f, landmark_lists m lm k f -> is_Some (m_shots m !! k) }.
(** No rig instance groups ordinary shots with pano shots. *)
Definition unmixed (m : map) : Prop :=
  forall id i s1 s2 b1 b2 r1 r2, m_instances m !! id = Some i ->
    in_members i !! s1 = Some (b1, r1) -> in_members i !! s2 = Some (b2, r2) -> b1 = b2.
End Spec.
