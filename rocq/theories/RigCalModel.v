(** Model of the calibration of rigs from a reconstruction: /repo/opensfm/rig.py:210-388, over the reals. Rotation vectors and poses are those of PoseModel. *)
From stdpp Require Import prelude strings gmap.
From Coq Require Import Reals.
From Verif Require Import Base Lin RotModel PoseModel RigModel.
Local Open Scope R_scope.

Definition vsum (l : list vec) : vec := foldl vadd v0 l.
(** 217-229: the frame of an instance, from the poses of its shots: the means of the rotation vectors and of the origins. The mean over no shots (not-a-numbers) is not used *)
Definition instance_frame (poses : list pose) : pose :=
  let origin_center := vscale (/ INR (length poses)) (vsum (get_origin <$> poses)) in
  let rotation_center := vscale (/ INR (length poses)) (vsum (get_rotation <$> poses)) in
  set_origin (pose_of_vector rotation_center v0) origin_center.
(** 230-241: the poses of the shots in the frame of their instance, with their rig cameras *)
Definition centered (instance : list (pose * string)) : list (pose * string) :=
  (fun s => (relative_to s.1 (instance_frame instance.*1), s.2)) <$> instance.
(** 243-254: the dictionaries average_origin, average_rotation and count_poses, which have the same keys *)
Definition add_pose (acc : gmap string (vec * vec * nat)) (s : pose * string) : gmap string (vec * vec * nat) :=
  let '(o, r, n) := default (v0, v0, 0%nat) (acc !! s.2) in
  <[s.2 := (vadd o (get_origin s.1), vadd r (get_rotation s.1), S n)]> acc.
(** 256-262 *)
Definition mean_pose (a : vec * vec * nat) : pose :=
  let '(o, r, n) := a in set_origin (pose_of_vector (vscale (/ INR n) r) v0) (vscale (/ INR n) o).
(** 210-262 *)
Definition compute_relative_pose (instances : list (list (pose * string))) : gmap string pose :=
  mean_pose <$> foldl (foldl add_pose) ∅ (centered <$> instances).

(** 118-127 again, with the order of the dictionary *)
Fixpoint add_to_group (key : string) (i : rig_instance) (groups : list (string * list rig_instance)) : list (string * list rig_instance) :=
  match groups with
  | [] => [(key, [i])]
  | (k, l) :: rest => if decide (k = key) then (k, l ++ [i]) :: rest else (k, l) :: add_to_group key i rest
  end.
Definition groups_in_order (instances : list rig_instance) : list (string * list rig_instance) := foldl (fun acc i => add_to_group (group_key i) i acc) [] instances.
(** sorted(..., key=lambda x: -len(x)): stable *)
Fixpoint insert_group (g : list rig_instance) (l : list (list rig_instance)) : list (list rig_instance) :=
  match l with [] => [g] | x :: r => if decide (length x < length g)%nat then g :: x :: r else x :: insert_group g r end.
Definition sort_groups (l : list (list rig_instance)) : list (list rig_instance) := foldl (fun acc g => insert_group g acc) [] l.
(** 275-288: the poses of an instance; None if a shot of it is not reconstructed *)
Definition instance_poses (shots : gmap string pose) (i : rig_instance) : option (list (pose * string)) :=
  mapM (fun s => (fun p => (p, s.2)) <$> shots !! s.1) i.
(** 264-295 *)
Definition create_rig_cameras_from_reconstruction (shots : gmap string pose) (instances : list rig_instance) : gmap string pose :=
  foldl (fun rig_cameras group => rig_cameras ∪ compute_relative_pose (omap (instance_poses shots) group)) ∅ (sort_groups (groups_in_order instances).*2).

(** A round: the images and the instances proposed, and the shots of the reconstructions of SfM on these images *)
Record round := Round { r_images : list string; r_instances : list rig_instance; r_reconstructions : list (gmap string pose) }.
(** 323-372: a round of the loop; None is continue *)
Definition try_round (instances_per_rig : list rig_instance) (completeness : R) (r : round) : res (option (gmap string pose)) :=
  if decide (length (r_images r) = 0%nat) then Ok None
  else match r_reconstructions r with
       | [] => Ok None
       | shots :: _ =>
           let rig_cameras := create_rig_cameras_from_reconstruction shots instances_per_rig in
           let found_cameras : gset string := list_to_set (concat instances_per_rig).*2 in
           if decide (dom rig_cameras = found_cameras) then
             try n := count_reconstructed_instances (r_instances r) (elements (dom shots)) in
             if Rlt_dec (IZR n) (INR (length (r_instances r)) * completeness) then Ok None else Ok (Some rig_cameras)
           else Ok None
       end.
(** 310-388: the rounds; None if nothing is saved, otherwise the rig cameras that are saved *)
Fixpoint run_rounds (instances_per_rig : list rig_instance) (completeness : R) (rounds : nat -> round) (count todo : nat) : res (option (gmap string pose)) :=
  match todo with
  | 0%nat => Ok None
  | S todo =>
      try found := try_round instances_per_rig completeness (rounds count) in
      match found with Some c => Ok (Some c) | None => run_rounds instances_per_rig completeness rounds (S count) todo end
  end.
(** 298-388: count > max_rounds ends the loop *)
Definition create_rigs (instances_per_rig : list rig_instance) (completeness : R) (max_rounds : nat) (rounds : nat -> round) : res (option (gmap string pose)) :=
  try found := run_rounds instances_per_rig completeness rounds 0 (max_rounds + 1) in
  match found with Some c => Ok (if decide (c = ∅) then None else Some c) | None => Ok None end.
