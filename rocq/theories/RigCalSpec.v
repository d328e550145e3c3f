(** Specification of the calibration of rigs. *)
From stdpp Require Import prelude strings gmap.
From Coq Require Import Reals.
From Verif Require Import Base Lin RotModel PoseModel PoseSpec RigModel RigCalModel.
Local Open Scope R_scope.

(** The rig cameras describe the relative poses of the shots of an instance: how the camera of one shot lies in the frame of that of the other *)
Definition describes (cameras : gmap string pose) (instance : list (pose * string)) : Prop :=
  forall p1 c1 p2 c2, (p1, c1) ∈ instance -> (p2, c2) ∈ instance -> exists q1 q2, cameras !! c1 = Some q1 /\ cameras !! c2 = Some q2 /\ valid q1 /\ valid q2 /\ relative_to q1 q2 = relative_to p1 p2.
(** Each shot of an instance has its own rig camera *)
Definition proper (instance : list (pose * string)) : Prop := NoDup instance.*2 /\ forall p c, (p, c) ∈ instance -> valid p.
(** The instance [b] is the instance [a] moved by d without turning *)
Definition moved (d : vec) (a b : list (pose * string)) : Prop :=
  Forall2 (fun s t => s.2 = t.2 /\ w_rot t.1 = w_rot s.1 /\ get_origin t.1 = vadd (get_origin s.1) d) a b.
(** All shots of an instance are reconstructed *)
Definition complete (shots : gmap string pose) (i : rig_instance) : Prop := forall s c, (s, c) ∈ i -> is_Some (shots !! s).
Definition with_key (key : string) (instances : list rig_instance) : list rig_instance := filter (fun i => group_key i = key) instances.
(** The poses of the shots of an instance *)
Definition poses_of (shots : gmap string pose) (i : rig_instance) (l : list (pose * string)) : Prop := Forall2 (fun s t => shots !! s.1 = Some t.1 /\ s.2 = t.2) i l.
Definition rotation_about_z (a : R) : mat := Mat (cos a) (- sin a) 0 (sin a) (cos a) 0 0 0 1.
(** A round is accepted if it calibrates all rig cameras and reconstructs enough of its instances *)
Definition accepted (instances : list rig_instance) (completeness : R) (r : round) (cameras : gmap string pose) : Prop :=
  r_images r <> [] /\ exists shots rest, r_reconstructions r = shots :: rest /\ cameras = create_rig_cameras_from_reconstruction shots instances /\
    (forall i s c, i ∈ instances -> (s, c) ∈ i -> exists j t, j ∈ instances /\ complete shots j /\ (t, c) ∈ j) /\
    INR (length (filter (Forall (fun s => is_Some (shots !! s.1))) (r_instances r))) >= INR (length (r_instances r)) * completeness.
(** The instances of a round are disjoint and its reconstructions are of their images *)
Definition proper_round (r : round) : Prop := NoDup (concat (r_instances r)).*1 /\ forall shots s, shots ∈ r_reconstructions r -> is_Some (shots !! s) -> s ∈ (concat (r_instances r)).*1.
