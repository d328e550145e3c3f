(** Vocabulary for the bundle adjustment theorems. *)
From stdpp Require Import prelude gmap strings.
From Coq Require Import Reals.
From Verif Require Import Base Lin BundleModel.
Open Scope nat_scope.

Section Spec.
Context {C B P V E O : Type}.
Notation scene := (@scene C B P V E O). Notation problem := (@problem C B P V O).

(** A map without dangling references (C09), with a bias for each camera and a prior for each camera and rig camera *)
Record well_formed (camera_priors rig_camera_priors : gset string) (s : scene) : Prop := {
  w_camera : forall x d, shots s !! x = Some d -> s_camera d ∈ dom (cameras s);
  w_rig_camera : forall x d, shots s !! x = Some d -> s_rig_camera d ∈ dom (rig_cameras s);
  w_instance : forall x d, shots s !! x = Some d -> s_instance d ∈ dom (instances s);
  w_landmarks : forall x d, shots s !! x = Some d -> dom (s_obs d) ⊆ dom (landmarks s);
  w_biases : dom (biases s) = dom (cameras s);
  w_camera_priors : dom (cameras s) ⊆ camera_priors;
  w_rig_camera_priors : dom (rig_cameras s) ⊆ rig_camera_priors }.

(** The minimisation changes values of blocks that are not constant, and nothing else *)
Definition keeps {T} (m z : gmap string (T * bool)) : Prop :=
  (forall id v, m !! id = Some (v, true) -> z !! id = Some (v, true)) /\
  (forall id v, m !! id = Some (v, false) -> exists v', z !! id = Some (v', false)).
Definition minimises (solve : problem -> problem) : Prop := forall p,
  keeps (p_cameras p) (p_cameras (solve p)) /\ keeps (p_biases p) (p_biases (solve p)) /\ keeps (p_rig_cameras p) (p_rig_cameras (solve p)) /\
  keeps (p_instances p) (p_instances (solve p)) /\ keeps (p_points p) (p_points (solve p)).

(** [x] is a shot of instance [i]; shot [x] observes landmark [lm] as [o] *)
Definition shot_in (s : scene) (x i : string) : Prop := exists d, shots s !! x = Some d /\ s_instance d = i.
Definition observes (s : scene) (x lm : string) (o : O) : Prop := exists d, shots s !! x = Some d /\ s_obs d !! lm = Some o.

(** mean of a list of positions, and of their accuracies *)
Definition sum_positions (l : list (vec * R)) : vec := foldr (fun g acc => vadd g.1 acc) v0 l.
Definition sum_accuracies (l : list (vec * R)) : R := foldr (fun g acc => (g.2 + acc)%R) 0%R l.
Definition mean (l : list (vec * R)) : option (vec * R) :=
  match l with [] => None | _ => Some (vscale (/ INR (length l)) (sum_positions l), (sum_accuracies l / INR (length l))%R) end.
(** the positions of the shots of instance [i], [g] being the position of a shot *)
Definition gps_list (g : shot -> option (vec * R)) (s : scene) (i : string) : list (vec * R) :=
  omap (fun '(_, d) => g d) (map_to_list (filter (fun '(_, d) => s_instance d = i) (shots s))).
(** position and accuracy of a shot, if both are known *)
Definition measured (d : @shot O) : option (vec * R) := match s_gps d, s_accuracy d with Some p, Some a => Some (p, a) | _, _ => None end.
(** position of a shot, with a default accuracy *)
Definition located (accuracy0 : R) (d : @shot O) : option (vec * R) := match s_gps d with Some p => Some (p, default accuracy0 (s_accuracy d)) | None => None end.
End Spec.
