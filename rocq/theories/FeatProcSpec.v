(** Observations of a state of the feature extraction. *)
From stdpp Require Import prelude list strings.
From Verif Require Import Base FeatProcModel.

(** all tasks were started and are finished *)
Definition final (st : state) : Prop := Forall (fun t => finished t = true) (running st) /\ waiting st = [].
(** the images a detector is working on *)
Definition in_detection (st : state) : list string := omap (fun t => match t with CDet x => Some x | _ => None end) (running st).
(** reachable from the start of run_features_processing *)
Definition reachable (cap processes : nat) (images : list string) (chunks : list (list string)) : state -> Prop :=
  rtc (step cap (length images) (jobs processes chunks)) (start images processes chunks).
