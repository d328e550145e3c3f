(** C03, C06, C07: TracksManager. [O] is the type of observations, every theorem holds for every [O]. *)
From stdpp Require Import prelude gmap strings.
From Coq Require String.
From Verif Require Import Base TracksModel TracksSpec TracksProofs.

(** C03: the three getters answer from one table, whatever the history of additions and removals. *)
Theorem C03_get_observation :
  forall (O : Type) (h : list (tm_op O)) s t, tm_get (tm_run h) s t = of_option RuntimeError (table h s t).
Proof. exact (fun O h s t => tm_get_table h s t). Qed.
Print Assumptions C03_get_observation.

Theorem C03_get_shot_observations :
  forall (O : Type) (h : list (tm_op O)) s,
  (shot_seen h s -> exists ts, tm_shot_obs (tm_run h) s = Ok ts /\ forall t, ts !! t = table h s t) /\
  (~ shot_seen h s -> tm_shot_obs (tm_run h) s = Err RuntimeError).
Proof. exact (fun O h s => tm_shot_obs_table h s). Qed.
Print Assumptions C03_get_shot_observations.

Theorem C03_get_track_observations :
  forall (O : Type) (h : list (tm_op O)) t,
  (track_seen h t -> exists ss, tm_track_obs (tm_run h) t = Ok ss /\ forall s, ss !! s = table h s t) /\
  (~ track_seen h t -> tm_track_obs (tm_run h) t = Err RuntimeError).
Proof. exact (fun O h t => tm_track_obs_table h t). Qed.
Print Assumptions C03_get_track_observations.

(** Removing raises exactly when the shot or the track was never seen, and then changes nothing. *)
Theorem C03_remove_outcome :
  forall (O : Type) (h : list (tm_op O)) s t,
  (shot_seen h s /\ track_seen h t -> (tm_step (tm_run h) (TRemove s t)).2 = Ok tt) /\
  (~ (shot_seen h s /\ track_seen h t) ->
     (tm_step (tm_run h) (TRemove s t)).2 = Err RuntimeError /\ (tm_step (tm_run h) (TRemove s t)).1 = tm_run h).
Proof. exact (fun O h s t => tm_remove_outcome h s t). Qed.
Print Assumptions C03_remove_outcome.

(** get_shot_ids / get_track_ids list every shot/track ever added, once, in whatever order the hash map has. *)
Theorem C03_ids :
  forall (O : Type) (h : list (tm_op O)) enum, enumerates enum ->
  NoDup (tm_shot_ids enum (tm_run h)) /\ (forall s, s ∈ tm_shot_ids enum (tm_run h) <-> shot_seen h s) /\
  NoDup (tm_track_ids enum (tm_run h)) /\ (forall t, t ∈ tm_track_ids enum (tm_run h) <-> track_seen h t).
Proof. exact (fun O h enum => tm_ids h enum). Qed.
Print Assumptions C03_ids.

(** The two indices agree after every history: this is the hypothesis of the theorems below. *)
Theorem C03_consistent : forall (O : Type) (h : list (tm_op O)), consistent (tm_run h).
Proof. exact (fun O h => trep_consistent _ _ (trep_run h)). Qed.
Print Assumptions C03_consistent.

(** C06: the sub-manager is the restriction, for all lists of tracks and shots (known or not, repeated or not). *)
Theorem C06_sub_manager :
  forall (O : Type) enum (m : tm O) tracks shots, enumerates enum -> consistent m ->
  consistent (tm_sub enum m tracks shots) /\
  forall s t o, observed (tm_sub enum m tracks shots) s t = Some o <->
    observed m s t = Some o /\ t ∈ tracks /\ s ∈ shots.
Proof. exact (fun O enum m tracks shots => tm_sub_spec enum m tracks shots). Qed.
Print Assumptions C06_sub_manager.

(** C07: the common observations of two shots: every common track once, with the observation of each shot. *)
Theorem C07_common_observations :
  forall (O : Type) enum (m : tm O) s1 s2, enumerates enum ->
  match tm_common enum m s1 s2 with
  | Ok l => tm_has_shot m s1 = true /\ tm_has_shot m s2 = true /\ NoDup l.*1.*1 /\
      (forall t a b, (t, a, b) ∈ l <-> observed m s1 t = Some a /\ observed m s2 t = Some b)
  | Err e => e = RuntimeError /\ (tm_has_shot m s1 = false \/ tm_has_shot m s2 = false)
  end.
Proof. exact (fun O enum m s1 s2 => tm_common_spec enum m s1 s2). Qed.
Print Assumptions C07_common_observations.

(** C07: the connectivity of [(a, b)]: present exactly for [a < b], both selected, with a common selected track, and the
    value is the number of common selected tracks. (A track id repeated in the filter is counted each time.) *)
Theorem C07_pairs_connectivity :
  forall (O : Type) enumT enumO (m : tm O) shots tracks, enumerates enumT -> enumerates enumO -> consistent m ->
  forall a b,
    tm_pairs enumT enumO m shots tracks !! (a, b) =
    let n := n_common m (selected_tracks (tm_track_ids enumT m) tracks) a b in
    if decide (String.ltb a b = true /\ selected_shot m shots a /\ selected_shot m shots b /\ n <> 0) then Some n else None.
Proof. exact (fun O enumT enumO m shots tracks => tm_pairs_spec enumT enumO m shots tracks). Qed.
Print Assumptions C07_pairs_connectivity.

(** ... which, without filters, is the number of common observations. *)
Theorem C07_count_is_common :
  forall (O : Type) enumT enumO (m : tm O) a b l, enumerates enumT -> enumerates enumO -> consistent m ->
  tm_common enumO m a b = Ok l -> n_common m (tm_track_ids enumT m) a b = length l.
Proof. exact (fun O enumT enumO m a b l => tm_common_count enumT enumO m a b l). Qed.
Print Assumptions C07_count_is_common.

(** Concrete instances. *)
Definition tm_example : list (tm_op nat) :=
  [TAdd "a" "1" 10; TAdd "b" "1" 11; TAdd "b" "2" 12; TAdd "a" "2" 13; TAdd "c" "2" 14; TRemove "a" "2"; TRemove "z" "1";
   TAdd "a" "1" 15].

Example C03_nonvacuous :
  tm_get (tm_run tm_example) "a" "1" = Ok 15 /\ tm_get (tm_run tm_example) "a" "2" = Err RuntimeError /\
  shot_seen tm_example "a" /\ ~ shot_seen tm_example "z" /\
  (tm_step (tm_run tm_example) (TRemove "z" "1")).2 = Err RuntimeError.
Proof.
  split_and!; try by vm_compute.
  - exists "1", 10. unfold tm_example. set_solver.
  - intros (t & o & Hin). unfold tm_example in Hin. set_solver.
Qed.

Example C06_C07_nonvacuous :
  enumerates (A:=nat) (map_to_list (K:=string)) /\ consistent (tm_run tm_example) /\
  observed (tm_sub map_to_list (tm_run tm_example) ["1"; "7"; "1"] ["b"; "a"]) "b" "1" = Some 11 /\
  tm_pairs map_to_list map_to_list (tm_run tm_example) [] [] !! ("a", "b") = Some 1 /\
  tm_pairs map_to_list map_to_list (tm_run tm_example) [] [] !! ("a", "c") = None.
Proof. split; [intros m; reflexivity|]. split; [apply C03_consistent|]. by vm_compute. Qed.

(** The caveat of the comment above is real: repeating a track id in the filter inflates the count. *)
Theorem C07_repeated_filter_counts_twice :
  exists (m : tm nat) tracks, consistent m /\
    tm_pairs map_to_list map_to_list m [] tracks !! ("a", "b") = Some 2 /\
    n_common m (tm_track_ids map_to_list m) "a" "b" = 1.
Proof. exists (tm_run tm_example), ["1"; "1"]. split; [apply C03_consistent|]. by vm_compute. Qed.
Print Assumptions C07_repeated_filter_counts_twice.
