(** Specification of TracksManager: one table (shot, track) -> observation, built from the history of calls. *)
From stdpp Require Import prelude gmap strings.
From Verif Require Import Base TracksModel.

Section Spec.
Context {O : Type}.

(** The observation last added for [(s, t)] and not removed since. The most recent call is the last of the list. *)
Fixpoint table_rev (rh : list (tm_op O)) (s : shot_id) (t : track_id) : option O :=
  match rh with
  | [] => None
  | TAdd s' t' o :: rh' => if bool_decide (s' = s /\ t' = t) then Some o else table_rev rh' s t
  | TRemove s' t' :: rh' => if bool_decide (s' = s /\ t' = t) then None else table_rev rh' s t
  end.
Definition table (h : list (tm_op O)) : shot_id -> track_id -> option O := table_rev (reverse h).

(** Some observation of this shot (resp. track) was added, be it removed later or not. *)
Definition shot_seen (h : list (tm_op O)) (s : shot_id) : Prop := exists t o, TAdd s t o ∈ h.
Definition track_seen (h : list (tm_op O)) (t : track_id) : Prop := exists s o, TAdd s t o ∈ h.

(** The observations a manager answers with. *)
Definition observed (m : tm O) (s : shot_id) (t : track_id) : option O :=
  match tm_get m s t with Ok o => Some o | Err _ => None end.

(** The two indices of [m] agree. *)
Definition consistent (m : tm O) : Prop :=
  forall s t, (tracks_per_shot m !! s ≫= (.!! t)) = (shots_per_track m !! t ≫= (.!! s)).

(** Filters of [get_all_pairs_connectivity]: an empty filter selects everything. *)
Definition selected_shot (m : tm O) (shots : list shot_id) (s : shot_id) : Prop :=
  (shots = [] /\ tm_has_shot m s = true) \/ s ∈ shots.
Definition selected_tracks (all tracks : list track_id) : list track_id := if decide (tracks = []) then all else tracks.

(** Number of entries of [ts] that are tracks observed by both [a] and [b]. *)
Definition n_common (m : tm O) (ts : list track_id) (a b : shot_id) : nat :=
  length (filter (fun t => is_Some (observed m a t) /\ is_Some (observed m b t)) ts).
End Spec.
Global Instance selected_shot_dec {O} (m : tm O) shots s : Decision (selected_shot m shots s).
Proof. unfold selected_shot. apply _. Defined.
