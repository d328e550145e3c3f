(** C05: merging tracks managers joins exactly the tracks sharing a feature. *)
From stdpp Require Import prelude gmap strings pretty.
From Verif Require Import Base TracksModel TracksSpec TracksProofs TracksProps MergeModel MergeSpec MergeProofs.

(** For all lists of managers, all iteration orders of the hash maps and all orders the cluster sort may produce: merging
    succeeds; there is a naming [id] of the input tracks by merged track ids such that two input tracks get the same merged
    id exactly when a chain of shared (shot, feature id) links them; every shot observed by an input track is observed by
    its merged track; every merged observation is one of an input track with that merged id. *)
Theorem C05_merge :
  forall (O : Type) (feature_of : O -> Z) enumT enumO enumF srt,
  enumerates enumT -> enumerates enumO -> enumerates enumF -> (forall l, srt l ≡ₚ l) ->
  forall ms : list (tm O), (forall m, m ∈ ms -> consistent m) ->
  exists merged, merge_tracks_managers feature_of enumT enumO enumF srt ms = Ok merged /\ consistent merged /\
    exists id : nat * track_id -> track_id,
      (forall a b, input_track ms a -> input_track ms b -> (id a = id b <-> chain feature_of ms a b)) /\
      (forall i s t, is_Some (input ms i s t) -> is_Some (observed merged s (id (i, t)))) /\
      (forall s k o, observed merged s k = Some o -> exists i t, input ms i s t = Some o /\ id (i, t) = k).
Proof. exact (fun O feature_of enumT enumO enumF srt HT HO HF Hs ms => merge_spec feature_of enumT enumO enumF srt HT HO HF Hs ms). Qed.
Print Assumptions C05_merge.

(** What does NOT hold: "no observation is lost". When a cluster contains two observations of one shot with different
    feature ids, the last one written overwrites the other. Here the feature 1 of shot "s" is lost. *)
Definition C05_lossy : list (tm (Z * nat)) :=
  [tm_run [TAdd "s" "1" (1%Z, 10); TAdd "u" "1" (5%Z, 11)]; tm_run [TAdd "s" "7" (2%Z, 12); TAdd "u" "7" (5%Z, 13)]].
Theorem C05_observations_lost_refuted :
  exists ms : list (tm (Z * nat)), (forall m, m ∈ ms -> consistent m) /\
    match merge_tracks_managers fst map_to_list map_to_list map_to_list id ms with
    | Ok merged => input ms 0 "s" "1" = Some (1%Z, 10) /\
        Forall (fun k => fst <$> observed merged "s" k <> Some 1%Z) (tm_track_ids map_to_list merged)
    | Err _ => False
    end.
Proof.
  exists C05_lossy. split.
  - intros m Hm. unfold C05_lossy in Hm. apply elem_of_cons in Hm as [->|Hm]; [apply C03_consistent|].
    apply elem_of_list_singleton in Hm as ->. apply C03_consistent.
  - vm_compute. split; [done|]. repeat constructor; congruence.
Qed.
Print Assumptions C05_observations_lost_refuted.

(** A concrete instance of the hypotheses with a merge across three managers. *)
Definition C05_example : list (tm (Z * nat)) :=
  [tm_run [TAdd "s" "1" (1%Z, 10); TAdd "u" "1" (5%Z, 11); TAdd "u" "2" (6%Z, 20)];
   tm_run [TAdd "v" "7" (2%Z, 12); TAdd "u" "7" (5%Z, 13)]; tm_run [TAdd "v" "x" (2%Z, 14); TAdd "w" "x" (9%Z, 14)]].
Example C05_nonvacuous :
  (forall m, m ∈ C05_example -> consistent m) /\
  chain fst C05_example (0, "1") (2, "x") /\
  match merge_tracks_managers fst map_to_list map_to_list map_to_list id C05_example with
  | Ok merged => tm_num_tracks merged = 2 | Err _ => False end.
Proof.
  split; [|split].
  - intros m Hm. unfold C05_example in Hm. repeat (apply elem_of_cons in Hm as [->|Hm]; [apply C03_consistent|]). set_solver.
  - apply (chain_step _ _ _ (1, "7")).
    + exists "u", (5%Z, 11), (5%Z, 13). by vm_compute.
    + apply (chain_step _ _ _ (2, "x")); [|constructor]. exists "v", (2%Z, 12), (2%Z, 14). by vm_compute.
  - by vm_compute.
Qed.
