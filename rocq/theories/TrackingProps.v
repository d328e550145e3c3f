(** C02: tracks are the clean connected components of the match graph. *)
From stdpp Require Import prelude gmap strings pretty.
From Verif Require Import Base UnionFindModel TracksModel TracksSpec TracksProofs TrackingModel TrackingSpec TrackingProofs.

(** When the call succeeds: there is a naming of features by track ids such that two features of kept components have
    the same id exactly when a chain of matches links them, and the manager contains observation [o] of shot [s] in track
    [t] exactly when some feature [f] of [s], in a kept component named [t], has a row in [features] and [o] is made
    of that feature's own position, scale, color, labels, depth and index. *)
Theorem C02_tracks_are_components :
  forall (F : Type) finite fmul fmax gtk (features : gmap string (list (F * F * F))) colors segmentations instances
    matches min_length depths radial sd m,
  create_tracks_manager finite fmul fmax gtk features colors segmentations instances matches min_length depths radial sd = Ok m ->
  consistent m /\
  exists id : feature -> track_id,
    (forall a b, in_graph matches a -> kept matches min_length a -> in_graph matches b -> kept matches min_length b ->
       (id a = id b <-> connected matches a b)) /\
    (forall s t o, observed m s t = Some o <->
       exists f, in_graph matches (s, f) /\ kept matches min_length (s, f) /\ id (s, f) = t /\
         expected_obs finite fmul fmax features colors segmentations instances depths radial sd s f o).
Proof. exact (fun F finite fmul fmax gtk features colors segmentations instances matches min_length depths radial sd m =>
  create_spec finite fmul fmax gtk features colors segmentations instances matches min_length depths radial sd m). Qed.
Print Assumptions C02_tracks_are_components.

(** The call succeeds (no exception, no endless loop) as soon as every feature that must be observed has its data. *)
Theorem C02_total :
  forall (F : Type) finite fmul fmax gtk (features : gmap string (list (F * F * F))) colors segmentations instances
    matches min_length depths radial sd,
  (forall s f, in_graph matches (s, f) -> kept matches min_length (s, f) -> is_Some (features !! s) ->
     exists o, expected_obs finite fmul fmax features colors segmentations instances depths radial sd s f o) ->
  exists m, create_tracks_manager finite fmul fmax gtk features colors segmentations instances matches min_length depths radial sd = Ok m.
Proof. exact (fun F finite fmul fmax gtk features colors segmentations instances matches min_length depths radial sd =>
  create_total finite fmul fmax gtk features colors segmentations instances matches min_length depths radial sd). Qed.
Print Assumptions C02_total.

(** What does NOT hold: a track of the result can have fewer than [min_length] observations, because images without
    loaded features are dropped after the length check (tracking.py:98 and 106-107). *)
Definition C02_refutation_matches : list ((string * string) * list (nat * nat)) := [(("a", "b"), [(0, 0)]); (("b", "c"), [(0, 1)])].
Theorem C02_min_length_refuted :
  exists (features : gmap string (list (nat * nat * nat))) colors matches,
    match create_tracks_manager (fun _ => true) Nat.mul Nat.max (fun _ _ => false) features colors ∅ ∅ matches 3 ∅ true 1 with
    | Ok m => match tm_track_obs m "0" with Ok ss => 0 < size ss < 3 | Err _ => False end
    | Err _ => False
    end.
Proof.
  exists {[ "a" := [(1, 2, 3)]; "b" := [(4, 5, 6)] ]}, {[ "a" := [(7, 8, 9)]; "b" := [(10, 11, 12)] ]}%Z, C02_refutation_matches.
  vm_compute. lia.
Qed.
Print Assumptions C02_min_length_refuted.

(** A concrete run: two components, one of them with two features of the same image (dropped). *)
Definition C02_example_matches : list ((string * string) * list (nat * nat)) :=
  [(("a", "b"), [(0, 0); (1, 1)]); (("b", "c"), [(0, 1); (1, 0)]); (("a", "c"), [(0, 0)])].
Definition C02_example_features : gmap string (list (nat * nat * nat)) :=
  {[ "a" := [(1, 2, 3); (1, 1, 1)]; "b" := [(4, 5, 6); (2, 2, 2)]; "c" := [(1, 2, 3); (1, 1, 1)] ]}.
Definition C02_example_colors : gmap string (list (Z * Z * Z)) :=
  {[ "a" := [(1, 2, 3); (1, 1, 1)]; "b" := [(4, 5, 6); (2, 2, 2)]; "c" := [(1, 2, 3); (1, 1, 1)] ]}%Z.
Example C02_nonvacuous :
  match create_tracks_manager (fun _ => true) Nat.mul Nat.max (fun _ _ => false) C02_example_features C02_example_colors ∅ ∅
     C02_example_matches 2 ∅ true 1 with Ok m => tm_num_tracks m | Err _ => 99 end = 0 /\
  match create_tracks_manager (fun _ => true) Nat.mul Nat.max (fun _ _ => false) C02_example_features C02_example_colors ∅ ∅
     (take 2 C02_example_matches) 2 ∅ true 1 with
   | Ok m => (tm_num_tracks m, o_x <$> observed m "c" "0", o_feature <$> observed m "c" "0", o_feature <$> observed m "c" "1")
   | Err _ => (99, None, None, None) end = (2, Some 1, Some 1%Z, Some 0%Z).
Proof. by vm_compute. Qed.
