(** C04: tracks file round trip, rejection of malformed files, older formats. *)
From stdpp Require Import prelude gmap strings pretty.
From Coq Require Import Ascii.
From Verif Require Import Base TextModel TextProofs TracksModel TracksSpec TracksProofs TracksIOModel TracksIOSpec TracksIOProofs.

(** Doubles, their printing [show] and their parsing [stod] are arbitrary; [rd x] is what is read back of [x] (with 6
    significant digits it is [x] itself only when [x] has no more digits than that). *)
Theorem C04_round_trip :
  forall (F : Type) (show : F -> string) (stod : string -> res F) (zero : F) (rd : F -> F),
  (forall x, stod (show x) = Ok (rd x)) -> (forall x, clean (show x)) ->
  forall enumT enumO (m : tm (observation F)), enumerates enumT -> enumerates enumO ->
  (forall s t o, observed m s t = Some o -> clean s /\ clean t /\ ints_ok o) ->
  exists m', read_tracks stod zero (write_tracks show enumT enumO m) = Ok m' /\ consistent m' /\
    (forall s t, observed m' s t = stored rd <$> observed m s t) /\
    (forall s, tm_has_shot m' s = true <-> exists t o, observed m s t = Some o).
Proof. exact (fun F show stod zero rd H1 H2 enumT enumO m => round_trip show stod zero rd H1 H2 enumT enumO m). Qed.
Print Assumptions C04_round_trip.

(** A line with the wrong number of tab separated values makes the whole file rejected. *)
Theorem C04_wrong_line_rejected :
  forall (F : Type) (stod : string -> res F) (zero : F) (v : Z) (body : string) (line : string),
  v = 0%Z \/ v = 1%Z \/ v = 2%Z ->
  line ∈ getlines NL body -> length (getlines TAB line) <> n_fields v ->
  exists e, read_tracks stod zero (("OPENSFM_TRACKS_VERSION_v" +:+ pretty v) +:+ String NL body) = Err e.
Proof.
  intros F stod zero v body line Hv Hin Hn. unfold read_tracks. rewrite header_version. cbn [res_bind].
  destruct Hv as [-> | [-> | ->]]; [rewrite decide_True by done|rewrite decide_False, decide_True by done|rewrite decide_False, decide_False, decide_True by done];
    (eapply read_lines_reject; [|exact Hin|exact Hn]); [apply read_v0_ok|apply read_v1_ok|apply read_v2_ok].
Qed.
Print Assumptions C04_wrong_line_rejected.

(** Nothing is skipped: an accepted file of version [v] contributes one observation per line, with the line's first two
    values as shot and track ids, later lines replacing earlier ones for the same ids; nothing else is in the manager. *)
Theorem C04_every_line_is_loaded :
  forall (F : Type) (stod : string -> res F) (zero : F) (v : Z) (body : string) m,
  read_tracks stod zero (("OPENSFM_TRACKS_VERSION_v" +:+ pretty v) +:+ String NL body) = Ok m ->
  (v = 0%Z \/ v = 1%Z \/ v = 2%Z) /\ consistent m /\
  exists es : list (string * string * observation F),
    Forall2 (fun line e => length (getlines TAB line) = n_fields v /\ exists rest, getlines TAB line = e.1.1 :: e.1.2 :: rest)
      (getlines NL body) es /\
    forall s t, observed m s t = last_line es s t.
Proof.
  intros F stod zero v body m. unfold read_tracks. rewrite header_version. cbn [res_bind].
  assert (forall es : list (string * string * observation F), consistent (add_all tm_empty es) /\
    forall s t, observed (add_all tm_empty es) s t = last_line es s t) as Hes.
  { intros es. split; [by apply add_all_consistent|]. intros s t. rewrite add_all_observed, observed_empty. by destruct (last_line es s t). }
  repeat case_decide; subst; intros Hok; [..|done].
  - destruct (read_lines_ok _ _ _ _ _ (read_v0_ok stod zero) Hok) as (es & -> & _ & Hf). destruct (Hes es). eauto 10.
  - destruct (read_lines_ok _ _ _ _ _ (read_v1_ok stod) Hok) as (es & -> & _ & Hf). destruct (Hes es). eauto 10.
  - destruct (read_lines_ok _ _ _ _ _ (read_v2_ok stod) Hok) as (es & -> & _ & Hf). destruct (Hes es). eauto 10.
Qed.
Print Assumptions C04_every_line_is_loaded.

(** A header with any other version number is rejected, whatever follows. *)
Theorem C04_unknown_version_rejected :
  forall (F : Type) (stod : string -> res F) (zero : F) (v : Z) (body : string),
  v <> 0%Z -> v <> 1%Z -> v <> 2%Z ->
  read_tracks stod zero (("OPENSFM_TRACKS_VERSION_v" +:+ pretty v) +:+ String NL body) = Err RuntimeError.
Proof.
  intros F stod zero v body H0 H1 H2. unfold read_tracks. rewrite header_version. cbn [res_bind].
  by rewrite !decide_False by done.
Qed.
Print Assumptions C04_unknown_version_rejected.

(** Version 1 files load with label -1; version 0 files (which have no header) load with scale 0 and label -1. *)
Theorem C04_version_1 :
  forall (F : Type) (show : F -> string) (stod : string -> res F) (zero : F) (rd : F -> F),
  (forall x, stod (show x) = Ok (rd x)) -> (forall x, clean (show x)) ->
  forall es : list (string * string * observation F),
  Forall (fun e => clean e.1.1 /\ clean e.1.2 /\ ints_ok e.2) es ->
  exists m', read_tracks stod zero (versioned 1 (line_v1 show <$> es)) = Ok m' /\ consistent m' /\
    forall s t, observed m' s t = stored_v1 rd <$> last_line es s t.
Proof. exact (fun F show stod zero rd H1 H2 es => read_old show stod zero rd H1 H2 1 es (or_intror eq_refl)). Qed.
Print Assumptions C04_version_1.

Theorem C04_version_0 :
  forall (F : Type) (show : F -> string) (stod : string -> res F) (zero : F) (rd : F -> F),
  (forall x, stod (show x) = Ok (rd x)) -> (forall x, clean (show x)) ->
  forall es : list (string * string * observation F),
  Forall (fun e => clean e.1.1 /\ clean e.1.2 /\ ints_ok e.2) es ->
  (forall e, e ∈ es -> starts_with "OPENSFM_TRACKS_VERSION" (line_v0 show e) = false) ->
  exists m', read_tracks stod zero (unlines (line_v0 show <$> es)) = Ok m' /\ consistent m' /\
    forall s t, observed m' s t = stored_v0 rd zero <$> last_line es s t.
Proof. exact (fun F show stod zero rd H1 H2 es => read_v0_headerless show stod zero rd H1 H2 es). Qed.
Print Assumptions C04_version_0.

(** ** What does NOT hold *)
(** "An unknown version is rejected": a version that is not a number is read as version 0. *)
Theorem C04_non_numeric_version_refuted :
  forall (F : Type) (stod : string -> res F) (zero : F),
  read_tracks stod zero ("OPENSFM_TRACKS_VERSION_vNext" +:+ String NL "") = Ok tm_empty.
Proof. intros. vm_compute. reflexivity. Qed.
Print Assumptions C04_non_numeric_version_refuted.

(** Depth priors do not survive: witness with exact number printing. *)
Definition C04_num (s : string) : res Z := stoi s.
Theorem C04_depth_prior_lost_refuted :
  exists (m : tm (observation Z)) (o : observation Z), observed m "s" "t" = Some o /\ o_depth o <> None /\
    match read_tracks C04_num 0%Z (write_tracks pretty map_to_list map_to_list m) with
    | Ok m' => exists o', observed m' "s" "t" = Some o' /\ o_depth o' = None
    | Err _ => False
    end.
Proof.
  exists (tm_run [TAdd "s" "t" (Obs 1 2 3 4 5 6 7 8 9 (Some (Depth 1 true 2)))%Z]).
  eexists. split; [vm_compute; reflexivity|]. split; [done|]. vm_compute. eexists. split; reflexivity.
Qed.
Print Assumptions C04_depth_prior_lost_refuted.

(** ** Non-vacuity: numbers that print exactly, two shots, several tracks *)
Definition C04_m : tm (observation Z) :=
  tm_run [TAdd "im 1.jpg" "0" (Obs (-1) 2 3 4 5 6 7 8 9 None)%Z; TAdd "im 1.jpg" "12" (Obs 1 2 3 4 5 6 7 (-1) (-1) None)%Z;
          TAdd "b" "0" (Obs 10 20 30 40 50 60 70 80 90 None)%Z].
Example C04_nonvacuous :
  (forall z : Z, clean (pretty z)) /\
  (forall s t o, observed C04_m s t = Some o -> clean s /\ clean t /\ ints_ok o) /\
  match read_tracks C04_num 0%Z (write_tracks pretty map_to_list map_to_list C04_m) with
  | Ok m' => tm_get m' "im 1.jpg" "0" = Ok (Obs (-1) 2 3 4 5 6 7 8 9 None)%Z /\ tm_num_shots m' = 2 /\ tm_num_tracks m' = 2
  | Err _ => False end.
Proof.
  split; [apply pretty_clean|]. split; [|vm_compute; split_and!; reflexivity].
  assert (map_Forall (fun s ts => clean s /\ map_Forall (fun t o => clean t /\ ints_ok o) ts) (tracks_per_shot C04_m)) as H.
  { unfold clean, absent, ints_ok. apply (bool_decide_unpack _). by vm_compute. }
  intros s t o Hobs. rewrite observed_eq in Hobs. destruct (tracks_per_shot C04_m !! s) as [ts|] eqn:E; [|done].
  apply H in E as [Hs Hts]. apply Hts in Hobs. tauto.
Qed.
