(** Model of /repo/opensfm/src/map/tracks_manager.h, src/tracks_manager.cc (class TracksManager: everything but
    (de)serialization, see TracksIOModel.v, and merging, see MergeModel.v) and observation.h. *)
From stdpp Require Import prelude gmap strings.
From Coq Require String.
From Verif Require Import Base.

Notation shot_id := string.
Notation track_id := string.

(** observation.h:10-19 (Depth), 21-52 (Observation). [F] is the type of doubles: nothing is assumed about it. *)
Record depth (F : Type) := Depth { d_value : F; d_is_radial : bool; d_std : F }.
Record observation (F : Type) := Obs {
  o_x : F; o_y : F; o_scale : F;
  o_r : Z; o_g : Z; o_b : Z;
  o_feature : Z; o_segm : Z; o_inst : Z;
  o_depth : option (depth F) }.
Arguments Depth {F}. Arguments d_value {F}. Arguments d_is_radial {F}. Arguments d_std {F}.
Arguments Obs {F}. Arguments o_x {F}. Arguments o_y {F}. Arguments o_scale {F}. Arguments o_r {F}. Arguments o_g {F}.
Arguments o_b {F}. Arguments o_feature {F}. Arguments o_segm {F}. Arguments o_inst {F}. Arguments o_depth {F}.

Section TM.
Context {O : Type}.

(** tracks_manager.h:54-58: two indices of the same observations. *)
Record tm := TM { tracks_per_shot : gmap shot_id (gmap track_id O); shots_per_track : gmap track_id (gmap shot_id O) }.
Definition tm_empty : tm := TM ∅ ∅.

(** [m[k1][k2] = v] on a nested C++ map: [operator[]] creates the missing inner map. *)
Definition put2 (m : gmap string (gmap string O)) (k1 k2 : string) (v : O) : gmap string (gmap string O) :=
  <[k1 := <[k2 := v]> (default ∅ (m !! k1))]> m.

(** tracks_manager.cc:181-186 *)
Definition tm_add (m : tm) (s : shot_id) (t : track_id) (o : O) : tm :=
  TM (put2 (tracks_per_shot m) s t o) (put2 (shots_per_track m) t s o).

(** tracks_manager.cc:188-200 *)
Definition tm_remove (m : tm) (s : shot_id) (t : track_id) : res tm :=
  match tracks_per_shot m !! s with
  | None => Err RuntimeError
  | Some ts =>
      match shots_per_track m !! t with
      | None => Err RuntimeError
      | Some ss => Ok (TM (<[s := delete t ts]> (tracks_per_shot m)) (<[t := delete s ss]> (shots_per_track m)))
      end
  end.

(** tracks_manager.cc:202-208 *)
Definition tm_num_shots (m : tm) : nat := size (tracks_per_shot m).
Definition tm_num_tracks (m : tm) : nat := size (shots_per_track m).
Definition tm_has_shot (m : tm) (s : shot_id) : bool := bool_decide (is_Some (tracks_per_shot m !! s)).

(** tracks_manager.cc:210-226; the order of the returned vector is that of the hash map. *)
Definition tm_shot_ids (enum : gmap string (gmap string O) -> list (string * gmap string O)) (m : tm) : list shot_id :=
  (enum (tracks_per_shot m)).*1.
Definition tm_track_ids (enum : gmap string (gmap string O) -> list (string * gmap string O)) (m : tm) : list track_id :=
  (enum (shots_per_track m)).*1.

(** tracks_manager.cc:228-239 *)
Definition tm_get (m : tm) (s : shot_id) (t : track_id) : res O :=
  match tracks_per_shot m !! s with
  | None => Err RuntimeError
  | Some ts => match ts !! t with None => Err RuntimeError | Some o => Ok o end
  end.

(** tracks_manager.cc:241-257 *)
Definition tm_shot_obs (m : tm) (s : shot_id) : res (gmap track_id O) := of_option RuntimeError (tracks_per_shot m !! s).
Definition tm_track_obs (m : tm) (t : track_id) : res (gmap shot_id O) := of_option RuntimeError (shots_per_track m !! t).

(** tracks_manager.cc:259-282. [enum] is the iteration order over one track's observations. *)
Definition tm_sub (enum : gmap string O -> list (string * O)) (m : tm) (tracks : list track_id) (shots : list shot_id) : tm :=
  let shots_tmp : gset string := list_to_set shots in
  foldl (fun sub t =>
    match shots_per_track m !! t with
    | None => sub
    | Some obs =>
        foldl (fun sub '(s, o) => if bool_decide (s ∈ shots_tmp) then tm_add sub s t o else sub) sub (enum obs)
    end) tm_empty tracks.

(** tracks_manager.cc:284-302 *)
Definition tm_common (enum : gmap string O -> list (string * O)) (m : tm) (s1 s2 : shot_id) : res (list (track_id * O * O)) :=
  match tracks_per_shot m !! s1, tracks_per_shot m !! s2 with
  | Some o1, Some o2 =>
      Ok (omap (fun '(t, a) => match o2 !! t with Some b => Some (t, a, b) | None => None end) (enum o1))
  | _, _ => Err RuntimeError
  end.

(** [++m[k]] on a C++ map of ints (a missing entry is value-initialized to 0); int overflow is not modelled. *)
Definition incr {K} `{Countable K} (m : gmap K nat) (k : K) : gmap K nat := <[k := S (default 0 (m !! k))]> m.

(** tracks_manager.cc:304-351; [shot_id1 < shot_id2] is std::string's comparison, byte-wise lexicographic. *)
Definition tm_pairs (enumT : gmap string (gmap string O) -> list (string * gmap string O))
    (enumO : gmap string O -> list (string * O)) (m : tm) (shots : list shot_id) (tracks : list track_id)
    : gmap (shot_id * shot_id) nat :=
  let tracks_to_use := match tracks with [] => (enumT (shots_per_track m)).*1 | _ => tracks end in
  let shots_to_use : gset string :=
    match shots with [] => list_to_set (enumT (tracks_per_shot m)).*1 | _ => list_to_set shots end in
  foldl (fun acc t =>
    match shots_per_track m !! t with
    | None => acc
    | Some track =>
        foldl (fun acc '(s1, _) =>
          if bool_decide (s1 ∈ shots_to_use) then
            foldl (fun acc '(s2, _) =>
              if String.ltb s1 s2 && bool_decide (s2 ∈ shots_to_use) then incr acc (s1, s2) else acc) acc (enumO track)
          else acc) acc (enumO track)
    end) ∅ tracks_to_use.

(** A history of calls on one manager; an exception is thrown before anything is written. *)
Inductive tm_op := TAdd (s : shot_id) (t : track_id) (o : O) | TRemove (s : shot_id) (t : track_id).
Definition tm_step (m : tm) (op : tm_op) : tm * res unit :=
  match op with
  | TAdd s t o => (tm_add m s t o, Ok tt)
  | TRemove s t => match tm_remove m s t with Ok m' => (m', Ok tt) | Err e => (m, Err e) end
  end.
Definition tm_run (h : list tm_op) : tm := foldl (fun m op => (tm_step m op).1) tm_empty h.
End TM.
Arguments tm : clear implicits.
Arguments tm_op : clear implicits.
