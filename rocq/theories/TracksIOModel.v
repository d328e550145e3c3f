(** Model of the text format of /repo/opensfm/src/map/src/tracks_manager.cc, lines 10-213 of the file: writing and the
    three readers. *)
From stdpp Require Import prelude gmap strings pretty.
From Coq Require Import Ascii.
From Verif Require Import Base TextModel TracksModel TrackingModel.

(** tracks_manager.cc, last lines: TRACKS_HEADER, TRACKS_VERSION *)
Definition TRACKS_HEADER : string := "OPENSFM_TRACKS_VERSION".
Definition TRACKS_VERSION : Z := 2.

Section IO.
(** Doubles: [show] is [ostream << double] (6 significant digits), [stod] is [std::stod]; both are left abstract. *)
Context {F : Type}.
Variable show : F -> string.
Variable stod : string -> res F.
Variable zero : F.
Notation obs := (observation F).

(** [<<] of an int is its decimal representation, [pretty]. *)
Definition tab : string := String TAB "".
Definition nl : string := String NL "".

(** tracks_manager.cc:35-41 *)
Definition write_obs (s : shot_id) (t : track_id) (o : obs) : string :=
  s +:+ tab +:+ t +:+ tab +:+ pretty (o_feature o) +:+ tab +:+ show (o_x o) +:+ tab +:+ show (o_y o) +:+ tab +:+ show (o_scale o)
  +:+ tab +:+ pretty (o_r o) +:+ tab +:+ pretty (o_g o) +:+ tab +:+ pretty (o_b o) +:+ tab +:+ pretty (o_segm o)
  +:+ tab +:+ pretty (o_inst o) +:+ nl.

(** tracks_manager.cc:26-43; [enumT], [enumO] are the iteration orders of the hash maps. *)
Definition write_tracks (enumT : gmap string (gmap string obs) -> list (string * gmap string obs))
    (enumO : gmap string obs -> list (string * obs)) (m : tm obs) : string :=
  TRACKS_HEADER +:+ "_v" +:+ pretty TRACKS_VERSION +:+ nl +:+
  foldr (fun '(s, os) txt => foldr (fun '(t, o) txt => write_obs s t o +:+ txt) txt (enumO os)) "" (enumT (tracks_per_shot m)).

(** tracks_manager.cc:45-57 *)
Definition make_observation (x y scale : F) (id r g b segm inst : Z) : obs := Obs x y scale r g b id segm inst None.

(** tracks_manager.cc:59-68 *)
Definition split_tabs (line : string) : list string := getlines TAB line.

(** tracks_manager.cc:71-98 *)
Definition read_line_v0 (m : tm obs) (line : string) : res (tm obs) :=
  match split_tabs line with
  | [image; track; f; x; y; r; g; b] =>
      try f := stoi f in try x := stod x in try y := stod y in
      try r := stoi r in try g := stoi g in try b := stoi b in
      Ok (tm_add m image track (make_observation x y zero f r g b NO_VALUE NO_VALUE))
  | _ => Err RuntimeError
  end.
(** tracks_manager.cc:100-128 *)
Definition read_line_v1 (m : tm obs) (line : string) : res (tm obs) :=
  match split_tabs line with
  | [image; track; f; x; y; scale; r; g; b] =>
      try f := stoi f in try x := stod x in try y := stod y in try scale := stod scale in
      try r := stoi r in try g := stoi g in try b := stoi b in
      Ok (tm_add m image track (make_observation x y scale f r g b NO_VALUE NO_VALUE))
  | _ => Err RuntimeError
  end.
(** tracks_manager.cc:130-161 *)
Definition read_line_v2 (m : tm obs) (line : string) : res (tm obs) :=
  match split_tabs line with
  | [image; track; f; x; y; scale; r; g; b; segm; inst] =>
      try f := stoi f in try x := stod x in try y := stod y in try scale := stod scale in
      try r := stoi r in try g := stoi g in try b := stoi b in try segm := stoi segm in try inst := stoi inst in
      Ok (tm_add m image track (make_observation x y scale f r g b segm inst))
  | _ => Err RuntimeError
  end.
(** the [while (std::getline(...))] of the three readers *)
Fixpoint read_lines (read : tm obs -> string -> res (tm obs)) (m : tm obs) (lines : list string) : res (tm obs) :=
  match lines with [] => Ok m | l :: ls => try m1 := read m l in read_lines read m1 ls end.

(** tracks_manager.cc:10-24: the version and the lines left to read. *)
Definition tracks_version (text : string) : res (Z * list string) :=
  match getlines NL text with
  | [] => Ok (0%Z, [])
  | line :: lines =>
      if starts_with TRACKS_HEADER line
      then try v := substr_from (String.length TRACKS_HEADER + 2) line in Ok (atoi v, lines)
      else Ok (0%Z, line :: lines)
  end.
(** tracks_manager.cc:163-176 *)
Definition read_tracks (text : string) : res (tm obs) :=
  try (version, lines) := tracks_version text in
  if decide (version = 0%Z) then read_lines read_line_v0 tm_empty lines
  else if decide (version = 1%Z) then read_lines read_line_v1 tm_empty lines
  else if decide (version = 2%Z) then read_lines read_line_v2 tm_empty lines
  else Err RuntimeError.
End IO.
