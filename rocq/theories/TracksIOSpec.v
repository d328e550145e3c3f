(** Specification of the tracks text format. *)
From stdpp Require Import prelude gmap strings pretty.
From Coq Require Import Ascii.
From Verif Require Import Base TextModel TracksModel.

(** A text that can be a field of the file. *)
Definition clean (s : string) : Prop := absent TAB s /\ absent NL s.

(** Fields separated by tabs; lines ended by a newline; the first line of a versioned file. *)
Definition tabbed (fields : list string) : string := String.concat (String TAB "") fields.
Definition unlines (lines : list string) : string := foldr (fun l txt => l +:+ String NL txt) "" lines.
Definition versioned (v : Z) (lines : list string) : string :=
  unlines ((("OPENSFM_TRACKS_VERSION_v" +:+ pretty v) : string) :: lines).

(** Number of values per line of each version. *)
Definition n_fields (v : Z) : nat := if decide (v = 0%Z) then 8 else if decide (v = 1%Z) then 9 else 11.

(** The last entry of a list of (shot, track, observation) lines for a given shot and track. *)
Fixpoint last_line {O} (ls : list (string * string * O)) (s t : string) : option O :=
  match ls with
  | [] => None
  | (s', t', o) :: ls' =>
      match last_line ls' s t with Some o' => Some o' | None => if bool_decide (s' = s /\ t' = t) then Some o else None end
  end.

Section S.
Context {F : Type}.
Notation obs := (observation F).

(** All integer values of an observation are C++ ints. *)
Definition ints_ok (o : obs) : Prop :=
  int32 (o_feature o) /\ int32 (o_r o) /\ int32 (o_g o) /\ int32 (o_b o) /\ int32 (o_segm o) /\ int32 (o_inst o).

(** What is kept of an observation by the file: the doubles are those read back from their decimal representation, the
    depth prior is not stored. *)
Definition stored (rd : F -> F) (o : obs) : obs :=
  Obs (rd (o_x o)) (rd (o_y o)) (rd (o_scale o)) (o_r o) (o_g o) (o_b o) (o_feature o) (o_segm o) (o_inst o) None.

(** The lines of version 0 and 1 for an observation. *)
Definition line_v0 (show : F -> string) (e : string * string * obs) : string :=
  let '(s, t, o) := e in
  tabbed [s; t; pretty (o_feature o); show (o_x o); show (o_y o); pretty (o_r o); pretty (o_g o); pretty (o_b o)].
Definition line_v1 (show : F -> string) (e : string * string * obs) : string :=
  let '(s, t, o) := e in
  tabbed [s; t; pretty (o_feature o); show (o_x o); show (o_y o); show (o_scale o); pretty (o_r o); pretty (o_g o); pretty (o_b o)].
(** What these versions keep, with their documented defaults. *)
Definition stored_v0 (rd : F -> F) (zero : F) (o : obs) : obs :=
  Obs (rd (o_x o)) (rd (o_y o)) zero (o_r o) (o_g o) (o_b o) (o_feature o) (-1) (-1) None.
Definition stored_v1 (rd : F -> F) (o : obs) : obs :=
  Obs (rd (o_x o)) (rd (o_y o)) (rd (o_scale o)) (o_r o) (o_g o) (o_b o) (o_feature o) (-1) (-1) None.
End S.
