(** The JSON values handled by /repo/opensfm/io.py: what [json.load] gives and what is passed to [json.dump]. The text
    form is produced and read by Python's own json module (io.py:1064-1091): not modelled. Floats are real numbers (exact
    arithmetic: no rounding, no NaN, no infinity), Python ints are integers. A dictionary is the list of its items in
    insertion order, with distinct keys. *)
From Coq Require Import Reals.
From stdpp Require Import prelude strings.
From Verif Require Import Base.
Local Close Scope R_scope.

Inductive json :=
  | JNull
  | JInt (z : Z)
  | JNum (x : R)
  | JStr (s : string)
  | JList (l : list json)
  | JObj (l : list (string * json)).
Notation jdict := (list (string * json)).

(** [d.get(key)], [d[key]], [key in d] *)
Fixpoint jget (d : jdict) (key : string) : option json :=
  match d with [] => None | (k, v) :: d' => if decide (k = key) then Some v else jget d' key end.
Definition jreq (d : jdict) (key : string) : res json := of_option KeyError (jget d key).
(** [d[key] = v]: in place, or at the end *)
Fixpoint jset (d : jdict) (key : string) (v : json) : jdict :=
  match d with [] => [(key, v)] | (k, x) :: d' => if decide (k = key) then (key, v) :: d' else (k, x) :: jset d' key v end.
(** [d.update(e)] *)
Definition jupdate (d e : jdict) : jdict := foldl (fun d kv => jset d kv.1 kv.2) d e.

(** What pybind does with a Python value passed as a double / an int / a string: ints are accepted as doubles, anything
    else is a TypeError. *)
Definition as_real (j : json) : res R := match j with JNum x => Ok x | JInt z => Ok (IZR z) | _ => Err TypeError end.
Definition as_str (j : json) : res string := match j with JStr s => Ok s | _ => Err TypeError end.
Definition as_int (j : json) : res Z := match j with JInt z => Ok z | _ => Err TypeError end.
Definition as_obj (j : json) : res jdict := match j with JObj d => Ok d | _ => Err TypeError end.
Definition as_list (j : json) : res (list json) := match j with JList l => Ok l | _ => Err TypeError end.
(** Python's [int(x)]: truncation of a float. Strings with digits, which int() accepts, are a TypeError here. *)
Definition py_int (j : json) : res Z :=
  match j with
  | JInt z => Ok z
  | JNum x => Ok (if Rle_dec 0%R x then Int_part x else (- Int_part (- x)%R)%Z)
  | _ => Err TypeError
  end.
Definition mapR {A B} (f : A -> res B) : list A -> res (list B) :=
  fix go l := match l with [] => Ok [] | a :: l' => try b := f a in try bs := go l' in Ok (b :: bs) end.
