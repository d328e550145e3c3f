(** Text handling of the C++ standard library used by the modelled code. *)
From stdpp Require Import prelude strings pretty.
From Coq Require Import Ascii.
From Coq Require String.
From Verif Require Import Base.

Definition TAB : ascii := "009"%char.
Definition NL : ascii := "010"%char.

(** Successive [std::getline(stream, piece, sep)] until the stream is exhausted: the text is cut at each [sep], and a last
    piece that is empty is not returned. *)
Fixpoint getlines (sep : ascii) (text : string) : list string :=
  match text with
  | "" => []
  | String a text' =>
      if decide (a = sep) then "" :: getlines sep text'
      else match getlines sep text' with [] => [String a ""] | l :: ls => String a l :: ls end
  end.

(** The decimal digits at the start of a text, [None] when there is none. *)
Fixpoint read_digits (acc : option Z) (s : string) : option Z :=
  match s with
  | "" => acc
  | String a s' =>
      match is_nat a with
      | Some d => read_digits (Some (10 * default 0 acc + Z.of_nat d))%Z s'
      | None => acc
      end
  end.

(** C's [isspace] in the default locale. *)
Definition c_space (a : ascii) : bool :=
  bool_decide (a ∈ [" "; "009"; "010"; "011"; "012"; "013"]%char).
Fixpoint skip_spaces (s : string) : string :=
  match s with String a s' => if c_space a then skip_spaces s' else s | "" => "" end.

(** [strtol]: white space, an optional sign, digits; what follows is ignored. [None]: no digits. *)
Definition strtol (s : string) : option Z :=
  match skip_spaces s with
  | String "-" s' => Z.opp <$> read_digits None s'
  | String "+" s' => read_digits None s'
  | s' => read_digits None s'
  end.

Definition int32 (z : Z) : Prop := (-2147483648 <= z <= 2147483647)%Z.
Global Instance int32_dec z : Decision (int32 z).
Proof. unfold int32. apply _. Defined.

(** [std::stoi]: invalid_argument (a python ValueError) or out_of_range (a python IndexError). *)
Definition stoi (s : string) : res Z :=
  match strtol s with
  | None => Err ValueError
  | Some z => if decide (int32 z) then Ok z else Err IndexError
  end.
(** [std::atoi]: 0 when there are no digits; undefined behaviour out of range, not modelled. *)
Definition atoi (s : string) : Z := default 0%Z (strtol s).

(** [str.find(pre) == 0] *)
Fixpoint starts_with (pre s : string) : bool :=
  match pre, s with
  | "", _ => true
  | String a pre', String b s' => bool_decide (a = b) && starts_with pre' s'
  | _, "" => false
  end.
(** [s.substr(n)], which throws out_of_range (IndexError) beyond the end. *)
Fixpoint substr_from (n : nat) (s : string) : res string :=
  match n, s with
  | O, _ => Ok s
  | S n', String _ s' => substr_from n' s'
  | S _, "" => Err IndexError
  end.

(** The character does not occur. *)
Definition absent (c : ascii) (s : string) : Prop := c ∉ String.list_ascii_of_string s.
