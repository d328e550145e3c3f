(** What rig creation should do *)
From stdpp Require Import prelude list gmap strings.

Section S.
Context (re_sub : string -> string -> string).
(** removing the pattern leaves something, and changes the name *)
Definition pattern_matches (pattern image : string) : Prop := re_sub pattern image <> "" /\ re_sub pattern image <> image.
(** the first pattern that matches is the one of rig camera [c], and what it leaves is [k] *)
Definition first_match (patterns : list (string * string)) (image c k : string) : Prop :=
  exists before p after, patterns = before ++ (c, p) :: after /\ pattern_matches p image /\ re_sub p image = k /\
    forall q, q ∈ before -> ~ pattern_matches q.2 image.
End S.

(** the instances completely contained in a list of shots *)
Definition fully_reconstructed (shots : list string) (instance : list (string * string)) : Prop :=
  forall im c, (im, c) ∈ instance -> im ∈ shots.
