(** Specification of upright images. *)
From stdpp Require Import prelude.
From Coq Require Import Reals.
Local Open Scope R_scope.

(** A place in an image: the size of the image and the distances from its left and from its upper side, in pixels *)
Record spot := Spot { s_width : R; s_height : R; s_left : R; s_top : R }.
(** The same place after a quarter of a turn of the image, clockwise: what was on the left comes to the top *)
Definition turn (p : spot) : spot := Spot (s_height p) (s_width p) (s_height p - s_top p) (s_left p).
Fixpoint turns (n : nat) (p : spot) : spot := match n with O => p | S n => turn (turns n p) end.
(** Normalised coordinates: from the middle of the image, in units of its larger side *)
Definition normalised (p : spot) : R * R := ((s_left p - s_width p / 2) / Rmax (s_width p) (s_height p), (s_top p - s_height p / 2) / Rmax (s_width p) (s_height p)).
(** The number of quarter turns that make an image of an orientation upright *)
Inductive upright_turns : Z -> nat -> Prop :=
  | upright_1 : upright_turns 1 0
  | upright_6 : upright_turns 6 1
  | upright_3 : upright_turns 3 2
  | upright_8 : upright_turns 8 3.
