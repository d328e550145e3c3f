(** Specification of the extraction of features. *)
From stdpp Require Import prelude strings.
From Coq Require Import Reals.
From Verif Require Import Base ExtractModel.
Local Open Scope R_scope.

(** The place at fractions u and v of the sides of an image, in normalised coordinates: the centre is (0, 0), the longer side has length 1 *)
Definition normalised_place (w h : Z) (u v : R) : R * R := ((u - / 2) * IZR w / IZR (Z.max w h), (v - / 2) * IZR h / IZR (Z.max w h)).
(** A point in pixels (whole numbers are the centres of pixels) lies inside *)
Definition inside_image (w h : Z) (x y : R) : Prop := - / 2 < x < IZR w - / 2 /\ - / 2 < y < IZR h - / 2.
(** The point of the pixel coordinates x, y is at the fractions u and v *)
Definition fraction_of (w h : Z) (x y u v : R) : Prop := x + / 2 = u * IZR w /\ y + / 2 = v * IZR h.
Definition squares (row : list R) : R := foldr Rplus 0 (map (fun x => x * x) row).
Definition dot_product (a b : list R) : R := foldr Rplus 0 (zip_with Rmult a b).
(** A detector that may be asked for more points with lower thresholds. The thresholds after n reductions *)
Definition reduced (t : R) (n : nat) : R := t * (2 / 3) ^ n.
(** Resizing keeps the channels and gives an image of the size asked for *)
Definition resizes (resize : image -> Z -> Z -> image) : Prop := forall im w h, i_width (resize im w h) = w /\ i_height (resize im w h) = h /\ i_channels (resize im w h) = i_channels im.
(** The pixels of an image have its number of channels *)
Definition pixels_of (im : image) : Prop := forall y x, Z.of_nat (length (i_pixel im y x)) = default 1%Z (i_channels im).
