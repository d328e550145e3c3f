(** Specification of the pixel coordinate properties. *)
From Coq Require Import Reals.
From stdpp Require Import prelude.
From Verif Require Import Base PixelModel.
Local Open Scope R_scope.

(** The pixels of an image: pixel (i, j) covers the unit square centred at (i, j). *)
Definition in_image (p : point) (width height : Z) : Prop :=
  -0.5 <= p.1 <= IZR width - 0.5 /\ -0.5 <= p.2 <= IZR height - 0.5.
(** Between the centres of the first and last pixels: where features are detected. *)
Definition on_pixels (p : point) (width height : Z) : Prop :=
  0 <= p.1 <= IZR width - 1 /\ 0 <= p.2 <= IZR height - 1.
(** The centred box of half sides w/2s, h/2s, s the larger side *)
Definition in_box (p : point) (width height : Z) : Prop :=
  let s := IZR (Z.max width height) in
  Rabs p.1 <= IZR width / (2 * s) /\ Rabs p.2 <= IZR height / (2 * s).
(** Where the point ends up, as a fraction of the upright image (x to the right, y down), when the image whose pixel (x, y)
    is at the fractions (u, v) is turned by the EXIF orientation: 1 as is, 3 half a turn, 6 a quarter turn clockwise, 8 a
    quarter turn counterclockwise. *)
Definition turned (orientation : Z) (u v : R) : point :=
  if decide (orientation = 1%Z) then (u, v)
  else if decide (orientation = 3%Z) then (1 - u, 1 - v)
  else if decide (orientation = 6%Z) then (1 - v, u)
  else (v, 1 - u).

(** The value [v] of the image [m], stretched to [rows] x [cols], at (y, x): that of the cell of [m] covering the top left
    corner of the cell (y, x). *)
Definition stretched (m : image) (rows cols y x v : Z) : Prop :=
  exists r c, (0 <= r < im_rows m /\ 0 <= c < im_cols m /\ r * rows <= y * im_rows m < (r + 1) * rows /\
    c * cols <= x * im_cols m < (c + 1) * cols)%Z /\ v = im_at m r c.
