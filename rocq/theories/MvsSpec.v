(** What the formats mean. OpenMVS (libs/MVS/Interface.h): a camera of calibration K, rotation R and centre C sees X at K R (X - C), divided
    by its third coordinate, with integer coordinates at the centres of pixels. PMVS: a 3x4 matrix [A | b] sees X at A X + b, divided by
    its third coordinate. *)
From stdpp Require Import prelude.
From Coq Require Import Reals.
From Verif Require Import Lin.
Local Open Scope R_scope.

Definition over_z (q : vec) : R * R := (vx q / vz q, vy q / vz q).
Definition openmvs_sees (K Rm : mat) (C X : vec) : R * R := over_z (mvec K (mvec Rm (vsub X C))).
Definition pmvs_sees (P : mat * vec) (X : vec) : R * R := over_z (vadd (mvec P.1 X) P.2).
(** Normalised coordinates in pixels, integers at the centres of pixels (doc/source/geometry.rst, "Pixel coordinates") *)
Definition centre_pixel (width height : Z) (q : R * R) : R * R :=
  (q.1 * IZR (Z.max width height) + (IZR width - 1) / 2, q.2 * IZR (Z.max width height) + (IZR height - 1) / 2).
(** In pixels from the corner of the image *)
Definition corner_pixel (width height : Z) (q : R * R) : R * R :=
  (q.1 * IZR (Z.max width height) + IZR width / 2, q.2 * IZR (Z.max width height) + IZR height / 2).
(** The same place of the image after it is stretched to another size *)
Definition stretched (width height new_width new_height : Z) (p : R * R) : R * R :=
  (p.1 * IZR new_width / IZR width, p.2 * IZR new_height / IZR height).
