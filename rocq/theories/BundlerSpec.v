(** The Bundler format ("Bundler v0.3 User's Manual", The output format): a camera is a focal length in pixels, two radial distortion
    coefficients, a rotation R and a translation t; a point X is seen at
      P = R X + t,   p = - P / P.z,   p' = f * (1 + k1 |p|^2 + k2 |p|^4) * p,
    in pixels, from the centre of the image, x to the right and y UP; the camera looks towards its negative z axis.
    A view is (camera index, key, x, y) in that system. A camera of focal length 0 is one that was not reconstructed. *)
From Coq Require Import Reals.
From stdpp Require Import prelude strings.
From Verif Require Import Lin.
Local Open Scope R_scope.

Definition bundler_sees (f k1 k2 : R) (Rm : mat) (t : vec) (X : vec) : R * R :=
  let P := vadd (mvec Rm X) t in
  let px := - (vx P / vz P) in let py := - (vy P / vz P) in
  let n2 := px ^ 2 + py ^ 2 in
  let r := 1 + k1 * n2 + k2 * n2 ^ 2 in
  (f * r * px, f * r * py).
(** A point of an OpenSfM image (normalised coordinates: the longest side is 1, the origin is the centre, y is down) in pixels from the
    centre with y up, in an image of width x height pixels *)
Definition in_pixels_y_up (width height : Z) (q : R * R) : R * R :=
  (q.1 * IZR (Z.max width height), - (q.2 * IZR (Z.max width height))).
