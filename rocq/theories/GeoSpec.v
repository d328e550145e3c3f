(** Specification of the geodetic conversions. *)
From stdpp Require Import prelude.
From Coq Require Import Reals.
From Verif Require Import Base Lin GeoModel.
Local Open Scope R_scope.

Definition distance (u v : vec) : R := norm (vsub u v).
(** The radii of the WGS84 ellipsoid, in metres *)
Definition equatorial_radius : R := 6378137.
Definition polar_radius : R := 6356752314245 / 1000000.
(** The ellipsoid of revolution around z with radii a, b *)
Definition on_ellipsoid (p : vec) : Prop := vx p ^ 2 / equatorial_radius ^ 2 + vy p ^ 2 / equatorial_radius ^ 2 + vz p ^ 2 / polar_radius ^ 2 = 1.
(** The gradient of its equation: perpendicular to the surface, outwards *)
Definition outwards (p : vec) : vec := Vec (vx p / equatorial_radius ^ 2) (vy p / equatorial_radius ^ 2) (vz p / polar_radius ^ 2).
(** The columns of a matrix *)
Definition col1 (m : mat) : vec := Vec (m11 m) (m21 m) (m31 m).
Definition col2 (m : mat) : vec := Vec (m12 m) (m22 m) (m32 m).
Definition col3 (m : mat) : vec := Vec (m13 m) (m23 m) (m33 m).
(** [d] is the derivative of the curve [f] at [t]. *)
Definition curve_derivative (f : R -> vec) (t : R) (d : vec) : Prop :=
  derivable_pt_lim (fun t => vx (f t)) t (vx d) /\ derivable_pt_lim (fun t => vy (f t)) t (vy d) /\ derivable_pt_lim (fun t => vz (f t)) t (vz d).
(** Geographic coordinates other than the poles, each place once *)
Definition latlon (p : R * R) : Prop := -90 < p.1 < 90 /\ -180 < p.2 <= 180.
