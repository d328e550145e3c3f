(** Specification of triangulation: lines, rays, distances and angles. *)
From stdpp Require Import prelude.
From Coq Require Import Reals.
From Verif Require Import Base Lin.
Local Open Scope R_scope.

(** A point of the line through c of direction b *)
Definition on_line (r : vec * vec) (t : R) : vec := vadd r.1 (vscale t r.2).
Definition sqdist (p q : vec) : R := dot (vsub p q) (vsub p q).
(** Sum of the squared distances from Y to one point of each line *)
Fixpoint total (rays : list (vec * vec)) (ts : list R) (Y : vec) : R :=
  match rays, ts with
  | r :: rays', t :: ts' => sqdist Y (on_line r t) + total rays' ts' Y
  | _, _ => 0
  end.
Definition unit_rays (rays : list (vec * vec)) : Prop := forall r, In r rays -> norm r.2 = 1.
Definition not_all_parallel (rays : list (vec * vec)) : Prop := exists r r', In r rays /\ In r' rays /\ cross r.2 r'.2 <> v0.
(** Angle between two vectors *)
Definition angle (u v : vec) : R := acos (dot u v / (norm u * norm v)).
(** P is seen from c in the direction b at the distance d *)
Definition sees (r : vec * vec) (d : R) (P : vec) : Prop := 0 < d /\ P = on_line r d.
