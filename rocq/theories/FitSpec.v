(** Specification of the fit of a similarity y = s R x + b to pairs of points. *)
From stdpp Require Import prelude.
From Coq Require Import Reals.
From Verif Require Import Lin.
Local Open Scope R_scope.

(** y = s R x + b *)
Definition moved (s : R) (r : mat) (b x : vec) : vec := vadd (vscale s (mvec r x)) b.
(** The sum over the pairs (x, y) of the squared distances from y to the image of x *)
Fixpoint squared_error (f : vec -> vec) (pairs : list (vec * vec)) : R :=
  match pairs with
  | [] => 0
  | (x, y) :: pairs => dot (vsub y (f x)) (vsub y (f x)) + squared_error f pairs
  end.
(** All points are on a line (or all the same) *)
Definition on_a_line (l : list vec) : Prop := exists c d, forall x, x ∈ l -> exists t, x = vadd c (vscale t d).
Definition all_equal {A} (l : list A) : Prop := forall x y, x ∈ l -> y ∈ l -> x = y.
(** What a singular value decomposition is: M = U diag(s1, s2, s3) Vh with orthogonal U and Vh, and s1 >= s2 >= s3 >= 0 *)
Definition is_svd_of (m : mat) (factors : mat * (R * R * R) * mat) : Prop :=
  let '(u, (s1, s2, s3), vh) := factors in
  mmul u (mT u) = mI /\ mmul vh (mT vh) = mI /\ m = mmul u (mmul (Mat s1 0 0 0 s2 0 0 0 s3) vh) /\ s1 >= s2 /\ s2 >= s3 /\ s3 >= 0.

(** The same in the plane, with a rotation by an angle *)
Definition moved2 (s angle : R) (b x : R * R) : R * R :=
  (s * (cos angle * x.1 - sin angle * x.2) + b.1, s * (sin angle * x.1 + cos angle * x.2) + b.2).
Fixpoint squared_error2 (f : R * R -> R * R) (pairs : list ((R * R) * (R * R))) : R :=
  match pairs with
  | [] => 0
  | (x, y) :: pairs => (y.1 - (f x).1) * (y.1 - (f x).1) + (y.2 - (f x).2) * (y.2 - (f x).2) + squared_error2 f pairs
  end.
(** The matrices by their rows *)
Definition is_svd2_of (m : (R * R) * (R * R)) (factors : ((R * R) * (R * R)) * (R * R) * ((R * R) * (R * R))) : Prop :=
  let '((a, b), (c, d)) := m in
  let '(((u11, u12), (u21, u22)), (s1, s2), ((v11, v12), (v21, v22))) := factors in
  (u11 * u11 + u12 * u12 = 1 /\ u21 * u21 + u22 * u22 = 1 /\ u11 * u21 + u12 * u22 = 0) /\
  (v11 * v11 + v12 * v12 = 1 /\ v21 * v21 + v22 * v22 = 1 /\ v11 * v21 + v12 * v22 = 0) /\
  (a = u11 * s1 * v11 + u12 * s2 * v21 /\ b = u11 * s1 * v12 + u12 * s2 * v22 /\ c = u21 * s1 * v11 + u22 * s2 * v21 /\ d = u21 * s1 * v12 + u22 * s2 * v22) /\
  s1 >= s2 /\ s2 >= 0.
Definition centroid (l : list vec) : vec := vscale (/ INR (length l)) (foldr vadd v0 l).
(** The sum of the squared distances of the points to their centroid *)
Definition scatter (l : list vec) : R := squared_error (fun _ => centroid l) (zip l l).
Definition centroid2 (l : list (R * R)) : R * R := (/ INR (length l) * foldr Rplus 0 (fst <$> l), / INR (length l) * foldr Rplus 0 (snd <$> l)).
Definition scatter2 (l : list (R * R)) : R := squared_error2 (fun _ => centroid2 l) (zip l l).
