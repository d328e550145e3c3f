(** Specification of essential matrices from five points. *)
From stdpp Require Import prelude.
From Coq Require Import Reals.
From Verif Require Import Lin EssSpec.
Local Open Scope R_scope.

(** The monomials x^i y^j z^k of the degree up to three, in the order of the code *)
Definition monomials (x y z : R) : list R :=
  [x * x * x; x * x * y; x * y * y; y * y * y; x * x * z; x * y * z; y * y * z; x * z * z; y * z * z; z * z * z;
   x * x; x * y; y * y; x * z; y * z; z * z; x; y; z; 1].
(** A row of numbers times a column of numbers *)
Fixpoint weighted (p : nat -> R) (l : list R) : R := match l with [] => 0 | a :: l => p 0%nat * a + weighted (fun n => p (S n)) l end.
(** The value of a polynomial *)
Definition value (p : nat -> R) (x y z : R) : R := weighted p (monomials x y z).
(** A multiple of the essential matrix of a motion *)
Definition is_essential (E : mat) : Prop := exists k r t, rotation r /\ dot t t = 1 /\ E = mscale k (essential r t).
(** The point (x, y, z, w) of the space spanned by four matrices *)
Definition at_point (b : mat * mat * mat * mat) (x y z w : R) : mat :=
  let '(b0, b1, b2, b3) := b in madd (madd (madd (mscale x b0) (mscale y b1)) (mscale z b2)) (mscale w b3).
(** The four matrices are a basis of the solutions of the epipolar equations *)
Definition basis_of_solutions (samples : list (vec * vec)) (b : mat * mat * mat * mat) : Prop :=
  (forall F, (forall s, s ∈ samples -> epipolar F s = 0) <-> exists x y z w, F = at_point b x y z w) /\
  (forall x y z w, at_point b x y z w = mscale 0 mI -> x = 0 /\ y = 0 /\ z = 0 /\ w = 0).
(** Ten numbers, not all 0, that a 10x10 matrix multiplies by a number *)
Definition eigenvector (A : nat -> nat -> R) (v : nat -> R) (e : R) : Prop :=
  (exists i, (i < 10)%nat /\ v i <> 0) /\ forall i, (i < 10)%nat -> weighted (A i) (v <$> seq 0 10) = e * v i.
(** The same for complex numbers and a real factor *)
Definition complex_eigenvector (A : nat -> nat -> R) (v : nat -> R * R) (e : R) : Prop :=
  (exists i, (i < 10)%nat /\ v i <> (0, 0)) /\
  forall i, (i < 10)%nat -> weighted (A i) ((fun k => (v k).1) <$> seq 0 10) = e * (v i).1 /\ weighted (A i) ((fun k => (v k).2) <$> seq 0 10) = e * (v i).2.
(** One of the columns is an eigenvector of e *)
Definition finds_eigenvalue (A : nat -> nat -> R) (l : list (nat -> R * R)) (e : R) : Prop := exists c, c ∈ l /\ complex_eigenvector A c e.
(** All eigenvectors of e are multiples of each other *)
Definition simple_eigenvalue (A : nat -> nat -> R) (e : R) : Prop :=
  forall v w, eigenvector A v e -> eigenvector A w e -> exists k, forall i, (i < 10)%nat -> w i = k * v i.
