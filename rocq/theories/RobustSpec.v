(** Specification of the robust estimators. *)
From stdpp Require Import prelude gmap sorting.
From Coq Require Import Reals.
From Verif Require Import Base Lin RotModel TriangModel RobustModel.
Local Open Scope R_scope.

(** The increasing list of the places where the errors satisfy [P] *)
Definition places (P : R -> Prop) (errors : list R) (l : list nat) : Prop :=
  StronglySorted lt l /\ forall i, i ∈ l <-> exists e, errors !! i = Some e /\ P e.
(** A median: one of the values, with at most half of them below and more than half not above *)
Definition median_of (errors : list R) (x : R) : Prop :=
  x ∈ errors /\ (2 * length (filter (fun e => (e < x)%R) errors) <= length errors)%nat /\ (length errors < 2 * length (filter (fun e => (e <= x)%R) errors))%nat.
(** The sum of the squared errors, each at most the squared threshold *)
Definition truncated_cost (threshold : R) (errors : list R) : R := foldr Rplus 0 ((fun e => Rmin (e * e) (threshold * threshold)) <$> errors).

(** What score and inliers mean *)
Definition scored (t : ransac_type) (threshold : R) (errors : list R) (s : R) (inl : list nat) : Prop :=
  match t with
  | RANSAC => places (fun e => e < threshold) errors inl /\ s = INR (length inl)
  | MSAC => places (fun e => e <= threshold) errors inl /\ s = 1 / (truncated_cost threshold errors + 1 / 10 ^ 8)
  | LMedS => exists m, median_of errors m /\ places (fun e => e <= threshold * (1.4826 * m)) errors inl /\ s = 1 / (m + 1 / 10 ^ 8)
  end.

Section Spec.
Context {Data Model : Type}.
(** A list of [n] samples taken at different places *)
Definition taken {A : Type} (n : nat) (from l : list A) : Prop :=
  exists idx, NoDup idx /\ length idx = n /\ Forall2 (fun i a => from !! i = Some a) idx l.
End Spec.
(** A generator that gives each value it may give within any [n] draws *)
Definition fair (draw : nat -> nat -> nat) (size n : nat) : Prop :=
  forall range v pos, (range < size)%nat -> (v <= range)%nat -> exists j, (j < n)%nat /\ draw (pos + j)%nat range = v.
Definition in_range (draw : nat -> nat -> nat) : Prop := forall pos range, (draw pos range <= range)%nat.

(** ** What a run does, from the samples it drew and the models it looked at *)
Section Run.
Context {Data Model : Type}.
Variable minimal : nat.
Variable estimate estimate_non_minimal : list Data -> list Model.
Variable error : Model -> Data -> R.
Variable t : ransac_type.
Variable threshold : R.
Variable samples : list Data.
(** [inl] is the list of the inliers of [m] *)
Definition inliers_of (m : Model) (inl : list nat) : Prop := exists s, scored t threshold (error m <$> samples) s inl.
(** A model that may be looked at: one of a minimal set of samples, or one refined on inliers of a model looked at *)
Definition candidate (seen : list Model) (drawn : list (list Data)) (m : Model) : Prop :=
  (exists d, d ∈ drawn /\ m ∈ estimate d) \/
  (exists m' inl gathered n l, m' ∈ seen /\ inliers_of m' inl /\ Forall2 (fun i a => samples !! i = Some a) inl gathered /\
     (minimal <= n)%nat /\ taken n gathered l /\ m ∈ estimate_non_minimal l).
End Run.
(** The pose given by the absolute pose of multiview.py is the inverse of the model's *)
Definition places_back (m p : mat * vec) : Prop := forall v, vadd (mvec p.1 (vadd (mvec m.1 v) m.2)) p.2 = v.
