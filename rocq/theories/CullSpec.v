(** Specification vocabulary for the culling of points. *)
From stdpp Require Import prelude gmap strings sorting.
From Coq Require Import Reals.
From Verif Require Import Base Lin MapModel MapSpec TriangSpec.
Local Open Scope R_scope.

(** Sums over a list, the mean and the standard deviation. *)
Fixpoint sum (l : list R) : R := match l with [] => 0 | x :: l => x + sum l end.
Definition mean (l : list R) : R := sum l / INR (length l).
Definition std (l : list R) : R := sqrt (sum ((fun x => (x - mean l) ^ 2) <$> l) / INR (length l)).

(** The median: the middle value in increasing order, or the mean of the two middle values. *)
Definition is_median (l : list R) (x : R) : Prop :=
  exists below above, StronglySorted Rle (below ++ above) /\ below ++ above ≡ₚ l /\
    ((exists rest, above = x :: rest /\ length below = length rest) \/
     (exists pre a b post, below = pre ++ [a] /\ above = b :: post /\ length pre = length post /\ x = (a + b) / 2)).

(** [l] lists the elements that satisfy [P], each once. *)
Definition lists {A} (P : A -> Prop) (l : list A) : Prop := NoDup l /\ forall x, x ∈ l <-> P x.
(** [n] elements satisfy [P]. *)
Definition number {A} (P : A -> Prop) (n : nat) : Prop := exists l, lists P l /\ length l = n.

Definition dist (p q : vec) : R := norm (vsub p q).

Section Spec.
Context {C B P D X O Rf : Type}.
Notation map := (@map C B P vec D X O Rf).
Definition exists_in (m : map) (lm : string) : Prop := is_Some (m_landmarks m !! lm).
Definition position (m : map) (lm : string) : option vec := lm_pos <$> m_landmarks m !! lm.
(** [m'] is [m] without the landmarks that satisfy [gone] and their observations, and is otherwise as it was. *)
Record without (gone : string -> Prop) (m m' : map) : Prop := {
  wo_frame : same_frame m m';
  wo_gone : forall lm, gone lm -> m_landmarks m' !! lm = None;
  wo_kept : forall lm, ~ gone lm -> m_landmarks m' !! lm = m_landmarks m !! lm;
  wo_sees : forall k lm o, shot_sees m' k lm o <-> ~ gone lm /\ shot_sees m k lm o }.
(** [ns] are [k] landmarks other than [lm], and no other landmark is closer to it. *)
Definition nearest (m : map) (k : nat) (lm : string) (ns : list string) : Prop :=
  NoDup ns /\ length ns = k /\ lm ∉ ns /\ (forall x, x ∈ ns -> exists_in m x) /\
  forall p x q y r, position m lm = Some p -> x ∈ ns -> position m x = Some q -> y <> lm -> y ∉ ns -> position m y = Some r ->
    dist p q <= dist p r.
(** [a] is the mean squared distance from [lm] to its [k] nearest landmarks. *)
Definition isolation (m : map) (k : nat) (lm : string) (a : R) : Prop :=
  exists ns p, nearest m k lm ns /\ position m lm = Some p /\
    exists ds, Forall2 (fun x d => exists q, position m x = Some q /\ d = dist p q ^ 2) ns ds /\ a = mean ds.
(** ** Observations with errors. [errors lm shot] is the reprojection error recorded for the observation of [lm] in [shot]. *)
Definition recorded (errors : string -> string -> option (R * R)) (m : map) : Prop :=
  forall lm s e, errors lm s = Some e -> exists f, landmark_lists m lm (false, s) f.
(** The error is above the threshold. *)
Definition outlier (errors : string -> string -> option (R * R)) (threshold : R) (lm s : string) : Prop :=
  exists e, errors lm s = Some e /\ Rabs threshold < sqrt (e.1 ^ 2 + e.2 ^ 2).
(** [es] are all the recorded errors. *)
Definition all_errors (errors : string -> string -> option (R * R)) (es : list (R * R)) : Prop :=
  exists ks, lists (fun k => is_Some (errors k.1 k.2)) ks /\ Forall2 (fun k e => errors k.1 k.2 = Some e) ks es.

(** ** Views. The camera, pose and observation of the shot [k] that observes [lm] *)
Definition view (pcompose : P -> P -> P) (m : map) (lm : string) (k : shot_key) (v : C * P * O) : Prop :=
  exists x i rc, m_shots m !! k = Some x /\ m_cameras m !! sh_camera x = Some v.1.1 /\ m_instances m !! sh_instance x = Some i /\
    m_rig_cameras m !! sh_rig_camera x = Some rc /\ v.1.2 = pcompose rc (in_pose i) /\ sh_obs x !! lm = Some v.2.
(** Two of the shots see the landmark at [p] under an angle of more than [a], and not from exactly opposite sides. *)
Definition seen_under (pcompose : P -> P -> P) (origin : P -> vec) (m : map) (lm : string) (p : vec) (a : R) : Prop :=
  exists k1 v1 k2 v2, k1 <> k2 /\ view pcompose m lm k1 v1 /\ view pcompose m lm k2 v2 /\ origin v1.1.2 <> p /\ origin v2.1.2 <> p /\
    a < angle (vsub p (origin v1.1.2)) (vsub p (origin v2.1.2)) < PI.
(** The condition number that [condition] gives to the landmark with its views; None: it is discarded beforehand. *)
Definition scores (pcompose : P -> P -> P) (origin : P -> vec) (condition : list (C * P * O) -> vec -> option R) (m : map) (a : R)
    (lm : string) (c : option R) : Prop :=
  exists p ks vs, position m lm = Some p /\ lists (fun k => exists o, shot_sees m k lm o) ks /\ Forall2 (view pcompose m lm) ks vs /\
    (seen_under pcompose origin m lm p a -> c = condition vs p) /\ (~ seen_under pcompose origin m lm p a -> c = None).
End Spec.
