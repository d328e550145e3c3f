(** Specification of the features files. *)
From stdpp Require Import prelude strings.
From Coq Require Import Reals.
From Verif Require Import Base FeatFileModel.
Local Open Scope R_scope.

(** Two arrays have the same numbers *)
Definition same_values (a b : array) : Prop := a_rows a = a_rows b.
Definition same_option (a b : option array) : Prop := match a, b with Some a, Some b => same_values a b | None, None => True | _, _ => False end.
(** All numbers of an array *)
Definition every (P : R -> Prop) (a : array) : Prop := forall row x, row ∈ a_rows a -> x ∈ row -> P x.
(** Whole numbers of a range *)
Definition whole (lo hi x : R) : Prop := (exists z : Z, x = IZR z) /\ lo <= x <= hi.
(** What the file can hold exactly: points in single precision, descriptors as bytes or in single precision, classes from 0 to 255, instances of 16 bits *)
Record fits (single : R -> R) (bytes : Prop) (f : features_data) : Prop := {
  fit_points : every (fun x => single x = x) (points f);
  fit_descriptors : forall d, descriptors f = Some d -> (bytes -> every (whole 0 255) d) /\ (~ bytes -> every (fun x => single x = x) d);
  fit_segmentation : forall s a, semantic f = Some s -> segmentation s = Some a -> every (whole 0 255) a;
  fit_instances : forall s a, semantic f = Some s -> instances s = Some a -> every (whole (-32768) 32767) a }.
(** Same features: the same numbers everywhere *)
Definition same_semantic (s t : option semantic_data) : Prop :=
  match s, t with
  | Some s, Some t => same_option (segmentation s) (segmentation t) /\ same_option (instances s) (instances t) /\ labels s = labels t
  | None, None => True
  | _, _ => False
  end.
Record same_features (f g : features_data) : Prop := {
  same_points : same_values (points f) (points g); same_descriptors : same_option (descriptors f) (descriptors g); same_colors : same_values (colors f) (colors g); same_sem : same_semantic (semantic f) (semantic g) }.
(** Feature k of g is feature [keep k] of f, in all arrays *)
Definition picks (keep : list nat) (a b : array) : Prop := a_type b = a_type a /\ length (a_rows b) = length keep /\ forall k i, keep !! k = Some i -> exists row, a_rows a !! i = Some row /\ a_rows b !! k = Some row.
Definition picks_option (keep : list nat) (a b : option array) : Prop := match a, b with Some a, Some b => picks keep a b | None, None => True | _, _ => False end.
(** The places where the mask is true, in order *)
Definition places (mask : list bool) (keep : list nat) : Prop := (forall i, i ∈ keep <-> mask !! i = Some true) /\ forall k l i j, (k < l)%nat -> keep !! k = Some i -> keep !! l = Some j -> (i < j)%nat.
(** Every array has n rows *)
Definition rows_option (n : nat) (a : option array) : Prop := match a with Some a => length (a_rows a) = n | None => True end.
Definition rectangular (n : nat) (f : features_data) : Prop :=
  length (a_rows (points f)) = n /\ rows_option n (descriptors f) /\ length (a_rows (colors f)) = n /\ rows_option n (depths f) /\
  (forall s, semantic f = Some s -> (exists a, segmentation s = Some a /\ length (a_rows a) = n) /\ rows_option n (instances s)).
(** The descriptors that are stored as bytes *)
Definition byte_features (c : config) : Prop :=
  let t := PyText.upper (feature_type c) in
  (t = "ORB" \/ (t = "HAHOG" /\ hahog_normalize_to_uchar c = true) \/ (t = "AKAZE" /\ (akaze_descriptor c = "MLDB" \/ akaze_descriptor c = "MLDB_UPRIGHT")))%string.
(** Rounding to single precision: singles stay, bytes are singles *)
Definition rounding (single : R -> R) : Prop := (forall x, single (single x) = single x) /\ forall z, (0 <= z <= 255)%Z -> single (IZR z) = IZR z.
