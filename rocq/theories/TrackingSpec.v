(** Specification of track creation: the match graph and its clean connected components. *)
From stdpp Require Import prelude gmap strings.
From Verif Require Import Base TracksModel TrackingModel.

Section Graph.
Variable matches : list ((string * string) * list (nat * nat)).
(** [a] and [b] are matched. *)
Definition matched (a b : feature) : Prop :=
  exists im1 im2 l f1 f2, ((im1, im2), l) ∈ matches /\ (f1, f2) ∈ l /\ a = (im1, f1) /\ b = (im2, f2).
(** [a] occurs in some match. *)
Definition in_graph (a : feature) : Prop := exists b, matched a b \/ matched b a.
(** A chain of matches, each used in either direction. *)
Inductive connected : feature -> feature -> Prop :=
  | conn_refl a : connected a a
  | conn_fwd a b c : matched a b -> connected b c -> connected a c
  | conn_bwd a b c : matched b a -> connected b c -> connected a c.
(** The component of [a] has at least [n] features and at most one per image. *)
Definition kept (n : nat) (a : feature) : Prop :=
  exists l, NoDup l /\ (forall x, x ∈ l <-> connected a x) /\ n <= length l /\
    (forall im f g, (im, f) ∈ l -> (im, g) ∈ l -> f = g).
End Graph.

(** The observation that feature [fid] of [image] must give. *)
Section Obs.
Context {F : Type} (finite : F -> bool) (fmul fmax : F -> F -> F).
Variable features : gmap string (list (F * F * F)).
Variable colors : gmap string (list (Z * Z * Z)).
Variable segmentations instances : gmap string (list Z).
Variable depths : gmap string (list F).
Variable radial : bool.
Variable sd : F.

Definition label_ok (labels : gmap string (list Z)) (image : string) (fid : nat) (v : Z) : Prop :=
  match labels !! image with None => v = NO_VALUE | Some l => l !! fid = Some v end.
Definition depth_ok (image : string) (fid : nat) (p : option (depth F)) : Prop :=
  match depths !! image with
  | None => p = None
  | Some l => exists d, l !! fid = Some d /\ p = if finite d then Some (Depth d radial (fmax (fmul sd d) sd)) else None
  end.
Definition expected_obs (image : string) (fid : nat) (o : observation F) : Prop :=
  (exists fs, features !! image = Some fs /\ fs !! fid = Some (o_x o, o_y o, o_scale o)) /\
  (exists cs, colors !! image = Some cs /\ cs !! fid = Some (o_r o, o_g o, o_b o)) /\
  label_ok segmentations image fid (o_segm o) /\ label_ok instances image fid (o_inst o) /\
  depth_ok image fid (o_depth o) /\ o_feature o = Z.of_nat fid.
End Obs.
