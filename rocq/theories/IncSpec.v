(** What a user expects of the incremental reconstruction. The vocabulary of the model used here: [reconstruction],
    [shots], [geo]. *)
From stdpp Require Import prelude gmap strings sorting.
From Verif Require Import Base RigModel IncModel.

(** the rig file names each shot once *)
Definition valid_rigs (rigs : list (string * rig_instance)) : Prop := NoDup (map fst (mjoin (map snd rigs))).
(** [x] is taken at the same time by the same rig as [im], or is [im] *)
Definition taken_with (rigs : list (string * rig_instance)) (im x : string) : Prop :=
  x = im \/ exists k l, (k, l) ∈ rigs /\ im ∈ map fst l /\ x ∈ map fst l.

(** [im] sees at least five points of the reconstruction and enough of them agree with its best pose *)
Definition can_be_added {G} (observations : gmap string (gset string)) (min_inliers : nat) (points : G -> gset string)
    (inliers : G -> gset string -> string -> nat) (r : reconstruction) (im : string) : Prop :=
  exists obs, observations !! im = Some obs /\ 5 <= size (obs ∩ points (geo r)) /\ min_inliers <= inliers (geo r) (shots r) im.
(** number of points of the reconstruction that the image sees *)
Definition visible {G} (observations : gmap string (gset string)) (points : G -> gset string) (r : @reconstruction G) (im : string) : nat :=
  size (default ∅ (observations !! im) ∩ points (geo r)).

(** The growth of a reconstruction, step by step: from [r] with the images [images] to choose from, by adding the groups
    of shots [steps], one ends up with [r'] and the images [images'] which cannot be added. *)
Inductive grows {G} (rigs : list (string * rig_instance)) (observations : gmap string (gset string)) (min_inliers : nat)
    (points : G -> gset string) (inliers : G -> gset string -> string -> nat)
    (resected : G -> gset string -> gset string -> string -> G) :
    reconstruction -> gset string -> list (gset string) -> reconstruction -> gset string -> Prop :=
  | grows_end r images :
      (forall im, im ∈ images -> ~ can_be_added observations min_inliers points inliers r im) ->
      grows rigs observations min_inliers points inliers resected r images [] r images
  | grows_step r images im new steps r' images' :
      im ∈ images -> can_be_added observations min_inliers points inliers r im ->
      (** the image added is the one that sees most points, among those that can be added *)
      (forall im', im' ∈ images -> can_be_added observations min_inliers points inliers r im' -> visible observations points r im' <= visible observations points r im) ->
      (** it comes with its rig instance *)
      (forall x, x ∈ new <-> taken_with rigs im x) ->
      (** nothing that was there already *)
      new ## shots r ->
      grows rigs observations min_inliers points inliers resected
        {| shots := new ∪ shots r; geo := resected (geo r) (new ∪ shots r) new im |} (images ∖ new) steps r' images' ->
      grows rigs observations min_inliers points inliers resected r images (new :: steps) r' images'.
