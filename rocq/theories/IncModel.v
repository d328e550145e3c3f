(** Model of the incremental reconstruction: which images end up in which reconstruction, and in which order they are
    added. opensfm/reconstruction.py: add_shot, reconstruction_from_relative_pose, bootstrap_reconstruction,
    reconstructed_points_for_images, resect, grow_reconstruction, compute_image_pairs_sequential,
    incremental_reconstruction.

    The geometry (poses, coordinates of the points, and every report) is abstract: a reconstruction is the set of its
    shots and a value of an arbitrary type [G], and what the geometric code computes (two view geometry, triangulation,
    bundle adjustment, alignment, removal of outliers, number of inliers of a resection) is an arbitrary function of
    its arguments. What is observable of [G] here is the set of points it contains. Randomness: the robust estimators
    are seeded with a constant (src/robust/random_sampler.h), so a function of the arguments it is. *)
From stdpp Require Import prelude gmap strings sorting.
From Verif Require Import Base RigModel.
Open Scope string_scope.

Section Inc.
(** the images of the tracks manager, each with the (distinct) ids of the tracks it sees *)
Context (observations : gmap string (gset string)).
(** what [rig.rig_assignments_per_image(data.load_rig_assignments())] returns *)
Context (rig_assignments : gmap string (string * string * list string)).
(** five_point_algo_min_inliers, resection_min_inliers *)
Context (five_point_min_inliers resection_min_inliers : nat).

Context {G : Type}.
(** reconstruction.points *)
Context (points : G -> gset string).
(** two_view_reconstruction_general finds a motion (660-668) *)
Context (two_view : string -> string -> bool).
(** align_reconstruction, triangulate_shot_features (598-599), on the shots of the pair *)
Context (boot_triangulate : string -> string -> gset string -> G).
(** bundle_shot_poses, retriangulate (609-614); bundle_shot_poses (623-625) *)
Context (boot_retriangulate boot_bundle : G -> gset string -> G).
(** ninliers of resect (720-729) *)
Context (inliers : G -> gset string -> string -> nat).
(** the geometry once the image is resected (734-752) and what grow_reconstruction does with it: bundle_shot_poses,
    triangulation, retriangulation or bundle adjustment, removal of outliers (1513-1572); arguments: geometry, shots,
    new shots, image *)
Context (resected : G -> gset string -> gset string -> string -> G).
(** grow_reconstruction before the loop (1471-1476) and after it (1580-1597) *)
Context (prepare finalize : G -> gset string -> G).
(** the order in which python iterates over a set *)
Context (enum : G -> gset string -> list string).

Record reconstruction := { shots : gset string; geo : G }.

(** create_shot (types.py:180-214, map.cc:191-207), only the existence of the shot *)
Definition create_shot (shot_id : string) (s : gset string) : res (gset string) :=
  if decide (shot_id ∈ s) then Err RuntimeError else Ok ({[shot_id]} ∪ s).
(** 271-281 *)
Fixpoint create_shots (l : list string) (s : gset string) : res (gset string) :=
  match l with
  | [] => Ok s
  | shot :: l => match rig_assignments !! shot with
    | None => Err KeyError
    | Some _ => try s := create_shot shot s in create_shots l s end
  end.
(** add_shot, 247-285: the shots of the reconstruction and the shots added. 282 raises if the image is not in the
    instance (rig.cc:37-50). Loading the exif of an image is not modelled, and neither are the rig instances: an image
    that belongs to no rig and has the name of an instance is excluded. *)
Definition add_shot (s : gset string) (shot_id : string) : res (gset string * gset string) :=
  match rig_assignments !! shot_id with
  | None => try s := create_shot shot_id s in Ok (s, {[shot_id]})
  | Some (_, _, instance_shots) =>
      try s := create_shots instance_shots s in
      if decide (shot_id ∈ instance_shots) then Ok (s, list_to_set instance_shots) else Err RuntimeError
  end.

(** bootstrap_reconstruction, 633-674, and reconstruction_from_relative_pose, 563-630. [None]: no reconstruction *)
Definition bootstrap (im1 im2 : string) : res (option reconstruction) :=
  if two_view im1 im2 then
    try (s, new_shots) := add_shot ∅ im1 in
    try (s, new_shots) := (if decide (im2 ∈ new_shots) then Ok (s, new_shots) else
      try (s, new2) := add_shot s im2 in Ok (s, new_shots ∪ new2)) in
    let g := boot_triangulate im1 im2 new_shots in
    if decide (size (points g) < five_point_min_inliers) then Ok None else
    let g := boot_retriangulate g new_shots in
    if decide (size (points g) < five_point_min_inliers) then Ok None else
    Ok (Some {| shots := s; geo := boot_bundle g new_shots |})
  else Ok None.

(** CountTracksPerShot (src/sfm/src/tracks_helpers.cc:7-31) for one image: the manager raises if it does not know the
    shot *)
Definition count_tracks (g : G) (im : string) : res nat :=
  try obs := of_option RuntimeError (observations !! im) in Ok (size (obs ∩ points g)).
Fixpoint counts (g : G) (l : list string) : res (list (string * nat)) :=
  match l with
  | [] => Ok []
  | im :: l => try n := count_tracks g im in try rest := counts g l in Ok ((im, n) :: rest)
  end.
(** reconstructed_points_for_images, 677-692 *)
Definition more_points (a b : string * nat) : Prop := b.2 <= a.2.
Global Instance more_points_dec : RelDecision more_points := fun a b => decide (b.2 <= a.2).
Definition reconstructed_points_for_images (r : reconstruction) (images : gset string) : res (list (string * nat)) :=
  try l := counts (geo r) (filter (fun im => im ∉ shots r) (enum (geo r) images)) in Ok (merge_sort more_points l).

(** resect, 695-762: [None]: not added; otherwise the reconstruction and the new shots *)
Definition resect (r : reconstruction) (im : string) : res (option (reconstruction * gset string)) :=
  try common := count_tracks (geo r) im in
  if decide (common < 5) then Ok None else
  if decide (resection_min_inliers <= inliers (geo r) (shots r) im) then
    if decide (im ∈ shots r) then Err AssertionError else
    try (s, new_shots) := add_shot (shots r) im in
    Ok (Some ({| shots := s; geo := resected (geo r) s new_shots im |}, new_shots))
  else Ok None.

(** 1501-1576: the first candidate that can be resected *)
Fixpoint try_candidates (r : reconstruction) (candidates : list (string * nat)) : res (option (reconstruction * gset string)) :=
  match candidates with
  | [] => Ok None
  | (im, _) :: rest =>
      try o := resect r im in match o with None => try_candidates r rest | Some x => Ok (Some x) end
  end.
(** grow_reconstruction, 1480-1578: the loop; also the images left, since [images -= new_shots] changes the set of the
    caller, and the new shots of each step (report["steps"]) *)
Fixpoint grow_loop (fuel : nat) (r : reconstruction) (images : gset string) (steps : list (gset string)) : res (reconstruction * gset string * list (gset string)) :=
  match fuel with
  | 0 => Err Diverges
  | S fuel =>
      try candidates := reconstructed_points_for_images r images in
      match candidates with
      | [] => Ok (r, images, steps)
      | _ =>
          try o := try_candidates r candidates in
          match o with
          | None => Ok (r, images, steps)
          | Some (r', new_shots) => grow_loop fuel r' (images ∖ new_shots) (steps ++ [new_shots])
          end
      end
  end.
Definition grow (fuel : nat) (r : reconstruction) (images : gset string) : res (reconstruction * gset string * list (gset string)) :=
  let r := {| shots := shots r; geo := prepare (geo r) (shots r) |} in
  try (r, images, steps) := grow_loop fuel r images [] in
  Ok ({| shots := shots r; geo := finalize (geo r) (shots r) |}, images, steps).

(** 1770: sorted by decreasing number of shots; [sorted] is stable *)
Definition larger (a b : reconstruction) : Prop := size (shots b) <= size (shots a).
Global Instance larger_dec : RelDecision larger := fun a b => decide (size (shots b) <= size (shots a)).
(** 1745-1770 *)
Fixpoint inc_loop (fuel : nat) (pairs : list (string * string)) (remaining : gset string) (recs : list reconstruction) : res (gset string * list reconstruction) :=
  match pairs with
  | [] => Ok (remaining, recs)
  | (im1, im2) :: rest =>
      if decide (im1 ∈ remaining /\ im2 ∈ remaining) then
        try o := bootstrap im1 im2 in
        match o with
        | None => inc_loop fuel rest remaining recs
        | Some r =>
            try (r, remaining, _) := grow fuel r (remaining ∖ shots r) in
            inc_loop fuel rest remaining (merge_sort larger (recs ++ [r]))
        end
      else inc_loop fuel rest remaining recs
  end.
(** incremental_reconstruction, 1712-1786: report["not_reconstructed_images"] and the reconstructions *)
Definition incremental (fuel : nat) (pairs : list (string * string)) : res (gset string * list reconstruction) :=
  inc_loop fuel pairs (dom observations) [].
End Inc.

(** pairwise_reconstructability, 193-200; the comparison of the float ratio with 0.3 is made exact *)
Definition pairwise_reconstructability (common_tracks rotation_inliers : Z) : res Z :=
  if decide (common_tracks = 0%Z) then Err ZeroDivisionError else
  let outliers := (common_tracks - rotation_inliers)%Z in
  if decide (3 * common_tracks <= 10 * outliers)%Z then Ok outliers else Ok 0%Z.
(** compute_image_pairs_sequential, 1684-1709. [connectivity]: the items of get_all_pairs_connectivity;
    [rotation_inliers]: the number of inliers found by two_view_reconstruction_rotation_only (at most the number of
    common tracks). compute_image_pairs (208-220) does the same with an unstable sort. *)
Definition score_ge (a b : string * string * Z) : Prop := (b.2 <= a.2)%Z.
Global Instance score_ge_dec : RelDecision score_ge := fun a b => decide (b.2 <= a.2)%Z.
Fixpoint pair_results (min_common : nat) (rotation_inliers : string -> string -> Z) (connectivity : list (string * string * nat)) : res (list (string * string * Z)) :=
  match connectivity with
  | [] => Ok []
  | (im1, im2, n) :: rest =>
      if decide (n < min_common) then pair_results min_common rotation_inliers rest else
      try r := pairwise_reconstructability (Z.of_nat n) (rotation_inliers im1 im2) in
      try results := pair_results min_common rotation_inliers rest in
      Ok (if decide (0 < r)%Z then (im1, im2, r) :: results else results)
  end.
Definition compute_image_pairs min_common rotation_inliers connectivity : res (list (string * string)) :=
  try results := pair_results min_common rotation_inliers connectivity in
  Ok (map fst (merge_sort score_ge results)).
