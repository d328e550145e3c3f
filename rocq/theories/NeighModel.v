(** Model of the neighbourhood of a shot, on which the local bundle adjustment works: opensfm/src/sfm/src/ba_helpers.cc,
    DirectShotNeighbors and ShotNeighborhood.

    The map is given by the landmarks each shot observes and the rig instance of each shot. The shots that observe a
    landmark and the shots of an instance are computed from these: that the map keeps both directions consistent is what
    C08 and C09 prove. Shots and landmarks are designated by their ids instead of pointers. *)
From stdpp Require Import prelude gmap strings sorting.
From Verif Require Import Base.
Open Scope nat_scope.

Section Neigh.
(** shot -> landmarks it observes (Shot::GetLandmarkObservations), shot -> its rig instance *)
Context (obs : gmap string (gset string)) (inst : gmap string string).
(** the order in which an unordered_set / unordered_map is visited, and what std::sort makes of the entries of
    [common_points]: some permutation of them, by decreasing count *)
Context (enum : gset string -> list string) (sort_counts : gmap string nat -> list (string * nat)).

(** Landmark::GetObservations: the shots that observe the landmark *)
Definition observers (lm : string) : gset string := dom (filter (fun e : string * gset string => lm ∈ e.2) obs).
(** map.GetRigInstance(id).GetShotIDs() *)
Definition members (i : string) : gset string := dom (filter (fun e : string * string => e.2 = i) inst).

(** 76-81 *)
Definition points_of (shot_ids : gset string) : gset string :=
  foldl (fun acc s => acc ∪ default ∅ (obs !! s)) ∅ (enum shot_ids).
(** 83-90 *)
Definition count_shot (shot_ids : gset string) (acc : gmap string nat) (shot : string) : gmap string nat :=
  if decide (shot ∈ shot_ids) then acc else <[shot := S (default 0 (acc !! shot))]> acc.
Definition common_points (shot_ids : gset string) : gmap string nat :=
  foldl (fun acc pt => foldl (count_shot shot_ids) acc (enum (observers pt))) ∅ (enum (points_of shot_ids)).
(** 102-117; [shot->GetRigInstanceId()] of a shot that observes a landmark: the shot exists *)
Fixpoint collect (min_common max_n idx : nat) (pairs : list (string * nat)) (neighbors : gset string) : res (gset string) :=
  match pairs with
  | [] => Ok neighbors
  | (shot, num_common) :: rest =>
      if decide (min_common <= num_common /\ idx < max_n) then
        try i := of_option RuntimeError (inst !! shot) in
        collect min_common max_n (S idx) rest (neighbors ∪ members i)
      else Ok neighbors
  end.
(** DirectShotNeighbors, 73-119 *)
Definition direct_shot_neighbors (shot_ids : gset string) (min_common_points max_neighbors : nat) : res (gset string) :=
  let pairs := sort_counts (common_points shot_ids) in
  let max_n := max_neighbors `min` length pairs in
  collect min_common_points max_n 0 pairs ∅.

(** 62-68: [n] iterations are left, that is [distance = radius - n] *)
Fixpoint grow_interior (min_common max_interior : nat) (n : nat) (interior : gset string) : res (gset string) :=
  match n with
  | 0 => Ok interior
  | S n =>
      if decide (size interior < max_interior) then
        try neighbors := direct_shot_neighbors interior min_common (max_interior - size interior) in
        grow_interior min_common max_interior n (interior ∪ neighbors)
      else Ok interior
  end.
Definition MaxBoundarySize : nat := Z.to_nat 1000000.
(** ShotNeighborhood, 48-72 *)
Definition shot_neighborhood (central : string) (radius min_common max_interior : nat) : res (gset string * gset string) :=
  try i := of_option RuntimeError (inst !! central) in
  try interior := grow_interior min_common max_interior (radius - 1) (members i ∪ {[central]}) in
  try boundary := direct_shot_neighbors interior 1 MaxBoundarySize in
  Ok (interior, boundary).
End Neigh.
Global Opaque MaxBoundarySize.
