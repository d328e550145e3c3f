(** Model of /repo/opensfm/rig.py: grouping images into rig instances. Dictionaries whose iteration order has no observable
    effect are finite maps. *)
From stdpp Require Import prelude list sorting gmap strings.
From Verif Require Import Base.

Definition INCOMPLETE_INSTANCE_GROUP := "INCOMPLETE_INSTANCE_GROUP". (* rig.py:27 *)
Definition INCOMPLETE_INSTANCE_ID := "INCOMPLETE_INSTANCE_ID".       (* rig.py:28 *)
Notation rig_instance := (list (string * string)). (* (image, rig camera) *)

Section Patterns.
(** re.sub(pattern, "", image): the regular expression engine is arbitrary *)
Context (re_sub : string -> string -> string).
(** find_image_rig, rig.py:56-68. [rig_patterns]: the dictionary rig camera -> pattern, in its order *)
Fixpoint find_image_rig (image : string) (rig_patterns : list (string * string)) : option (string * string) :=
  match rig_patterns with
  | [] => None
  | (rig_camera_id, pattern) :: rest =>
      let instance_member_id := re_sub pattern image in
      if decide (instance_member_id = "") then find_image_rig image rest
      else if decide (instance_member_id <> image) then Some (rig_camera_id, instance_member_id)
      else find_image_rig image rest
  end.
(** 79-89, one image: an empty rig camera id counts as no rig camera *)
Definition instance_of (rig_patterns : list (string * string)) (image : string) : string * string :=
  match find_image_rig image rig_patterns with
  | Some (c, k) => if decide (c = "" \/ k = "") then (INCOMPLETE_INSTANCE_ID, INCOMPLETE_INSTANCE_GROUP) else (c, k)
  | None => (INCOMPLETE_INSTANCE_ID, INCOMPLETE_INSTANCE_GROUP)
  end.
Definition add_image (rig_patterns : list (string * string)) (m : gmap string rig_instance) (image : string) : gmap string rig_instance :=
  let '(c, k) := instance_of rig_patterns image in
  <[k := default [] (m !! k) ++ [(image, c)]]> m.
(** create_instances_with_patterns, 71-117. The groups of rig cameras (94-113) only produce warnings. *)
Definition create_instances_with_patterns (images : list string) (rig_patterns : list (string * string)) : gmap string rig_instance * list string :=
  let per_instance_id := foldl (add_image rig_patterns) ∅ images in
  (delete INCOMPLETE_INSTANCE_GROUP per_instance_id, map fst (default [] (per_instance_id !! INCOMPLETE_INSTANCE_GROUP))).
End Patterns.

(** rig_assignments_per_image, 39-53; [assignments]: the items of the dictionary *)
Definition rig_assignments_per_image (assignments : list (string * rig_instance)) : gmap string (string * string * list string) :=
  foldl (fun acc '(instance_id, instance) =>
    foldl (fun acc '(shot_id, rig_camera_id) => <[shot_id := (instance_id, rig_camera_id, map fst instance)]> acc) acc instance) ∅ assignments.

(** ", ".join *)
Fixpoint join (l : list string) : string :=
  match l with [] => "" | [x] => x | x :: rest => x +:+ ", " +:+ join rest end.
(** the python order of strings; the theorems do not depend on which order it is *)
Definition string_le (a b : string) : Prop := String.leb a b = true.
Global Instance string_le_dec : RelDecision string_le := fun a b => decide (String.leb a b = true).
(** group_instances, 120-129 *)
Definition group_key (instance : rig_instance) : string :=
  join (merge_sort string_le (elements (list_to_set (map snd instance) : gset string))).
Definition group_instances (instances : list rig_instance) : gmap string (list rig_instance) :=
  foldl (fun acc i => <[group_key i := default [] (acc !! group_key i) ++ [i]]> acc) ∅ instances.

(** 190-195: the part of the instances, sorted by time, used for one calibration; [idx] is the random index *)
Definition calibration_subset {A} (instances_sorted : list A) (subset_size idx : nat) : list A :=
  let lo := idx - subset_size / 2 in (* max([0, ..]) *)
  let hi := (idx + subset_size / 2) `min` (length instances_sorted - 1) in
  take (hi - lo) (drop lo instances_sorted).

(** count_reconstructed_instances, 389-401 *)
Definition instances_map (instances : list rig_instance) : gmap string nat :=
  foldl (fun acc '(i, instance) => foldl (fun acc '(shot_id, _) => <[shot_id := i]> acc) acc instance) ∅ (imap pair instances).
Definition count_reconstructed_instances (instances : list rig_instance) (shots : list string) : res Z :=
  let counts : gmap nat Z := list_to_map (imap (fun i instance => (i, Z.of_nat (length instance))) instances) in
  let im := instances_map instances in
  try counts := foldl (fun r s => try c := r in try i := of_option KeyError (im !! s) in try n := of_option KeyError (c !! i) in Ok (<[i := (n - 1)%Z]> c)) (Ok counts) shots in
  Ok (Z.of_nat (length instances) - Z.of_nat (length (filter (fun p => (0 < p.2)%Z) (map_to_list counts))))%Z.
