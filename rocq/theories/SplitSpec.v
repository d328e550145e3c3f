(** Specification of the split of a dataset into submodels. *)
From stdpp Require Import prelude gmap strings sorting.
From Coq Require Import Ascii Reals.
From Verif Require Import Base Lin TextModel PyText GeoModel SplitModel.
Local Open Scope R_scope.

(** The file names that go through the text files *)
Definition plain (s : string) : Prop := s <> "" /\ absent TAB s /\ absent NL s /\ absent "/"%char s.
Definition has_gps (exif : string -> option R * option R) (image : string) : Prop := is_Some (exif image).1 /\ is_Some (exif image).2.
Definition located (images : list string) (exif : string -> option R * option R) (image : string) : Prop := image ∈ images /\ has_gps exif image.
(** latitude and longitude in single precision *)
Definition latlon (f32 : R -> R) (exif : string -> option R * option R) (image : string) : R * R := (f32 (default 0 (exif image).1), f32 (default 0 (exif image).2)).
Definition average (l : list R) : R := foldr Rplus 0 l / INR (length l).
(** East and north of an image, in metres, in the frame tangent at the average position of the images with GPS *)
Definition east_north (f32 : R -> R) (images : list string) (exif : string -> option R * option R) (image : string) : R * R :=
  let ps := latlon f32 exif <$> filter (fun i => has_gps exif i) images in
  let p := latlon f32 exif image in
  let v := topocentric_from_lla p.1 p.2 0 (average ps.*1) (average ps.*2) 0 in (vx v, vy v).
Definition within (d : R) (p q : R * R) : Prop := sqrt ((p.1 - q.1) ^ 2 + (p.2 - q.2) ^ 2) <= d.
(** The directories hold one submodel for each label: the images of that label and those within the overlap of one of them, in the order of the dataset. *)
Definition splits (f32 : R -> R) (images : list string) (exif : string -> option R * option R) (overlap : R) (label : string -> nat) (K : nat) (dirs : gmap string string) : Prop :=
  (forall d, is_Some (dirs !! d) <-> exists k, (k < K)%nat /\ d = submodel_name k) /\
  forall k, (k < K)%nat -> exists text, dirs !! submodel_name k = Some text /\ sublist (submodel_images text) images /\
    forall b, b ∈ submodel_images text <-> located images exif b /\ exists a, located images exif a /\ label a = k /\ within overlap (east_north f32 images exif a) (east_north f32 images exif b).
(** image_groups.txt: the group of an image is on the last line for it *)
Definition line_of (line : string) : option (string * string) := match py_words line with [i; g] => Some (i, g) | _ => None end.
Definition group_of (text image : string) : option string := snd <$> last (filter (fun x => x.1 = image) (omap line_of (getlines NL text))).
Definition is_group (text group : string) : Prop := exists image, (image, group) ∈ omap line_of (getlines NL text).
(** What is needed of k-means: a label below K for each point, and no empty cluster *)
Definition clusters_well (kmeans : list (R * R) -> nat -> list nat) : Prop := forall ps K, (0 < K <= length ps)%nat ->
  length (kmeans ps K) = length ps /\ (forall l, l ∈ kmeans ps K -> (l < K)%nat) /\ (forall k, (k < K)%nat -> k ∈ kmeans ps K).
