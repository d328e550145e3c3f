(** What the neighbours of an image and the products of the depth map stages are meant to be *)
From stdpp Require Import prelude gmap strings.
From Coq Require Import Reals.
From Verif Require Import Lin.
Local Open Scope R_scope.

(** The angle at p between two positions *)
Definition angle_at (p c1 c2 : vec) (theta : R) : Prop :=
  0 <= theta <= PI /\ 0 < norm (vsub c1 p) /\ 0 < norm (vsub c2 p) /\ dot (vsub c1 p) (vsub c2 p) = norm (vsub c1 p) * norm (vsub c2 p) * cos theta.
(** A track that helps the matching of two images: its point is seen from them at an angle of more than 3 and less than 30 degrees *)
Definition useful_track (points : gmap string vec) (c1 c2 : vec) (t : string) : Prop :=
  exists p theta, points !! t = Some p /\ angle_at p c1 c2 theta /\ 3 / 180 * PI < theta < 30 / 180 * PI.
(** [n] positions of a list have the property, and no more *)
Definition exactly {A} (n : nat) (P : A -> Prop) (l : list A) : Prop :=
  exists ks : list nat, NoDup ks /\ length ks = n /\ forall k, k ∈ ks <-> exists a, l !! k = Some a /\ P a.

Section Products.
Context {Raw Cln Pts : Type}.
Variable estimate : string -> option Raw.
Variable clean_views : list (string * Raw) -> Raw -> Cln.
Variable prune_views : list (string * Cln) -> Pts.
Variable neighbors : string -> list string.
Variable is_active : string -> Prop.
(** the products of the shots of a list that have one *)
Inductive gathers {A : Type} (product : string -> option A) : list string -> list (string * A) -> Prop :=
| gathers_nil : gathers product [] []
| gathers_none s l vs : product s = None -> gathers product l vs -> gathers product (s :: l) vs
| gathers_some s a l vs : product s = Some a -> gathers product l vs -> gathers product (s :: l) ((s, a) :: vs).
(** the products when all is done, from what the three steps compute: every active shot has the depth map that could be estimated; this map cleaned with those of its neighbours that have one; and the points of the clean maps of its neighbours *)
Definition finished (raw : string -> option Raw) (clean : string -> option Cln) (pruned : string -> option Pts) : Prop :=
  (forall s r, raw s = Some r <-> is_active s /\ estimate s = Some r) /\
  (forall s c, clean s = Some c <-> is_active s /\ exists r vs, raw s = Some r /\ gathers raw (neighbors s) vs /\ c = clean_views vs r) /\
  (forall s p, pruned s = Some p <-> is_active s /\ exists v vs, gathers clean (neighbors s) (v :: vs) /\ p = prune_views (v :: vs)).
End Products.

(** [o] is a neighbour of the image [s] that shares [k] useful tracks with it, more than 20; [common] are the tracks of [s] and each other image *)
Definition neighbour (shots : gset string) (origin : string -> vec) (points : gmap string vec) (s : string) (common : list (string * list string)) (o : string) (k : nat) : Prop :=
  exists tracks, (o, tracks) ∈ common /\ o ∈ shots /\ exactly k (useful_track points (origin s) (origin o)) tracks /\ (20 < k)%nat.
(** m splits the values of a list as a percentile does: more than q percent of the values, but one, are not above it, and more than the rest of them are not below it *)
Definition splits (l : list R) (q m : R) : Prop :=
  (exists ks : list nat, NoDup ks /\ q / 100 * (INR (length l) - 1) < INR (length ks) /\ forall k, k ∈ ks -> exists d, l !! k = Some d /\ d <= m) /\
  (exists ks : list nat, NoDup ks /\ (100 - q) / 100 * (INR (length l) - 1) < INR (length ks) /\ forall k, k ∈ ks -> exists d, l !! k = Some d /\ m <= d).

(** a cloud whose four arrays are as long, and its rows: the point, its normal, its color and its label *)
Definition aligned (c : list vec * list vec * list (Z * Z * Z) * list Z) : Prop :=
  let '(points, normals, colors, labels) := c in length normals = length points /\ length colors = length points /\ length labels = length points.
Definition rows (c : list vec * list vec * list (Z * Z * Z) * list Z) : list (vec * vec * (Z * Z * Z) * Z) :=
  let '(points, normals, colors, labels) := c in zip (zip (zip points normals) colors) labels.
