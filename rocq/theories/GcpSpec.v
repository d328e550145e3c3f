(** Specification of the ground control point files. *)
From Coq Require Import Reals Ascii.
From stdpp Require Import prelude gmap strings pretty.
From Verif Require Import Base TextModel PyText JsonModel PixelModel GcpModel.
Local Close Scope R_scope.

(** *** ground_control_points.json *)
(** A point can be saved if it has no position, or one with a latitude, a longitude and, if it claims one, an altitude. *)
Definition saveable (p : gcp R) : Prop :=
  gcp_lla p = ∅ \/ (is_Some (gcp_lla p !! "latitude") /\ is_Some (gcp_lla p !! "longitude") /\
    (gcp_has_altitude p = true -> is_Some (gcp_lla p !! "altitude"))).
(** [q] is what is left of [p] in the file: the id, the position (with the altitude only if it is known), and the
    observations in order, without unique ids; the survey point id and the role are those of a new point. *)
Record restored (role : gcp_role) (p q : gcp R) : Prop := {
  rst_id : gcp_id q = gcp_id p;
  rst_lat : gcp_lla q !! "latitude" = gcp_lla p !! "latitude";
  rst_lon : gcp_lla q !! "longitude" = gcp_lla p !! "longitude";
  rst_alt : gcp_lla q !! "altitude" = if gcp_has_altitude p then gcp_lla p !! "altitude" else None;
  rst_other : forall k, k <> "latitude" -> k <> "longitude" -> k <> "altitude" -> gcp_lla q !! k = None;
  rst_has : gcp_has_altitude q = true <-> is_Some (gcp_lla q !! "altitude");
  rst_obs : Forall2 (fun o r => go_shot r = go_shot o /\ go_projection r = go_projection o /\ go_uid r = 0%Z) (gcp_obs p) (gcp_obs q);
  rst_new : gcp_survey_point q = 0%Z /\ gcp_role_ q = role }.
(** A point with nothing that the file cannot hold *)
Definition plain (role : gcp_role) (p : gcp R) : Prop :=
  gcp_survey_point p = 0%Z /\ gcp_role_ p = role /\ Forall (fun o => go_uid o = 0%Z) (gcp_obs p) /\
  (gcp_has_altitude p = true <-> is_Some (gcp_lla p !! "altitude")) /\
  (forall k, is_Some (gcp_lla p !! k) -> k ∈ ["latitude"; "longitude"; "altitude"]).

(** *** gcp_list.txt *)
(** The contents of a line: x (east or longitude), y (north or latitude), altitude, pixel and image *)
Record row := Row { r_x : num; r_y : num; r_alt : num; r_px : num; r_py : num; r_shot : string }.
(** Lines that are blank or whose first character other than white space is # are comments. *)
Definition comment (line : string) : Prop := lstrip line = "" \/ exists rest, lstrip line = String "#" rest.
(** The first six words of the line; what follows is ignored. *)
Inductive line_row (parse_float : string -> res num) (line : string) : row -> Prop :=
  | LineRow wx wy wz wp wq shot more x y z px py :
      py_words line = wx :: wy :: wz :: wp :: wq :: shot :: more ->
      parse_float wx = Ok x -> parse_float wy = Ok y -> parse_float wz = Ok z -> parse_float wp = Ok px -> parse_float wq = Ok py ->
      line_row parse_float line (Row x y z px py shot).
(** The two lines give exactly the same position, and its three coordinates are numbers. *)
Definition same_place (r s : row) : Prop :=
  exists x y z, r_x r = Some x /\ r_x s = Some x /\ r_y r = Some y /\ r_y s = Some y /\ r_alt r = Some z /\ r_alt s = Some z.
Global Instance same_place_dec r s : Decision (same_place r s).
Proof.
  unfold same_place. destruct (r_x r) as [x|], (r_y r) as [y|], (r_alt r) as [z|], (r_x s) as [x'|], (r_y s) as [y'|], (r_alt s) as [z'|];
    try (right; intros (? & ? & ? & ?); naive_solver; fail).
  destruct (Req_EM_T x x') as [-> |?], (Req_EM_T y y') as [-> |?], (Req_EM_T z z') as [-> |?]; try (right; intros (? & ? & ? & ?); naive_solver; fail).
  left. by exists x', y', z'.
Defined.
(** Line j is the first of its place. *)
Definition first_of_place (rows : list row) (j : nat) : Prop :=
  match rows !! j with Some r => Forall (fun s => ~ same_place s r) (take j rows) | None => False end.
Global Instance first_of_place_dec rows j : Decision (first_of_place rows j).
Proof. unfold first_of_place. destruct (rows !! j); apply _. Defined.
Definition places (rows : list row) : list nat := filter (first_of_place rows) (seq 0 (length rows)).
(** The point of the place first seen at line j, the i-th place *)
Record point_of (exifs : gmap string (Z * Z)) (to_lat_lon : num -> num -> num * num) (role : gcp_role) (rows : list row) (i j : nat) (p : gcp num) : Prop := {
  po_id : gcp_id p = "unnamed-" +:+ pretty (Z.of_nat i);
  po_pos : exists r, rows !! j = Some r /\
    gcp_lla p !! "latitude" = Some (to_lat_lon (r_x r) (r_y r)).1 /\ gcp_lla p !! "longitude" = Some (to_lat_lon (r_x r) (r_y r)).2 /\
    (forall a, r_alt r = Some a -> gcp_has_altitude p = true /\ gcp_lla p !! "altitude" = Some (Some a)) /\
    (r_alt r = None -> gcp_has_altitude p = false);
  (** one observation for the line, and for each later line of the same place, in the order of the file *)
  po_obs : exists r, rows !! j = Some r /\
    Forall2 (fun s o => go_shot o = r_shot s /\ exists w h, exifs !! r_shot s = Some (w, h) /\ forall x y, r_px s = Some x -> r_py s = Some y ->
        go_projection o = (Some (normalized_image_coordinates (x, y) w h).1, Some (normalized_image_coordinates (x, y) w h).2))
      (r :: filter (same_place r) (drop (S j) rows)) (gcp_obs p) }.
Global Instance comment_dec line : Decision (comment line).
Proof.
  unfold comment. destruct (lstrip line) as [|a s]; [left; by left|]. destruct (decide (a = "#"%char)) as [-> |H]; [left; right; by exists s|right; intros [?|[? ?]]; congruence].
Defined.
(** The coordinates of a file: longitude and latitude, or those of a projection *)
Definition lat_lon (transform : crs -> num -> num -> num * num) (c : option crs) (x y : num) : num * num :=
  match c with Some c => transform c x y | None => (y, x) end.
