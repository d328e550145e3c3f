(** What a camera without a known calibration should be. Independent of the code of the calibration. *)
From Coq Require Import Reals QArith Qcanon Qreals.
From stdpp Require Import prelude strings gmap numbers.
From Verif Require Import Base PyText JsonModel CamModel ExifModel CalibModel.
Local Open Scope string_scope.

(** The names of the projection types (in the documentation: geometric models); "dual" is apart *)
Definition plain_types : list (string * ptype) :=
  [("perspective", PERSPECTIVE); ("brown", BROWN); ("fisheye", FISHEYE); ("fisheye_opencv", FISHEYE_OPENCV); ("fisheye62", FISHEYE62);
   ("fisheye624", FISHEYE624); ("radial", RADIAL); ("simple_radial", SIMPLE_RADIAL); ("spherical", SPHERICAL); ("equirectangular", SPHERICAL)].
(** The types whose principal point and two focal lengths are parameters *)
Definition has_centre (t : ptype) : bool :=
  match t with BROWN | FISHEYE_OPENCV | FISHEYE62 | FISHEYE624 | RADIAL | SIMPLE_RADIAL => true | _ => false end.
(** The parameters of each type *)
Definition parameters_of (t : ptype) : list param :=
  match t with
  | PERSPECTIVE | FISHEYE => [K1; K2; Focal]
  | BROWN => [K1; K2; K3; P1; P2; Focal; AspectRatio; Cx; Cy]
  | FISHEYE_OPENCV => [K1; K2; K3; K4; Focal; AspectRatio; Cx; Cy]
  | FISHEYE62 => [K1; K2; K3; K4; K5; K6; P1; P2; Focal; AspectRatio; Cx; Cy]
  | FISHEYE624 => [K1; K2; K3; K4; K5; K6; P1; P2; S0; S1; S2; S3; Focal; AspectRatio; Cx; Cy]
  | RADIAL => [K1; K2; Focal; AspectRatio; Cx; Cy]
  | SIMPLE_RADIAL => [K1; Focal; AspectRatio; Cx; Cy]
  | DUAL => [Transition; K1; K2; Focal]
  | SPHERICAL => []
  end.
(** The camera has the name and size of the image, the type [t], the focal length [f], the principal point [(cx, cy)], square pixels
    and no distortion *)
Definition plain_value (f cx cy : Qc) (p : param) : R :=
  match p with Focal => real f | AspectRatio => 1%R | Cx => real cx | Cy => real cy | _ => 0%R end.
Definition plain_camera (md : metadata) (t : ptype) (f cx cy : Qc) (c : camera) : Prop :=
  cam_id c = md_camera md /\ cam_width c = md_width md /\ cam_height c = md_height md /\ cam_type c = t /\
  forall p, p ∈ parameters_of t -> get_param c p = Ok (plain_value f cx cy p).
(** The focal length: the one of the metadata, the prior if it is not known (0). A focal_x in the metadata has precedence for the types
    with two focal lengths. *)
Definition known_focal (prior : Qc) (md : metadata) (t : ptype) : Qc :=
  let f := if has_centre t then default (md_focal_ratio md) (md_focal_x md) else md_focal_ratio md in
  if decide (f = qc 0) then prior else f.
(** The principal point: of the metadata if the focal length is known, for the types that have one *)
Definition known_centre (md : metadata) (x : option Qc) : Qc :=
  if decide (default (md_focal_ratio md) (md_focal_x md) = qc 0) then qc 0 else default (qc 0) x.

(** The table may have an entry for the image: one for all models of its make, one for its model, or, without a list of models, one by
    focal length *)
Definition hard_coded (T : table) (md : metadata) : Prop :=
  exists m, T !! lower (strip (md_make md)) = Some m /\
    (is_Some (m_all m) \/ (exists t, m_model m = Some t /\ is_Some (t !! lower (strip (md_model md)))) \/ (m_model m = None /\ is_Some (m_focal m))).
(** The first image with the camera name [id] *)
Definition first_with (images : list metadata) (id : string) (md : metadata) : Prop :=
  exists l l', images = (l ++ md :: l')%list /\ md_camera md = id /\ forall md', md' ∈ l -> md_camera md' <> id.
(** Every entry of the table says its projection type *)
Definition kinds_known (T : table) : Prop :=
  forall make m s e, T !! make = Some m -> slot_entry m s = Some e -> is_Some (kind e).
