(** Specification of PLY files: the part of the ASCII PLY format that is used. *)
From Coq Require Import Reals.
From stdpp Require Import prelude strings pretty.
From Verif Require Import Base TextModel PyText Lin PoseModel PlyModel.
Local Close Scope R_scope.

(** A header that announces one element, the vertices, and their properties; after it, one line for each vertex, with one
    value for each property. *)
Definition well_formed_ply (text : string) : Prop :=
  exists (properties body : list string),
    getlines NL text = ["ply"; "format ascii 1.0"; "element vertex " +:+ pretty (Z.of_nat (length body))] ++ properties ++ ["end_header"] ++ body /\
    Forall (fun l => exists type name, py_words l = ["property"; type; name]) properties /\
    Forall (fun l => length (py_words l) = length properties) body.
(** The vertices of a file *)
Inductive body_of : list string -> list string -> Prop :=
  | BodyHere l : body_of ("end_header" :: l) l
  | BodyNext x l b : x <> "end_header" -> body_of l b -> body_of (x :: l) b.

(** The values of a landmark's vertex *)
Definition point_values (fmt : R -> string) (p : ply_point) : list string :=
  [fmt (vx (pp_xyz p)); fmt (vy (pp_xyz p)); fmt (vz (pp_xyz p)); pretty (pp_color p).1.1; pretty (pp_color p).1.2; pretty (pp_color p).2].
(** The unit vectors of a camera: x red, y green, z blue *)
Definition axes : list (vec * (Z * Z * Z)) := [(Vec 1 0 0, (255, 0, 0)%Z); (Vec 0 1 0, (0, 255, 0)%Z); (Vec 0 0 1, (0, 0, 255)%Z)].
(** The points drawn for a camera, in the coordinates of the camera: 10 on each axis, from 0 to 2 *)
Definition camera_points : list (vec * (Z * Z * Z)) :=
  concat (map (fun a : vec * (Z * Z * Z) => map (fun i => (vscale (2 * INR i / 9) a.1, a.2)) (seq 0 10)) axes).
Definition camera_values (fmt : R -> string) (p : pose) (a : vec * (Z * Z * Z)) : list string :=
  let x := transform_inverse p a.1 in
  [fmt (vx x); fmt (vy x); fmt (vz x); pretty a.2.1.1; pretty a.2.1.2; pretty a.2.2].
