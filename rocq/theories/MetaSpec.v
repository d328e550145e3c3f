(** Specification of what the metadata of an image say about its camera. The world has x to the east, y to the north, z up. *)
From Coq Require Import Reals.
From stdpp Require Import prelude gmap strings.
From Verif Require Import Base Lin AnglesSpec GeoModel GeoSpec MetaModel.
Local Open Scope R_scope.

(** The latitude and longitude of the image, if it has them *)
Definition place (e : exif) : option (R * R) := match ex_gps e with Some g => gp_latlon g | None => None end.
(** The altitude of the camera: what the GPS says, but at most 10 km; 2 metres if it says nothing or is not to be used *)
Definition is_altitude (use_altitude : bool) (e : exif) (alt : R) : Prop :=
  match use_altitude, (g ← ex_gps e; gp_altitude g) with
  | true, Some a => (a <= 10000 -> alt = a) /\ (10000 < a -> alt = 10000)
  | _, _ => alt = 2
  end.
(** The three angles, if it has them *)
Definition angles (e : exif) : option (R * R * R) := match ex_opk e with Some o => op_angles o | None => None end.
(** Where the world's up is in the image: against gravity, else to the top of the upright picture (an orientation that is missing or is not
    one of EXIF's is an upright picture) *)
Definition up_in_image (e : exif) : vec :=
  match ex_gravity_down e with
  | Some g => vopp g
  | None => match exif_sides (default 1%Z (ex_orientation e)) with Some (rows, columns) => up_of rows columns | None => Vec 0 (-1) 0 end
  end.
(** The azimuth in degrees, north if there is no compass *)
Definition azimuth (e : exif) : R := match ex_compass e with Some c => default 0 (co_angle c) | None => 0 end.
(** The camera has the three angles, or else the image is upright and the camera looks to the azimuth (unless it looks straight up or down) *)
Definition oriented (e : exif) (m : mat) : Prop :=
  rotation m /\
  match angles e with
  | Some (w, p, k) => has_opk m (radians w) (radians p) (radians k)
  | None =>
      let up := up_in_image e in
      mvec m (Vec 0 0 1) = vscale (/ norm up) up /\
      (vx up <> 0 \/ vy up <> 0 ->
       exists h, 0 < h /\ vx (forward_axis m) = h * sin (radians (azimuth e)) /\ vy (forward_axis m) = h * cos (radians (azimuth e)))
  end.
(** The angles that OpenCV does not take for zero; a gravity that is not zero, and is along the optical axis exactly or not within 10^-8 *)
Definition usable (e : exif) : Prop :=
  (match ex_compass e with Some c => co_angle c <> None | None => True end) /\
  match angles e with
  | Some (w, p, k) => not_tiny (radians w) /\ not_tiny (radians p) /\ not_tiny (radians k)
  | None =>
      not_tiny (radians (azimuth e)) /\
      match ex_gravity_down e with
      | Some g => g <> v0 /\ ((vx g = 0 /\ vy g = 0) \/ 1 / 10 ^ 8 < norm (vsub (Vec 0 0 1) (vscale (vz g / (norm g * norm g)) g)))
      | None => True
      end
  end.
(** The rig instance and the rig camera of an image: those of the assignments, else its own and that of its camera *)
Definition rig_of (rigs : gmap string (string * string * list string)) (image : string) (e : exif) : string * string :=
  match rigs !! image with Some (i, c, _) => (i, c) | None => (image, ex_camera e) end.
Definition named (rigs : gmap string (string * string * list string)) (image : string) (e : exif) : Prop :=
  (rig_of rigs image e).1 <> "" /\ (rig_of rigs image e).2 <> "".
