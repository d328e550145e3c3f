(** Model of how cameras are made from the metadata of images: /repo/opensfm/exif.py:635-862 (hard_coded_calibration to
    camera_from_exif_metadata), /repo/opensfm/sensors.py:18-22 and the loop over images of /repo/opensfm/actions/extract_metadata.py:15-49.

    The table of hard-coded calibrations is cached by lru_cache, and calibration_from_metadata writes into the entry it finds: the table
    is a state. Numbers are exact rationals. *)
From Coq Require Import Reals QArith Qcanon Qreals.
From stdpp Require Import prelude strings gmap numbers.
From Verif Require Import Base PyText JsonModel CamModel ExifModel CaptureModel.
Local Open Scope string_scope.
Local Open Scope list_scope.
Local Close Scope R_scope.
Local Close Scope Q_scope.

(** A dictionary of a calibration: numbers by name, and the projection type *)
Record entry := Entry { numbers : gmap string Qc; kind : option string }.
(** The entries of a make: under "ALL", "MODEL" and "FOCAL" (integers) *)
Record models := Models { m_all : option entry; m_model : option (gmap string entry); m_focal : option (gmap Z entry) }.
(** sensors.py:18-22 *)
Notation table := (gmap string models).

(** The dictionary of an image: written by EXIF.extract_exif (exif.py:609-633, always with these keys) and changed by overrides, which may
    also set focal_x, c_x and c_y *)
Record metadata := Metadata {
  md_camera : string; md_make : string; md_model : string; md_width : Z; md_height : Z;
  md_projection : option string; md_focal_ratio : Qc; md_focal_x : option Qc; md_cx : option Qc; md_cy : option Qc }.

(** Where an entry is *)
Inductive slot := SAll | SModel (m : string) | SFocal (f : Z).
Definition slot_entry (m : models) (s : slot) : option entry :=
  match s with
  | SAll => m_all m
  | SModel x => t ← m_model m; t !! x
  | SFocal f => t ← m_focal m; t !! f
  end.
Definition slot_write (m : models) (s : slot) (e : entry) : models :=
  match s with
  | SAll => Models (Some e) (m_model m) (m_focal m)
  | SModel x => Models (m_all m) (<[x := e]> <$> m_model m) (m_focal m)
  | SFocal f => Models (m_all m) (m_model m) (<[f := e]> <$> m_focal m)
  end.
(** exif.py:645-656: where it is looked for *)
Definition find_slot (m : models) (model : string) (fmm35 : Z) : option slot :=
  match m_all m, m_model m, m_focal m with
  | Some _, _, _ => Some SAll
  | None, Some t, _ => match t !! model with Some _ => Some (SModel model) | None => None end
  | None, None, Some t => match t !! fmm35 with Some _ => Some (SFocal fmm35) | None => None end
  | None, None, None => None
  end.
(** int(round(focal * 36.0)) *)
Definition focal_35mm (focal : Qc) : Z := round_half_even (Qnum (this focal) * 36) (Zpos (Qden (this focal))).
(** exif.py:635-657: the make, the place and the entry *)
Definition hard_coded_calibration (T : table) (md : metadata) : option (string * slot * entry) :=
  let make := lower (strip (md_make md)) in
  m ← T !! make;
  s ← find_slot m (lower (strip (md_model md))) (focal_35mm (md_focal_ratio md));
  e ← slot_entry m s;
  Some (make, s, e).
Definition write_entry (T : table) (make : string) (s : slot) (e : entry) : table :=
  match T !! make with Some m => <[make := slot_write m s e]> T | None => T end.
(** Python's truth of a dictionary *)
Definition nonempty (e : entry) : bool := bool_decide (numbers e <> ∅) || bool_decide (is_Some (kind e)).

(** exif.py:660-669 *)
Definition focal_ratio_calibration (md : metadata) : option entry :=
  let f := md_focal_ratio md in
  if decide (f = qc 0) then None else
  Some (Entry (list_to_map [("focal", f); ("k1", qc 0); ("k2", qc 0); ("p1", qc 0); ("p2", qc 0); ("k3", qc 0)]) None).
(** exif.py:672-692 *)
Definition zeros : list (string * Qc) :=
  (fun k => (k, qc 0)) <$> ["k1"; "k2"; "p1"; "p2"; "k3"; "k4"; "k5"; "k6"; "s0"; "s1"; "s2"; "s3"].
Definition focal_xy_calibration (md : metadata) : option entry :=
  let f := default (md_focal_ratio md) (md_focal_x md) in
  if decide (f = qc 0) then None else
  Some (Entry (list_to_map ([("focal_x", f); ("focal_y", f); ("c_x", default (qc 0) (md_cx md)); ("c_y", default (qc 0) (md_cy md))] ++ zeros)) None).
(** exif.py:695-714 *)
Definition default_calibration (prior : Qc) : entry :=
  Entry (list_to_map ([("focal", prior); ("focal_x", prior); ("focal_y", prior); ("c_x", qc 0); ("c_y", qc 0)] ++ zeros)) None.
(** exif.py:722-729 *)
Definition uses_focal_xy (pt : string) : bool :=
  bool_decide (pt ∈ ["brown"; "fisheye_opencv"; "radial"; "simple_radial"; "fisheye62"; "fisheye624"]).
(** exif.py:715-742: the calibration, and the table afterwards *)
Definition calibration_from_metadata (prior : Qc) (T : table) (md : metadata) : entry * table :=
  let pt := lower (default "perspective" (md_projection md)) in
  let with_kind e := Entry (numbers e) (Some (default pt (kind e))) in
  match hard_coded_calibration T md with
  | Some (make, s, e) =>
      if nonempty e then (with_kind e, if kind e then T else write_entry T make s (with_kind e))
      else (with_kind (default (default_calibration prior) (if uses_focal_xy pt then focal_xy_calibration md else focal_ratio_calibration md)), T)
  | None => (with_kind (default (default_calibration prior) (if uses_focal_xy pt then focal_xy_calibration md else focal_ratio_calibration md)), T)
  end.

Definition real (q : Qc) : R := Q2R (this q).
(** [calib[key]] *)
Definition num (e : entry) (key : string) : res R := of_option KeyError (real <$> numbers e !! key).
(** The arguments [calib["focal_x"], calib["focal_y"] / calib["focal_x"], np.array([c_x, c_y])] *)
Definition focal_xy (e : entry) : res (R * R * (R * R)) :=
  try fx := num e "focal_x" in try fy := num e "focal_y" in
  try aspect := py_div fy fx in
  try cx := num e "c_x" in try cy := num e "c_y" in Ok (fx, aspect, (cx, cy)).
(** exif.py:758-856 *)
Definition camera_from_calibration (e : entry) : res camera :=
  let pt := lower (default "perspective" (kind e)) in
  if decide (pt = "perspective") then
    try f := num e "focal" in try k1 := num e "k1" in try k2 := num e "k2" in Ok (create_perspective f k1 k2)
  else if decide (pt = "brown") then
    try (f, a, pp) := focal_xy e in try ds := mapR (num e) ["k1"; "k2"; "k3"; "p1"; "p2"] in create_brown f a pp ds
  else if decide (pt = "fisheye") then
    try f := num e "focal" in try k1 := num e "k1" in try k2 := num e "k2" in Ok (create_fisheye f k1 k2)
  else if decide (pt = "fisheye_opencv") then
    try (f, a, pp) := focal_xy e in try ds := mapR (num e) ["k1"; "k2"; "k3"; "k4"] in create_fisheye_opencv f a pp ds
  else if decide (pt = "fisheye62") then
    try (f, a, pp) := focal_xy e in try ds := mapR (num e) ["k1"; "k2"; "k3"; "k4"; "k5"; "k6"; "p1"; "p2"] in create_fisheye62 f a pp ds
  else if decide (pt = "fisheye624") then
    try (f, a, pp) := focal_xy e in
    try ds := mapR (num e) ["k1"; "k2"; "k3"; "k4"; "k5"; "k6"; "p1"; "p2"; "s0"; "s1"; "s2"; "s3"] in create_fisheye624 f a pp ds
  else if decide (pt = "radial") then
    try (f, a, pp) := focal_xy e in try k1 := num e "k1" in try k2 := num e "k2" in Ok (create_radial f a pp (k1, k2))
  else if decide (pt = "simple_radial") then
    try (f, a, pp) := focal_xy e in try k1 := num e "k1" in Ok (create_simple_radial f a pp k1)
  else if decide (pt = "dual") then
    try t := num e "transition" in try f := num e "focal" in try k1 := num e "k1" in try k2 := num e "k2" in Ok (create_dual t f k1 k2)
  else if is_panorama pt then Ok create_spherical
  else Err ValueError.
(** exif.py:745-862 *)
Definition camera_from_exif_metadata (prior : Qc) (T : table) (md : metadata) : res camera * table :=
  let '(calib, T') := calibration_from_metadata prior T md in
  (try c := camera_from_calibration calib in
   Ok (Camera (md_camera md) (md_width md) (md_height md) (cam_type c) (cam_params c) (cam_values c)), T').

(** actions/extract_metadata.py:22-38: the images with their metadata (extracted, or read from the files of a former run) *)
Fixpoint make_cameras (prior : Qc) (T : table) (images : list metadata) (cams : gmap string camera) : res (gmap string camera) :=
  match images with
  | [] => Ok cams
  | md :: l =>
      match cams !! md_camera md with
      | Some _ => make_cameras prior T l cams
      | None => let '(c, T') := camera_from_exif_metadata prior T md in
                try c := c in make_cameras prior T' l (<[md_camera md := c]> cams)
      end
  end.
Definition with_id (c : camera) (id : string) : camera := Camera id (cam_width c) (cam_height c) (cam_type c) (cam_params c) (cam_values c).
(** extract_metadata.py:40-48 *)
Definition override_cameras (overrides : gmap string camera) (cams : gmap string camera) : gmap string camera :=
  match overrides !! "all" with
  | Some c => map_imap (fun id _ => Some (with_id c id)) cams
  | None => overrides ∪ cams
  end.
(** extract_metadata.py:15-49: what is written to camera_models.json *)
Definition extract_cameras (prior : Qc) (T : table) (images : list metadata) (overrides : option (gmap string camera)) : res (gmap string camera) :=
  try cams := make_cameras prior T images ∅ in
  Ok (match overrides with Some o => override_cameras o cams | None => cams end).

(** ** The shipped table (/repo/opensfm/data/camera_calibration.yaml:1-101); of the makes with one form of entry, some *)
Definition frac (n d : Z) : Qc := (qc n / qc d)%Qc.
Definition flat (f k1 k2 : Qc) : entry := Entry (list_to_map [("focal", f); ("k1", k1); ("k2", k2)]) None.
(** camera_calibration.yaml:2-26 *)
Definition gopro : models :=
  Models None
    (Some {["hero8 black" := Entry (list_to_map [("focal_x", frac 47720253548498875 100000000000000000); ("focal_y", frac 4776476227437118 10000000000000000);
       ("k1", frac (-4417272934201867) 1000000000000000000); ("k2", frac 26456102958567146 10000000000000000000);
       ("c_x", frac (-17664444590190724) 10000000000000000000); ("c_y", frac 6393052002726844 1000000000000000000);
       ("p1", qc 0); ("p2", qc 0); ("k3", qc 0)]) (Some "brown")]})
    (Some (list_to_map [(20%Z, flat (frac 625 1000) (frac (-37) 100) (frac 28 100)); (15%Z, flat (frac 466 1000) (frac (-195) 1000) (frac 30 1000));
       (23%Z, flat (frac 71875 100000) (frac (-38) 100) (frac 24 100)); (16%Z, flat (frac 5 10) (frac (-39) 100) (frac 22 100))])).
(** camera_calibration.yaml:42-44 *)
Definition xiaoyi : models := Models (Some (flat (frac 5 10) (frac (-19) 100) (frac 28 1000))) None None.
(** camera_calibration.yaml:59-63 *)
Definition parrot : models :=
  Models None (Some {["Bebop 2" := Entry {["focal" := frac 36666666666666666 100000000000000000]} (Some "fisheye")]}) None.
(** Part of camera_calibration.yaml:1-101 *)
Definition shipped : table := list_to_map [("gopro", gopro); ("xiaoyi", xiaoyi); ("PARROT", parrot)].
