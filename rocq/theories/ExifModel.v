(** Model of the metadata read from an image file: /repo/opensfm/exif.py (tags, position, size, camera name, focal length), and of
    the measurements and the reference made from it (reconstruction_helpers.py:125-186, dataset.py:991-1028).

    The tags of a file (exifread.process_file) and its XMP blocks (get_xmp, xmltodict) are inputs. Numbers are exact rationals: floating point
    rounding is not modelled. Python's float(str) and str(float) are parameters. *)
From stdpp Require Import prelude strings pretty numbers gmap.
From Coq Require Import Ascii QArith Qcanon.
From Verif Require Import Base TextModel PyText GcpModel.
Local Open Scope string_scope.
Local Open Scope list_scope.

(** The values of an EXIF tag: integers and ratios; the characters of a text tag *)
Inductive value := VInt (z : Z) | VRatio (num den : Z) | VChar (a : ascii).
(** What [tags[key].values] can be: a text, raw bytes (with their UTF-8 decoding, if they have one), or a list of values *)
Inductive tag := TText (s : string) | TBytes (decoded : option string) | TValues (l : list value).
Notation tags := (gmap string tag).
(** An XMP block: attributes and children, as xmltodict names them. Only text values. *)
Notation xmp_block := (gmap string string).

(** [values[i]]. Raw bytes are not indexed in this model (TypeError). *)
Definition index (t : tag) (i : nat) : res value :=
  match t with
  | TText s => of_option IndexError (VChar <$> list_ascii_of_string s !! i)
  | TBytes _ => Err TypeError
  | TValues l => of_option IndexError (l !! i)
  end.

Definition qc (z : Z) : Qc := Qc_of_Z z.
(** exif.py:21 *)
Definition maximum_altitude : Qc := qc 10000.

(** exif.py:24-31 *)
Definition eval_frac (num den : Z) : option Qc := if decide (den = 0%Z) then None else Some (qc num / qc den)%Qc.
(** [value.num], [value.den]: the AttributeError of the other values is shown as a TypeError *)
Definition eval_frac_value (v : value) : res (option Qc) :=
  match v with VRatio n d => Ok (eval_frac n d) | _ => Err TypeError end.

(** exif.py:37: [reference in "NE"], which is true of the four substrings; the reference is the value of a tag *)
Definition in_NE (reference : tag) : res bool :=
  match reference with TText s => Ok (bool_decide (s ∈ [""; "N"; "E"; "NE"])) | _ => Err TypeError end.
(** exif.py:34-43 *)
Definition gps_to_decimal (values : tag) (reference : tag) : res (option Qc) :=
  try positive := in_NE reference in
  try v0 := index values 0 in try degrees := eval_frac_value v0 in
  try v1 := index values 1 in try minutes := eval_frac_value v1 in
  try v2 := index values 2 in try seconds := eval_frac_value v2 in
  match degrees, minutes, seconds with
  | Some d, Some m, Some s => Ok (Some ((if positive then qc 1 else qc (-1)) * (d + m / qc 60 + s / qc 3600))%Qc)
  | _, _, _ => Ok None
  end.

Definition digit_value (a : ascii) : option Z :=
  let n := N_of_ascii a in if decide (48 <= n <= 57)%N then Some (Z.of_N (n - 48)) else None.
(** exif.py:46-59 (the log is not modelled) *)
Definition get_tag_as_float (t : tags) (key : string) (i : nat) : res (option Qc) :=
  match t !! key with
  | None => Ok None
  | Some v =>
      try x := index v i in
      match x with
      | VRatio n d => Ok (eval_frac n d)
      | VInt z => Ok (Some (qc z))
      | VChar a => of_option ValueError (Some <$> (qc <$> digit_value a))
      end
  end.

(** exif.py:293-302: [(reflon, reflat)] *)
Definition extract_ref_lon_lat (t : tags) : tag * tag :=
  (default (TText "E") (t !! "GPS GPSLongitudeRef"), default (TText "N") (t !! "GPS GPSLatitudeRef")).

Section Parse.
(** Python's float(str): None stands for the ValueError; infinities and nan are not modelled *)
Context (parse_float : string -> option Qc).

(** [float(x[1:])], then the sign of [x[0]] (exif.py:304-311) *)
Definition dji_number (x : string) : res Qc :=
  try n := of_option ValueError (parse_float (match x with "" => "" | String _ r => r end)) in
  match x with
  | "" => Err IndexError
  | String c _ => Ok (if decide (c = "+"%char) then n else (- n)%Qc)
  end.
(** exif.py:304-311. Python converts both numbers before it looks at the signs: only the kind of error can differ, and both are not caught. *)
Definition extract_dji_lon_lat (x : xmp_block) : res (Qc * Qc) :=
  try lon := of_option KeyError (x !! "@drone-dji:Longitude") in
  try lat := of_option KeyError (x !! "@drone-dji:Latitude") in
  try lon_number := dji_number lon in
  try lat_number := dji_number lat in
  Ok (lon_number, lat_number).
(** exif.py:316-326 *)
Definition has_dji_latlon (xmp : list xmp_block) : bool :=
  match xmp with x :: _ => bool_decide (is_Some (x !! "@drone-dji:Latitude") /\ is_Some (x !! "@drone-dji:Longitude")) | [] => false end.
(** exif.py:328-337: [(lon, lat)] *)
Definition extract_lon_lat (t : tags) (xmp : list xmp_block) : res (option Qc * option Qc) :=
  if has_dji_latlon xmp then
    match xmp with x :: _ => try p := extract_dji_lon_lat x in Ok (Some p.1, Some p.2) | [] => Err IndexError end
  else match t !! "GPS GPSLatitude" with
       | Some latitude =>
           let '(reflon, reflat) := extract_ref_lon_lat t in
           try lat := gps_to_decimal latitude reflat in
           try longitude := of_option KeyError (t !! "GPS GPSLongitude") in
           try lon := gps_to_decimal longitude reflon in
           Ok (lon, lat)
       | None => Ok (None, None)
       end.
(** exif.py:325-326 *)
Definition has_dji_altitude (xmp : list xmp_block) : bool :=
  match xmp with x :: _ => bool_decide (is_Some (x !! "@drone-dji:AbsoluteAltitude")) | [] => false end.
(** [tags["GPS GPSAltitudeRef"].values[0] == 1] *)
Definition below_sea_level (t : tags) : res bool :=
  match t !! "GPS GPSAltitudeRef" with
  | None => Ok false
  | Some r => try v := index r 0 in
              Ok match v with VInt z => bool_decide (z = 1%Z) | VRatio n d => bool_decide (n = 1 /\ d = 1)%Z | VChar _ => false end
  end.
(** exif.py:339-362 *)
Definition extract_altitude (t : tags) (xmp : list xmp_block) : res (option Qc) :=
  if has_dji_altitude xmp then
    match xmp with
    | x :: _ => try s := of_option KeyError (x !! "@drone-dji:AbsoluteAltitude") in try a := of_option ValueError (parse_float s) in Ok (Some a)
    | [] => Err IndexError
    end
  else match t !! "GPS GPSAltitude" with
       | Some v =>
           try x := index v 0 in
           let altitude := match x with VRatio n d => eval_frac n d | VInt z => Some (qc z) | VChar _ => None end in
           try below := below_sea_level t in
           Ok (if below then Qcopp <$> altitude else altitude)
       | None => Ok None
       end.
(** exif.py:364-367 *)
Definition extract_dop (t : tags) : res (option Qc) :=
  match t !! "GPS GPSDOP" with Some v => try x := index v 0 in eval_frac_value x | None => Ok None end.

Definition qc_min (a b : Qc) : Qc := if decide (a <= b)%Qc then a else b.
Definition qc_max (a b : Qc) : Qc := if decide (a <= b)%Qc then b else a.

(** The dictionary of extract_geo: latitude and longitude are set together *)
Record gps := Gps { gps_latlon : option (Qc * Qc); gps_altitude : option Qc; gps_dop : option Qc }.
(** exif.py:369-383 *)
Definition extract_geo (t : tags) (xmp : list xmp_block) : res gps :=
  try altitude := extract_altitude t xmp in
  try dop := extract_dop t in
  try (lon, lat) := extract_lon_lat t xmp in
  Ok (Gps (match lon, lat with Some lo, Some la => Some (la, lo) | _, _ => None end)
          (qc_min maximum_altitude <$> altitude) dop).
End Parse.

(** ** Image size, camera name and focal length *)

(** [int(values[0])] *)
Definition int_value (v : tag) : res Z :=
  try x := index v 0 in
  match x with
  | VInt z => Ok z
  | VRatio n d => if decide (d = 0%Z) then Err ZeroDivisionError else Ok (Z.quot n d)
  | VChar a => of_option ValueError (digit_value a)
  end.
(** exif.py:186-212: [(width, height)]; [loaded] is the [(height, width)] of image_size_loader *)
Definition extract_image_size (t : tags) (use_exif_size : bool) (loaded : Z * Z) : res (Z * Z) :=
  match t !! "EXIF ExifImageWidth", t !! "EXIF ExifImageLength", t !! "Image ImageWidth", t !! "Image ImageLength", use_exif_size with
  | Some w, Some h, _, _, true => try w := int_value w in try h := int_value h in Ok (w, h)
  | _, _, Some w, Some h, true => try w := int_value w in try h := int_value h in Ok (w, h)
  | _, _, _, _, _ => Ok (loaded.2, loaded.1)
  end.

(** exif.py:214-223 *)
Definition decode_make_model (v : tag) : res string :=
  match v with TBytes (Some s) => Ok s | TBytes None => Ok "unknown" | TText s => Ok s | TValues _ => Err AssertionError end.
(** exif.py:225-233 *)
Definition extract_make (t : tags) : res string :=
  match t !! "EXIF LensMake", t !! "Image Make" with
  | Some v, _ => decode_make_model v
  | None, Some v => decode_make_model v
  | None, None => Ok "unknown"
  end.
(** exif.py:235-242 *)
Definition extract_model (t : tags) : res string :=
  match t !! "EXIF LensModel", t !! "Image Model" with
  | Some v, _ => decode_make_model v
  | None, Some v => decode_make_model v
  | None, None => Ok "unknown"
  end.
(** exif.py:164-169: the first block with a key that contains GPano *)
Definition get_gpano_from_xmp (xmp : list xmp_block) : xmp_block :=
  match list_find (fun b : xmp_block => Exists (fun k => contains "GPano" k = true) (map_to_list b).*1) xmp with Some (_, b) => b | None => ∅ end.
(** exif.py:244-246 *)
Definition extract_projection_type (xmp : list xmp_block) : string :=
  default "perspective" (get_gpano_from_xmp xmp !! "GPano:ProjectionType").

(** [s.replace(old, new)] for a non-empty [old], new = "": the leftmost occurrences are removed, without overlap. [skip]
    characters of an occurrence remain to be dropped. *)
Fixpoint remove_all (old : string) (skip : nat) (s : string) : string :=
  match s with
  | "" => ""
  | String a r =>
      match skip with
      | S k => remove_all old k r
      | O => if starts_with old s then remove_all old (String.length old - 1) r else String a (remove_all old 0 r)
      end
  end.
(** [model.replace(make, "")]; replacing the empty text by itself changes nothing *)
Definition replace_with_empty (s old : string) : string := match old with "" => s | _ => remove_all old 0 s end.
(** exif.py:86-90 *)
Definition sensor_string (make model : string) : string :=
  let model := if decide (make <> "unknown") then replace_with_empty model make else model in
  lower (strip (strip make +:+ " " +:+ strip model)).

Section Names.
(** Python's str(float) *)
Context (str_float : Qc -> string).
Fixpoint str_take (n : nat) (s : string) : string :=
  match n, s with S n', String a r => String a (str_take n' r) | _, _ => "" end.
(** exif.py:104-120; [int(width)] and [int(height)] of integers *)
Definition camera_id (make model : string) (width height : Z) (projection_type : string) (focal : Qc) : string :=
  let model := if decide (make <> "unknown") then replace_with_empty model make else model in
  lower (join " " ["v2"; strip make; strip model; pretty width; pretty height; projection_type; str_take 6 (str_float focal)]).
End Names.

(** exif.py:17-20, 284-307 *)
Definition get_mm_per_unit (resolution_unit : Z) : option Qc :=
  if decide (resolution_unit = 2)%Z then Some (qc 254 / qc 10)%Qc
  else if decide (resolution_unit = 3)%Z then Some (qc 10)
  else if decide (resolution_unit = 4)%Z then Some (qc 1)
  else if decide (resolution_unit = 5)%Z then Some (qc 1 / qc 1000)%Qc
  else None.
(** exif.py:259-282. The unit is an integer (as in the EXIF standard); another kind of value is not one of the units. *)
Definition extract_sensor_width (t : tags) (use_exif_size : bool) (loaded : Z * Z) : res (option Qc) :=
  match t !! "EXIF FocalPlaneResolutionUnit", t !! "EXIF FocalPlaneXResolution" with
  | Some u, Some _ =>
      try unit := index u 0 in
      match (match unit with VInt z => get_mm_per_unit z | _ => None end) with
      | None => Ok None
      | Some mm_per_unit =>
          try x := get_tag_as_float t "EXIF FocalPlaneXResolution" 0 in
          match x with
          | None => Ok None
          | Some x =>
              try y := (if decide (x <= qc 0)%Qc then
                          try y := get_tag_as_float t "EXIF FocalPlaneYResolution" 0 in
                          Ok (match y with Some y => if decide (y <= qc 0)%Qc then None else Some y | None => None end)
                        else Ok (Some x)) in
              match y with
              | None => Ok None
              | Some pixels_per_unit =>
                  try (width, _) := extract_image_size t use_exif_size loaded in
                  Ok (Some (qc width * (qc 1 / pixels_per_unit) * mm_per_unit)%Qc)
              end
          end
      end
  | _, _ => Ok None
  end.

Section Focal.
(** sensors.py:9-15: sensor widths by lower case camera name *)
Context (sensor_data : gmap string Qc).
(** [if x:] for an optional number *)
Definition nonzero (x : option Qc) : option Qc := match x with Some q => if decide (q = qc 0) then None else Some q | None => None end.
(** exif.py:68-82: without a 35 mm focal length *)
Definition focal_from_sensor (focal sensor_width : option Qc) (sensor : string) : Qc * Qc :=
  let width := match nonzero sensor_width with Some w => Some w | None => if decide (sensor = "") then None else sensor_data !! sensor end in
  match nonzero width, nonzero focal with Some w, Some f => ((qc 36 * (f / w))%Qc, (f / w)%Qc) | _, _ => (qc 0, qc 0) end.
(** exif.py:62-83: [(focal_35, focal_ratio)] *)
Definition compute_focal (focal_35 focal sensor_width : option Qc) (sensor : string) : Qc * Qc :=
  match focal_35 with
  | Some f => if decide (qc 0 < f)%Qc then (f, (f / qc 36)%Qc) else focal_from_sensor focal sensor_width sensor
  | None => focal_from_sensor focal sensor_width sensor
  end.
(** exif.py:248-257 *)
Definition extract_focal (t : tags) (use_exif_size : bool) (loaded : Z * Z) : res (Qc * Qc) :=
  try make := extract_make t in
  try model := extract_model t in
  try focal_35 := get_tag_as_float t "EXIF FocalLengthIn35mmFilm" 0 in
  try focal := get_tag_as_float t "EXIF FocalLength" 0 in
  try width := extract_sensor_width t use_exif_size loaded in
  Ok (compute_focal focal_35 focal width (sensor_string make model)).
End Focal.
(** exif.py:285-291 *)
Definition extract_orientation (t : tags) : res Z :=
  match t !! "Image Orientation" with
  | None => Ok 1%Z
  | Some v => try x := index v 0 in Ok (match x with VInt z => if decide (z = 0%Z) then 1%Z else z | _ => 1%Z end)
  end.

(** ** The reference of the dataset *)

(** dataset.py:1007-1014: the sum of the weights and the weighted sums of the positions. [w = 1.0 / max(0.01, dop)] with dop 15 by default. *)
Definition gps_weight (g : gps) : Qc := (qc 1 / qc_max (qc 1 / qc 100) (default (qc 15) (gps_dop g)))%Qc.
Definition reference_sums (images : list gps) : Qc * Qc * Qc :=
  foldl (fun '(lat, lon, w) g =>
    match gps_latlon g with
    | Some (la, lo) => ((lat + gps_weight g * la)%Qc, (lon + gps_weight g * lo)%Qc, (w + gps_weight g)%Qc)
    | None => (lat, lon, w)
    end) (qc 0, qc 0, qc 0) images.
(** dataset.py:1016-1023 *)
Definition add_gcps (gcps : list (option (Qc * Qc))) (sums : Qc * Qc * Qc) : Qc * Qc * Qc :=
  foldl (fun '(lat, lon, w) p =>
    match p with Some (la, lo) => ((lat + la)%Qc, (lon + lo)%Qc, (w + qc 1)%Qc) | None => (lat, lon, w) end) sums gcps.
(** dataset.py:991-1028, invent_reference_from_gps: latitude and longitude (the altitude is 0). The two weights wlat and wlon of the code are
    always equal. *)
Definition invent_reference (images : list gps) (gcps : list (option (Qc * Qc))) : Qc * Qc :=
  let s := reference_sums images in
  let '(lat, lon, w) := if decide (s.2 = qc 0) then add_gcps gcps s else s in
  if decide (w = qc 0) then (lat, lon) else ((lat / w)%Qc, (lon / w)%Qc).
