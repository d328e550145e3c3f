(** Model of /repo/opensfm/geotag_from_gpx.py:90-340 (positions from a GPX track) with exact arithmetic: times are seconds as real numbers, so the
    microseconds of datetime are not modelled. *)
From stdpp Require Import prelude strings gmap.
From Coq Require Import Reals.
From Verif Require Import Base Lin GeoModel ExifModel.
Local Open Scope R_scope.

(** A point of a track: (time, lat, lon, elevation) *)
Record gpx_point := Gpx { g_time : R; g_lat : R; g_lon : R; g_ele : option R }.
(** The % of Python for floats, for a positive divisor *)
Definition py_mod (x m : R) : R := x - IZR (Int_part (x / m)) * m.
(** 90-119 *)
Definition compute_bearing (start_lat start_lon end_lat end_lon : R) : R :=
  let start_lat := radians start_lat in let start_lon := radians start_lon in
  let end_lat := radians end_lat in let end_lon := radians end_lon in
  let dLong := end_lon - start_lon in
  let dLong := if Rlt_dec PI (Rabs dLong) then (if Rlt_dec 0 dLong then - (2 * PI - dLong) else 2 * PI + dLong) else dLong in
  let y := sin dLong * cos end_lat in
  let x := cos start_lat * sin end_lat - sin start_lat * cos end_lat * cos dLong in
  py_mod (degrees (atan2 y x) + 360) 360.
(** 136-144: the point before and the point after; [before] is the point itself for the first one *)
Fixpoint enclosing (previous : option gpx_point) (points : list gpx_point) (t : R) : option (gpx_point * gpx_point) :=
  match points with
  | [] => None
  | point :: points => if Rlt_dec t (g_time point) then Some (default point previous, point) else enclosing (Some point) points t
  end.
(** 122-162; None of [enclosing] is the UnboundLocalError of variables never assigned, shown as a RuntimeError *)
Definition interpolate_lat_lon (points : list gpx_point) (t : R) : res (R * R * R * option R) :=
  try first := of_option IndexError (head points) in
  try last := of_option IndexError (last points) in
  if (if Rlt_dec t (g_time first) then true else if Rle_dec (g_time last) t then true else false) then Err ValueError
  else
    try p := of_option RuntimeError (enclosing None points t) in
    let '(before, after) := p in
    let dt_before := t - g_time before in
    let dt_after := g_time after - t in
    let lat := (g_lat before * dt_after + g_lat after * dt_before) / (dt_before + dt_after) in
    let lon := (g_lon before * dt_after + g_lon after * dt_before) / (dt_before + dt_after) in
    let bearing := compute_bearing (g_lat before) (g_lon before) (g_lat after) (g_lon after) in
    match g_ele before, g_ele after with
    | None, _ => Ok (lat, lon, bearing, None)
    | Some e1, Some e2 => Ok (lat, lon, bearing, Some ((e1 * dt_after + e2 * dt_before) / (dt_before + dt_after)))
    | Some _, None => Err TypeError
    end.
(** Python's round to an integer: half to even *)
Definition round_even (x : R) : Z :=
  let f := Int_part x in
  if Rlt_dec (x - IZR f) (/ 2) then f else if Rlt_dec (/ 2) (x - IZR f) then (f + 1)%Z else if Z.even f then f else (f + 1)%Z.
(** 165-180; the seconds are rounded to six decimals. The reference is [loc] 0, [loc] 1 or empty *)
Definition to_deg (value : R) (loc0 loc1 : string) : Z * Z * R * string :=
  let loc_value := if Rlt_dec value 0 then loc0 else if Rlt_dec 0 value then loc1 else ""%string in
  let abs_value := Rabs value in
  let deg := Int_part abs_value in
  let t1 := (abs_value - IZR deg) * 60 in
  let mint := Int_part t1 in
  let sec := IZR (round_even ((t1 - IZR mint) * 60 * 1000000)) / 1000000 in
  (deg, mint, sec, loc_value).
(** int(x) for x >= 0 *)
Definition py_int (x : R) : Z := Int_part x.
(** 286-340, as the tags are named by the reader of exif.py. The tags that it does not read are left out *)
Definition exif_degrees (d : Z * Z * R * string) : tag := TValues [VRatio d.1.1.1 1; VRatio d.1.1.2 1; VRatio (py_int (d.1.2 * 1000000)) 1000000].
Definition add_gps_to_exif (metadata : tags) (lat lon bearing : R) (elevation : option R) : tags :=
  let lat_deg := to_deg lat "S" "N" in
  let lon_deg := to_deg lon "W" "E" in
  let metadata := <["GPS GPSImgDirectionRef"%string := TText "T"]> (<["GPS GPSImgDirection"%string := TValues [VRatio (py_int (bearing * 100)) 100]]>
    (<["GPS GPSLongitudeRef"%string := TText lon_deg.2]> (<["GPS GPSLongitude"%string := exif_degrees lon_deg]>
    (<["GPS GPSLatitudeRef"%string := TText lat_deg.2]> (<["GPS GPSLatitude"%string := exif_degrees lat_deg]> metadata))))) in
  match elevation with
  | Some e => <["GPS GPSAltitudeRef"%string := TValues [VInt (if Rle_dec 0 e then 0 else 1)%Z]]> (<["GPS GPSAltitude"%string := TValues [VRatio (py_int (Rabs e * 100)) 100]]> metadata)
  | None => metadata
  end.
(** 183-194 *)
Definition gpx_lerp (alpha : R) (a b : gpx_point) : res gpx_point :=
  let dt := alpha * (g_time b - g_time a) in
  let t := g_time a + dt in
  let lat := (1 - alpha) * g_lat a + alpha * g_lat b in
  let lon := (1 - alpha) * g_lon a + alpha * g_lon b in
  match g_ele a, g_ele b with
  | Some ea, Some eb => Ok (Gpx t lat lon (Some ((1 - alpha) * ea + alpha * eb)))
  | _, _ => Err TypeError
  end.
(** 197-215 *)
Definition segment_sphere_intersection (A B C : vec) (r : R) : R :=
  let AB := vsub B A in let CA := vsub A C in
  let a := dot AB AB in
  let b := 2 * dot AB CA in
  let c := dot CA CA - r * r in
  let d := Rmax 0 (b * b - 4 * a * c) in
  (- b + sqrt d) / (2 * a).
(** 218-228 *)
Definition space_next_point (a b last : gpx_point) (dx : R) : res gpx_point :=
  let A := ecef_from_lla (g_lat a) (g_lon a) 0 in
  let B := ecef_from_lla (g_lat b) (g_lon b) 0 in
  let C := ecef_from_lla (g_lat last) (g_lon last) 0 in
  gpx_lerp (segment_sphere_intersection A B C dx) a b.
(** 231-240. A division by zero is an exception *)
Definition time_next_point (a b last : gpx_point) (dt : R) : res gpx_point :=
  let da := g_time a - g_time last in
  let db := g_time b - g_time last in
  if Req_EM_T (db - da) 0 then Err ZeroDivisionError else gpx_lerp ((dt - da) / (db - da)) a b.
(** 243-254 *)
Definition time_distance (a b : gpx_point) : R := g_time b - g_time a.
Definition space_distance (a b : gpx_point) : R := gps_distance (g_lat a, g_lon a) (g_lat b, g_lon b).
(** 257-283. [distance] and [next_point] are the two functions chosen, [last :: keys] the key points, the latest first. None: still running after [fuel]
    turns *)
Section sampling.
  Context (distance : gpx_point -> gpx_point -> R) (next_point : gpx_point -> gpx_point -> gpx_point -> R -> res gpx_point) (dx : R).
  Fixpoint advance (fuel : nat) (a b last : gpx_point) (keys : list gpx_point) : option (res (gpx_point * list gpx_point)) :=
    if Req_EM_T dx 0 then Some (Ok (last, keys))
    else if Rle_dec dx (distance last b) then
      match fuel with
      | O => None
      | S fuel =>
          match next_point a b last dx with
          | Err e => Some (Err e)
          | Ok a => if Rlt_dec (Rabs (dx - distance last a)) (/ 10) then advance fuel a b a (last :: keys) else Some (Err AssertionError)
          end
      end
    else Some (Ok (last, keys)).
  Fixpoint sample_segments (fuel : nat) (a : gpx_point) (points : list gpx_point) (last : gpx_point) (keys : list gpx_point) : option (res (list gpx_point)) :=
    match points with
    | [] => Some (Ok (rev (last :: keys)))
    | b :: points =>
        match advance fuel a b last keys with
        | None => None
        | Some (Err e) => Some (Err e)
        | Some (Ok (last, keys)) => sample_segments fuel b points last keys
        end
    end.
End sampling.
Definition sample_gpx (fuel : nat) (points : list gpx_point) (dx : R) (dt : option R) : option (res (list gpx_point)) :=
  match points with
  | [] => Some (Err IndexError)
  | p :: points =>
      match dt with
      | Some dt => sample_segments time_distance time_next_point dt fuel p points p []
      | None => sample_segments space_distance space_next_point dx fuel p points p []
      end
  end.
