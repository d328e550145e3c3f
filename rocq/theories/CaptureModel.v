(** Model of the capture time of an image: /repo/opensfm/exif.py:385-459 (EXIF.extract_capture_time), with what it uses of Python's datetime:
    strptime for the format "%Y:%m:%d %H:%M:%S.%f", the construction of a datetime, differences, and the formats of numbers.

    Texts are ASCII (strptime also accepts other Unicode digits). The result, a number of seconds, is given here in microseconds, the unit of
    Python's timedelta: the division by a million of total_seconds is not modelled. *)
From stdpp Require Import prelude strings pretty numbers gmap.
From Coq Require Import Ascii QArith Qcanon.
From Verif Require Import Base TextModel PyText ExifModel.
Local Open Scope string_scope.
Local Open Scope list_scope.
Local Open Scope Z_scope.

(** ** Python's datetime *)
Record datetime := DateTime { dt_year : Z; dt_month : Z; dt_day : Z; dt_hour : Z; dt_minute : Z; dt_second : Z; dt_micro : Z }.
(** Lib/datetime.py: _is_leap, _days_in_month, _days_before_year, _days_before_month, _ymd2ord *)
Definition is_leap (y : Z) : bool := (y mod 4 =? 0) && (negb (y mod 100 =? 0) || (y mod 400 =? 0)).
Definition days_in_month (y m : Z) : Z :=
  if decide (m = 2) then (if is_leap y then 29 else 28) else if decide (m = 4 \/ m = 6 \/ m = 9 \/ m = 11) then 30 else 31.
Definition days_before_year (y : Z) : Z := let y := y - 1 in y * 365 + y / 4 - y / 100 + y / 400.
Definition days_before_month (y m : Z) : Z :=
  foldr Z.add 0 (days_in_month y <$> seqZ 1 (m - 1)).
Definition ordinal (y m d : Z) : Z := days_before_year y + days_before_month y m + d.
(** The constructor checks the fields: None is the ValueError *)
Definition make_datetime (y m d h mi s us : Z) : option datetime :=
  if decide (1 <= y <= 9999 /\ 1 <= m <= 12 /\ 1 <= d <= days_in_month y m /\ 0 <= h <= 23 /\ 0 <= mi <= 59 /\ 0 <= s <= 59 /\ 0 <= us <= 999999)
  then Some (DateTime y m d h mi s us) else None.
(** [(d - datetime.datetime(1970, 1, 1))] in microseconds *)
Definition since_epoch (t : datetime) : Z :=
  ((ordinal (dt_year t) (dt_month t) (dt_day t) - ordinal 1970 1 1) * 86400 + dt_hour t * 3600 + dt_minute t * 60 + dt_second t) * 1000000 + dt_micro t.
(** datetime.min and datetime.max: adding a timedelta beyond them raises OverflowError *)
Definition min_datetime : Z := since_epoch (DateTime 1 1 1 0 0 0 0).
Definition max_datetime : Z := since_epoch (DateTime 9999 12 31 23 59 59 999999).

(** Up to [n] digits, and the rest *)
Fixpoint take_digits (n : nat) (s : string) : list Z * string :=
  match n, s with
  | S n', String a r => match digit_value a with Some v => let '(ds, r') := take_digits n' r in (v :: ds, r') | None => ([], s) end
  | _, _ => ([], s)
  end.
Definition number (ds : list Z) : Z := foldl (fun acc d => 10 * acc + d) 0 ds.
(** A directive of one or two digits with a range (%m, %H, %M, %S): the alternatives of its regular expression match a number in the range, and
    what follows in the format is not a digit *)
Definition directive (lo hi : Z) (s : string) : option (Z * string) :=
  let '(ds, r) := take_digits 2 s in
  if decide (ds <> [] /\ lo <= number ds <= hi) then Some (number ds, r) else None.
(** %Y *)
Definition year_directive (s : string) : option (Z * string) :=
  let '(ds, r) := take_digits 4 s in if decide (length ds = 4%nat) then Some (number ds, r) else None.
(** %d also accepts a space and a digit *)
Definition day_directive (s : string) : option (Z * string) :=
  match s with
  | String " "%char r => let '(ds, r') := take_digits 1 r in if decide (ds <> [] /\ 1 <= number ds) then Some (number ds, r') else None
  | _ => directive 1 31 s
  end.
Definition expect (c : ascii) (s : string) : option string := match s with String a r => if decide (a = c) then Some r else None | "" => None end.
(** A space of the format: one or more white spaces *)
Definition expect_spaces (s : string) : option string := match s with String a r => if py_space a then Some (lstrip r) else None | "" => None end.
(** %f, at the end of the text: one to six digits, completed with zeros on the right *)
Definition fraction_directive (s : string) : option Z :=
  let '(ds, r) := take_digits 6 s in
  if decide (ds <> [] /\ r = "") then Some (number ds * 10 ^ (6 - Z.of_nat (length ds))) else None.
(** datetime.datetime.strptime(s, "%Y:%m:%d %H:%M:%S.%f") *)
Definition strptime (s : string) : option datetime :=
  '(y, s) ← year_directive s; s ← expect ":" s;
  '(m, s) ← directive 1 12 s; s ← expect ":" s;
  '(d, s) ← day_directive s; s ← expect_spaces s;
  '(h, s) ← directive 0 23 s; s ← expect ":" s;
  '(mi, s) ← directive 0 59 s; s ← expect ":" s;
  '(sec, s) ← directive 0 61 s; s ← expect "." s;
  us ← fraction_directive s;
  make_datetime y m d h mi sec us.

(** ** Formats of numbers *)
(** "{:02d}" *)
Definition format_02d (z : Z) : string := if decide (0 <= z <= 9) then "0" +:+ pretty z else pretty z.
Definition digit_char (z : Z) : ascii := ascii_of_N (48 + Z.to_N z).
(** Six digits *)
Definition six_digits (z : Z) : string :=
  String (digit_char (z / 100000 mod 10)) (String (digit_char (z / 10000 mod 10)) (String (digit_char (z / 1000 mod 10))
  (String (digit_char (z / 100 mod 10)) (String (digit_char (z / 10 mod 10)) (String (digit_char (z mod 10)) ""))))).
(** The integer nearest to [n / d], the even one if there are two *)
Definition round_half_even (n d : Z) : Z :=
  let q := n / d in let r := n mod d in
  if decide (2 * r < d) then q else if decide (d < 2 * r) then q + 1 else if Z.even q then q else q + 1.
(** "{:02f}" of a number: six decimals (the width of 2 never pads) *)
Definition format_02f (q : Qc) : string :=
  let n := Qnum (this q) in let d := Zpos (Qden (this q)) in
  let m := round_half_even (Z.abs n * 1000000) d in
  (if decide (n < 0) then "-" else "") +:+ pretty (m / 1000000) +:+ "." +:+ six_digits (m mod 1000000).
(** int(float): towards zero *)
Definition int_of (q : Qc) : Z := Z.quot (Qnum (this q)) (Zpos (Qden (this q))).

(** int(str): white space around, a sign, digits with single underscores between them *)
Fixpoint int_digits (acc : option Z) (s : string) : option Z :=
  match s with
  | "" => acc
  | String a r =>
      match digit_value a with
      | Some v => int_digits (Some (10 * default 0 acc + v)) r
      | None => match acc, r with
                | Some _, String b _ => if decide (a = "_"%char /\ is_Some (digit_value b)) then int_digits acc r else None
                | _, _ => None
                end
      end
  end.
Definition parse_int (s : string) : option Z :=
  match strip s with
  | String "+" r => int_digits None r
  | String "-" r => Z.opp <$> int_digits None r
  | r => int_digits None r
  end.
(** [s[i:j]] *)
Definition str_slice (i j : nat) (s : string) : string := String.string_of_list_ascii (take (j - i) (drop i (String.list_ascii_of_string s))).

(** ** The capture time *)
(** "{0:s}".format(values): TypeError for what is not a text *)
Definition as_text (v : tag) : res string := match v with TText s => Ok s | _ => Err TypeError end.
(** exif.py:390-407 *)
Definition gps_timestamp (t : tags) (date : tag) : res Z :=
  try hours_f := get_tag_as_float t "GPS GPSTimeStamp" 0 in
  try minutes_f := get_tag_as_float t "GPS GPSTimeStamp" 1 in
  match hours_f, minutes_f with
  | Some hours_f, Some minutes_f =>
      let hours := int_of hours_f in
      let minutes := int_of minutes_f in
      try seconds := get_tag_as_float t "GPS GPSTimeStamp" 2 in
      try date := as_text date in
      try seconds := of_option TypeError seconds in
      let s := date +:+ " " +:+ format_02d hours +:+ ":" +:+ format_02d minutes +:+ ":" +:+ format_02f seconds in
      of_option ValueError (since_epoch <$> strptime s)
  | _, _ => Err TypeError
  end.
(** exif.py:433-439: the minutes added to the local time; None is the TypeError or ValueError that is caught. Raw bytes count as invalid. *)
Definition offset_minutes (v : tag) : option Z :=
  match v with
  | TText s => h ← parse_int (str_slice 0 3 s); m ← parse_int (str_slice 4 6 s); Some (- h * 60 + m)
  | _ => None
  end.
(** exif.py:416-455, one round of the loop: None to go on with the next tags *)
Definition local_time (t : tags) (datetime_tag subsec_tag offset_tag : string) : res (option Z) :=
  match t !! datetime_tag with
  | None => Ok None
  | Some v =>
      try date_time := as_text v in
      try subsec_time := as_text (default (TText "0") (t !! subsec_tag)) in
      match strptime (date_time +:+ "." +:+ subsec_time) with
      | None => Ok None
      | Some d =>
          let x := since_epoch d in
          match t !! offset_tag ≫= offset_minutes with
          | None => Ok (Some x)
          | Some m =>
              let y := x + m * 60 * 1000000 in
              if decide (min_datetime <= y <= max_datetime) then Ok (Some y) else Err RuntimeError (* OverflowError *)
          end
      end
  end.
(** exif.py:411-415 *)
Definition time_strings : list (string * string * string) :=
  [("EXIF DateTimeOriginal", "EXIF SubSecTimeOriginal", "EXIF Tag 0x9011");
   ("EXIF DateTimeDigitized", "EXIF SubSecTimeDigitized", "EXIF Tag 0x9012");
   ("Image DateTime", "Image SubSecTime", "Image Tag 0x9010")].
Fixpoint first_time (t : tags) (l : list (string * string * string)) : res Z :=
  match l with
  | [] => Ok 0
  | (d, s, o) :: l' => try x := local_time t d s o in match x with Some x => Ok x | None => first_time t l' end
  end.
(** exif.py:385-459 *)
Definition extract_capture_time (t : tags) : res Z :=
  match t !! "GPS GPSDate", t !! "GPS GPSTimeStamp" with
  | Some date, Some _ =>
      match gps_timestamp t date with
      | Ok x => Ok x
      | Err TypeError | Err ValueError => first_time t time_strings
      | Err e => Err e
      end
  | _, _ => first_time t time_strings
  end.
