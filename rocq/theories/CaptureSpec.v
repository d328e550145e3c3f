(** Dates, instants and their EXIF texts. Independent of the code. *)
From stdpp Require Import prelude strings gmap numbers.
From Coq Require Import Ascii QArith Qcanon.
From Verif Require Import Base ExifModel ExifSpec.
Local Open Scope string_scope.
Local Open Scope Z_scope.

(** A date: year, month, day. Century years are leap years only if 400 divides them. *)
Definition date := (Z * Z * Z)%type.
Definition leap_year (y : Z) : Prop := (4 | y) /\ (~ (100 | y) \/ (400 | y)).
Definition month_length (y m n : Z) : Prop :=
  m = 2 /\ (leap_year y /\ n = 29 \/ ~ leap_year y /\ n = 28) \/
  m ∈ [4; 6; 9; 11] /\ n = 30 \/ m ∈ [1; 3; 5; 7; 8; 10; 12] /\ n = 31.
Definition valid_date (d : date) : Prop :=
  let '(y, m, d) := d in 1 <= y <= 9999 /\ exists n, month_length y m n /\ 1 <= d <= n.
(** The day after *)
Inductive next_day : date -> date -> Prop :=
  | next_in_month y m d n : month_length y m n -> d < n -> next_day (y, m, d) (y, m, d + 1)
  | next_month y m d : month_length y m d -> m < 12 -> next_day (y, m, d) (y, m + 1, 1)
  | next_year y : next_day (y, 12, 31) (y + 1, 1, 1).
(** [n] days from one date to another *)
Inductive days_later : nat -> date -> date -> Prop :=
  | same_day d : days_later 0 d d
  | day_after n d d' d'' : days_later n d d' -> next_day d' d'' -> days_later (S n) d d''.
(** The number of days from 1970-01-01, negative before *)
Definition day_number (d : date) (n : Z) : Prop :=
  (exists k : nat, n = Z.of_nat k /\ days_later k (1970, 1, 1) d) \/ (exists k : nat, n = - Z.of_nat k /\ days_later k d (1970, 1, 1)).

(** A time of day *)
Record clock := Clock { hour : Z; minute : Z; second : Z; microsecond : Z }.
Definition valid_clock (c : clock) : Prop :=
  0 <= hour c <= 23 /\ 0 <= minute c <= 59 /\ 0 <= second c <= 59 /\ 0 <= microsecond c <= 999999.
(** Microseconds from 1970-01-01 00:00:00 *)
Definition instant (d : date) (c : clock) (us : Z) : Prop :=
  exists n, day_number d n /\ us = (((n * 24 + hour c) * 60 + minute c) * 60 + second c) * 1000000 + microsecond c.

(** Decimal digits as text *)
Definition digit (z : Z) : ascii := ascii_of_N (48 + Z.to_N z).
Fixpoint digits_text (l : list Z) : string := match l with [] => "" | z :: l' => String (digit z) (digits_text l') end.
Definition two (z : Z) : string := digits_text [z / 10; z mod 10].
Definition four (z : Z) : string := digits_text [z / 1000; z / 100 mod 10; z / 10 mod 10; z mod 10].
(** "YYYY:MM:DD" and "HH:MM:SS" *)
Definition date_text (d : date) : string := let '(y, m, d) := d in four y +:+ ":" +:+ two m +:+ ":" +:+ two d.
Definition clock_text (c : clock) : string := two (hour c) +:+ ":" +:+ two (minute c) +:+ ":" +:+ two (second c).
Definition exif_text (d : date) (c : clock) : string := date_text d +:+ " " +:+ clock_text c.
(** One to six digits after the decimal point, as microseconds *)
Definition fraction_text (s : string) (us : Z) : Prop :=
  exists l : list Z, s = digits_text l /\ Forall (fun z => 0 <= z <= 9) l /\ (1 <= length l <= 6)%nat /\
    us = foldl (fun acc z => 10 * acc + z) 0 (l ++ replicate (6 - length l) 0).
(** "+HH:MM" and "-HH:MM" *)
Definition offset_text (plus : bool) (h m : Z) : string := (if plus then "+" else "-") +:+ two h +:+ ":" +:+ two m.

(** ** What the tags say about the time *)
(** The three times of a file, in order of preference: the tags of the date and time, of the fraction of a second and of the offset to UTC *)
Definition time_tags : list (string * string * string) :=
  [("EXIF DateTimeOriginal", "EXIF SubSecTimeOriginal", "EXIF Tag 0x9011");
   ("EXIF DateTimeDigitized", "EXIF SubSecTimeDigitized", "EXIF Tag 0x9012");
   ("Image DateTime", "Image SubSecTime", "Image Tag 0x9010")].
(** The file states the date [d] and the time of day [c] in a group of tags; without a tag for the fraction it is 0 *)
Definition states_time (t : tags) (g : string * string * string) (d : date) (c : clock) : Prop :=
  t !! g.1.1 = Some (TText (exif_text d c)) /\
  (t !! g.1.2 = None /\ microsecond c = 0 \/ exists s, t !! g.1.2 = Some (TText s) /\ fraction_text s (microsecond c)).
(** A text that does not start with a digit, like the blanks EXIF prescribes for an unknown date *)
Definition unknown_text (s : string) : Prop := forall z s', 0 <= z <= 9 -> s <> String (digit z) s'.
(** The text of a date or time that does not exist, like 0000:00:00 or the 30th of February *)
Definition impossible_text (s : string) : Prop :=
  exists y m d c, s = exif_text (y, m, d) c /\ 0 <= y <= 9999 /\ 0 <= m <= 99 /\ 0 <= d <= 99 /\
    0 <= hour c <= 99 /\ 0 <= minute c <= 99 /\ 0 <= second c <= 99 /\ microsecond c = 0 /\ ~ (valid_date (y, m, d) /\ valid_clock c).
(** The file states no time in the group *)
Definition states_no_time (t : tags) (g : string * string * string) : Prop :=
  t !! g.1.1 = None \/
  exists s, t !! g.1.1 = Some (TText s) /\ (unknown_text s \/ impossible_text s) /\
    (t !! g.1.2 = None \/ exists f us, t !! g.1.2 = Some (TText f) /\ fraction_text f us).
(** The first time the file states *)
Inductive first_stated (t : tags) : list (string * string * string) -> string -> date -> clock -> Prop :=
  | stated_here g l d c : states_time t g d c -> first_stated t (g :: l) g.2 d c
  | stated_next g l o d c : states_no_time t g -> first_stated t l o d c -> first_stated t (g :: l) o d c.
(** The number of a tag *)
Definition states_number (v : value) (q : Qc) : Prop := ratio_is v q \/ exists z, v = VInt z /\ q = qc z.
(** An integer nearest to a number *)
Definition nearest (q : Qc) (k : Z) : Prop := (qc (2 * k - 1) <= qc 2 * q)%Qc /\ (qc 2 * q <= qc (2 * k + 1))%Qc.
(** The file states the time of the GPS: the date [d], [h] hours, [m] minutes and [s] seconds, in UTC *)
Definition states_gps_time (t : tags) (d : date) (h m : Z) (s : Qc) : Prop :=
  t !! "GPS GPSDate" = Some (TText (date_text d)) /\
  exists v0 v1 v2, t !! "GPS GPSTimeStamp" = Some (TValues [v0; v1; v2]) /\ states_number v0 (qc h) /\ states_number v1 (qc m) /\ states_number v2 s.
(** It does not: a tag is missing, the date is unknown, or one of the three ratios has the denominator 0 *)
Definition states_no_gps_time (t : tags) : Prop :=
  t !! "GPS GPSDate" = None \/ t !! "GPS GPSTimeStamp" = None \/
  exists s v0 v1 v2, t !! "GPS GPSDate" = Some (TText s) /\ t !! "GPS GPSTimeStamp" = Some (TValues [v0; v1; v2]) /\ is_ratio v0 /\ is_ratio v1 /\ is_ratio v2 /\
    (unknown_text s \/ exists v n, v ∈ [v0; v1; v2] /\ v = VRatio n 0).
(** A time before another *)
Definition key (d : date) (c : clock) : list Z := let '(y, m, d) := d in [y; m; d; hour c; minute c; second c; microsecond c].
Fixpoint before (a b : list Z) : Prop :=
  match a, b with x :: a', y :: b' => x < y \/ x = y /\ before a' b' | _, _ => False end.
