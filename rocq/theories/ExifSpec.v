(** What the position tags of an image file say (EXIF 2.3, section GPS IFD), and what a centre of positions is. Independent of the code. *)
From stdpp Require Import prelude strings gmap numbers.
From Coq Require Import Ascii QArith Qcanon.
From Verif Require Import Base ExifModel.
Local Open Scope string_scope.

(** A ratio with the value [q] *)
Definition ratio_is (v : value) (q : Qc) : Prop := exists n d, v = VRatio n d /\ d <> 0%Z /\ (q * qc d = qc n)%Qc.
(** Degrees, minutes and seconds *)
Definition dms (d m s : Qc) : Qc := (d + m / qc 60 + s / qc 3600)%Qc.
(** The file states the angle [a]: degrees, minutes and seconds as ratios under [key], and the direction under [ref_key]: the letter
    [plus] (also when there is no such tag) or the letter [minus] *)
Definition states_angle (t : tags) (key ref_key plus minus : string) (a : Qc) : Prop :=
  exists v0 v1 v2 d m s,
    t !! key = Some (TValues [v0; v1; v2]) /\ ratio_is v0 d /\ ratio_is v1 m /\ ratio_is v2 s /\
    ((t !! ref_key = None \/ t !! ref_key = Some (TText plus)) /\ a = dms d m s \/
     t !! ref_key = Some (TText minus) /\ a = (- dms d m s)%Qc).
Definition states_latitude (t : tags) := states_angle t "GPS GPSLatitude" "GPS GPSLatitudeRef" "N" "S".
Definition states_longitude (t : tags) := states_angle t "GPS GPSLongitude" "GPS GPSLongitudeRef" "E" "W".

(** The altitude: a ratio, and a reference that is 0 (above sea level, also when missing) or 1 (below) *)
Definition states_altitude (t : tags) (a : Qc) : Prop :=
  exists v q, t !! "GPS GPSAltitude" = Some (TValues [v]) /\ ratio_is v q /\
    ((t !! "GPS GPSAltitudeRef" = None \/ t !! "GPS GPSAltitudeRef" = Some (TValues [VInt 0])) /\ a = q \/
     t !! "GPS GPSAltitudeRef" = Some (TValues [VInt 1]) /\ a = (- q)%Qc).
Definition states_dop (t : tags) (q : Qc) : Prop := exists v, t !! "GPS GPSDOP" = Some (TValues [v]) /\ ratio_is v q.

(** No position of a DJI drone in the first XMP block; no altitude either *)
Definition no_dji (xmp : list (gmap string string)) : Prop :=
  match xmp with
  | x :: _ => (x !! "@drone-dji:Latitude" = None \/ x !! "@drone-dji:Longitude" = None) /\ x !! "@drone-dji:AbsoluteAltitude" = None
  | [] => True
  end.

(** Tags with the types and counts of the standard (ratios may have a denominator of zero: "unknown") *)
Definition is_ratio (v : value) : Prop := exists n d, v = VRatio n d.
Definition ratios (n : nat) (o : option tag) : Prop := forall v, o = Some v -> exists l, v = TValues l /\ length l = n /\ Forall is_ratio l.
Definition text (o : option tag) : Prop := forall v, o = Some v -> exists s, v = TText s.
Definition byte (o : option tag) : Prop := forall v, o = Some v -> exists z, v = TValues [VInt z].
Definition standard_gps (t : tags) : Prop :=
  ratios 3 (t !! "GPS GPSLatitude") /\ ratios 3 (t !! "GPS GPSLongitude") /\
  (is_Some (t !! "GPS GPSLatitude") -> is_Some (t !! "GPS GPSLongitude")) /\
  text (t !! "GPS GPSLatitudeRef") /\ text (t !! "GPS GPSLongitudeRef") /\
  ratios 1 (t !! "GPS GPSAltitude") /\ byte (t !! "GPS GPSAltitudeRef") /\ ratios 1 (t !! "GPS GPSDOP").

(** The sum of a list, and the weighted mean [c] of numbers [(weight, x)] *)
Definition total (l : list Qc) : Qc := foldr Qcplus 0%Qc l.
Definition weighted_mean (l : list (Qc * Qc)) (c : Qc) : Prop := (c * total l.*1 = total ((fun p => p.1 * p.2) <$> l))%Qc.
(** The weight of a position: the inverse of its dilution of precision, 15 if it is not known and at least a hundredth *)
Definition precision_weight (dop : option Qc) (w : Qc) : Prop :=
  let d := default (qc 15) dop in
  ((qc 1 / qc 100 <= d)%Qc -> (w * d = 1)%Qc) /\ (~ (qc 1 / qc 100 <= d)%Qc -> (w * (qc 1 / qc 100) = 1)%Qc).

(** The length in millimetres of the resolution units of EXIF (tag 0xa210): 2 inch, 3 centimetre, 4 millimetre, 5 micrometre *)
Inductive unit_mm : Z -> Qc -> Prop :=
  | unit_inch : unit_mm 2 (qc 254 / qc 10)%Qc
  | unit_cm : unit_mm 3 (qc 10)
  | unit_millimetre : unit_mm 4 (qc 1)
  | unit_um : unit_mm 5 (qc 1 / qc 1000)%Qc.
(** The file states the sensor width [W] (mm) of an image of [n] pixels per row: the pixels per unit are [n] divided by the width in units *)
Definition states_sensor_width (t : tags) (n : Z) (W : Qc) : Prop :=
  exists u mm v p, t !! "EXIF FocalPlaneResolutionUnit" = Some (TValues [VInt u]) /\ unit_mm u mm /\
    t !! "EXIF FocalPlaneXResolution" = Some (TValues [v]) /\ ratio_is v p /\ (0 < p)%Qc /\ (p * (W / mm) = qc n)%Qc.
