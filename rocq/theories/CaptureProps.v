(** C68: the capture time of an image is the time its file states. *)
From stdpp Require Import prelude strings pretty numbers gmap.
From Coq Require Import Ascii QArith Qcanon.
From Verif Require Import Base TextModel TextProofs PyText ExifModel ExifSpec ExifProofs CaptureModel CaptureSpec CaptureProofs.
Local Open Scope string_scope.
Local Open Scope list_scope.
Local Open Scope Z_scope.

Lemma stated_strptime t g d c o : states_time t g d c -> valid_date d -> valid_clock c -> g.2 = o ->
  exists x, instant d c x /\
    local_time t g.1.1 g.1.2 o =
      match t !! o ≫= offset_minutes with
      | None => Ok (Some x)
      | Some m => if decide (min_datetime <= x + m * 60 * 1000000 <= max_datetime) then Ok (Some (x + m * 60 * 1000000)) else Err RuntimeError
      end.
Proof.
  intros [Ht Hf] Hd Hc <-. destruct d as [[y m] d]. pose proof (proj2 (day_number_iff (y, m, d) _ Hd) eq_refl) as Hn. set (n := ord (y, m, d) - epoch) in *. clearbody n.
  exists ((((n * 24 + hour c) * 60 + minute c) * 60 + second c) * 1000000 + microsecond c). split; [by exists n|].
  unfold local_time. rewrite Ht. cbn [as_text res_bind].
  assert (exists s, as_text (default (TText "0") (t !! g.1.2)) = Ok s /\ fraction_text s (microsecond c)) as (s & Es & Hs).
  { destruct Hf as [[-> ->]|(s & -> & Hs)]; [|by exists s]. exists "0". split; [done|]. exists [0]. split; [done|]. split; [repeat constructor; lia|]. split; [cbn; lia|done]. }
  rewrite Es. cbn [res_bind]. rewrite (strptime_exif (y, m, d) c s (microsecond c)) by done. rewrite (since_epoch_spec _ _ _ _ _ _ _ n) by done. done.
Qed.
Lemma no_time_skips t g : states_no_time t g -> local_time t g.1.1 g.1.2 g.2 = Ok None.
Proof.
  unfold local_time. intros [-> |(s & -> & Hs & Hf)]; [done|]. cbn [as_text res_bind].
  assert (exists f us, as_text (default (TText "0") (t !! g.1.2)) = Ok f /\ fraction_text f us) as (f & us & -> & Hus).
  { destruct Hf as [-> |(f & us & -> & Hus)]; [|by exists f, us]. exists "0", 0. split; [done|]. exists [0]. split; [done|]. split; [repeat constructor; lia|]. split; [cbn; lia|done]. }
  cbn [res_bind]. destruct Hs as [Hs|Hs].
  - rewrite strptime_unknown; done.
  - rewrite (strptime_impossible s f us); done.
Qed.
Lemma gps_skipped t : states_no_gps_time t -> extract_capture_time t = first_time t time_strings.
Proof.
  unfold extract_capture_time. intros [-> |[-> |(s & v0 & v1 & v2 & Hs & Ht & H0 & H1 & H2 & Hu)]]; [done|by destruct (t !! "GPS GPSDate")|].
  rewrite Hs, Ht. destruct H0 as (n0 & d0 & ->), H1 as (n1 & d1 & ->), H2 as (n2 & d2 & ->).
  unfold gps_timestamp, get_tag_as_float. rewrite Ht. cbn [index of_option res_bind as_text lookup list_lookup].
  destruct (eval_frac n0 d0) as [h|] eqn:E0; [|by destruct (eval_frac n1 d1)]. destruct (eval_frac n1 d1) as [m|] eqn:E1; [|done].
  cbn [res_bind]. destruct (eval_frac n2 d2) as [sec|] eqn:E2; [|done]. cbn [of_option res_bind].
  assert (forall n d q, eval_frac n d = Some q -> d <> 0) as Hz by (intros n d q; unfold eval_frac; by case_decide).
  destruct Hu as [Hu|(v & n & Hv & ->)].
  - rewrite strptime_unknown; done.
  - rewrite !elem_of_cons, elem_of_nil in Hv. apply Hz in E0, E1, E2. by destruct Hv as [?|[?|[?|?]]]; simplify_eq.
Qed.
Lemma first_stated_spec t l o d c : first_stated t l o d c -> valid_date d -> valid_clock c ->
  exists g, g.2 = o /\ states_time t g d c /\
    first_time t l = (try x := local_time t g.1.1 g.1.2 o in match x with Some x => Ok x | None => Err RuntimeError end).
Proof.
  intros H Hd Hc. induction H as [g l d c Hs|g l o d c Hn Hl IH].
  - exists g. split; [done|]. split; [done|]. destruct g as [[a b] e]. cbn [first_time fst snd]. destruct (stated_strptime t (a, b, e) d c e Hs Hd Hc eq_refl) as (x & _ & E).
    cbn [fst snd] in E. rewrite E. destruct (t !! e ≫= offset_minutes); [case_decide|]; done.
  - destruct (IH Hd Hc) as (g' & Eo & Hs & E). exists g'. split; [done|]. split; [done|]. pose proof (no_time_skips t g Hn) as Es. destruct g as [[a b] e]. cbn [first_time fst snd] in *.
    rewrite Es. cbn [res_bind]. done.
Qed.

(** Without a GPS time, the time is the first one stated of the original, digitized and file times; a file without an offset to UTC is read
    as if in UTC *)
Theorem C68_local_time t o d c :
  states_no_gps_time t -> first_stated t time_tags o d c -> valid_date d -> valid_clock c -> t !! o = None ->
  exists x, extract_capture_time t = Ok x /\ instant d c x.
Proof.
  intros Hg Hf Hd Hc Ho. rewrite gps_skipped by done. destruct (first_stated_spec _ _ _ _ _ Hf Hd Hc) as (g & Eg & Hs & E).
  destruct (stated_strptime t g d c o Hs Hd Hc Eg) as (x & Hx & El). exists x. split; [|done]. change time_strings with time_tags. rewrite E, El. rewrite Ho. done.
Qed.

Lemma str_slice_offset (a b c d e f : ascii) :
  str_slice 0 3 (String a (String b (String c (String d (String e (String f "")))))) = String a (String b (String c "")) /\
  str_slice 4 6 (String a (String b (String c (String d (String e (String f "")))))) = String e (String f "").
Proof. done. Qed.
Lemma offset_read : Forall (fun h => Forall (fun m =>
  offset_minutes (TText (offset_text true h m)) = Some (- h * 60 + m) /\ offset_minutes (TText (offset_text false h m)) = Some (h * 60 + m)) (seqZ 0 60)) (seqZ 0 24).
Proof. apply (bool_decide_unpack _). vm_compute. done. Qed.
Lemma offset_minutes_spec plus h m : 0 <= h <= 23 -> 0 <= m <= 59 -> offset_minutes (TText (offset_text plus h m)) = Some ((if plus then - h else h) * 60 + m).
Proof.
  intros Hh Hm. pose proof offset_read as F. rewrite Forall_forall in F. specialize (F h). rewrite Forall_forall in F. destruct (F ltac:(apply elem_of_seqZ; lia) m ltac:(apply elem_of_seqZ; lia)) as [E1 E2].
  by destruct plus.
Qed.
Lemma datetime_range d c x k : valid_date d -> (let '(y, _, _) := d in 2 <= y <= 9998) -> valid_clock c -> instant d c x -> -1440 < k < 1440 ->
  min_datetime <= x + k * 60 * 1000000 <= max_datetime.
Proof.
  destruct d as [[y m] d]. intros Hd Hy Hc (n & Hn & ->) Hk. apply day_number_iff in Hn; [|done]. apply valid_ok in Hd as [_ Hd].
  assert (ok_date (1, 1, 1)) as H1 by (split; [lia|vm_compute; split; discriminate]). assert (ok_date (9999, 12, 31)) as H2 by (split; [lia|vm_compute; split; discriminate]).
  pose proof (ord_lt_year _ _ _ _ _ _ H1 Hd ltac:(lia)) as L1. pose proof (ord_lt_year _ _ _ _ _ _ Hd H2 ltac:(lia)) as L2.
  destruct Hc as (C1 & C2 & C3 & C4). set (o := ord (y, m, d)) in *. clearbody o.
  assert (min_datetime = (ord (1, 1, 1) - epoch) * 86400 * 1000000) as -> by (vm_compute; done).
  assert (max_datetime = ((ord (9999, 12, 31) - epoch) * 86400 + 86399) * 1000000 + 999999) as -> by (vm_compute; done). lia.
Qed.
(** With an offset, the result is the local time minus the offset, which is the time in UTC, provided the offset is negative or a whole number of hours *)
Theorem C68_offset t o d c plus h m :
  states_no_gps_time t -> first_stated t time_tags o d c -> valid_date d -> valid_clock c -> (let '(y, _, _) := d in 2 <= y <= 9998) ->
  t !! o = Some (TText (offset_text plus h m)) -> 0 <= h <= 23 -> 0 <= m <= 59 -> (plus = false \/ m = 0) ->
  exists x, instant d c x /\ extract_capture_time t = Ok (x - (if plus then 1 else -1) * (h * 60 + m) * 60 * 1000000).
Proof.
  intros Hg Hf Hd Hc Hy Ho Hh Hm Hp. rewrite gps_skipped by done. destruct (first_stated_spec _ _ _ _ _ Hf Hd Hc) as (g & Eg & Hs & E).
  destruct (stated_strptime t g d c o Hs Hd Hc Eg) as (x & Hx & El). exists x. split; [done|]. change time_strings with time_tags. rewrite E, El, Ho.
  cbn [mbind option_bind]. rewrite offset_minutes_spec by done.
  rewrite decide_True by (apply (datetime_range d c); [done|done|done|done|destruct plus; lia]). cbn [res_bind]. f_equal. destruct plus; [destruct Hp as [? | ->]; [done|]|]; lia.
Qed.
(** East of Greenwich with minutes it is not: the minutes are added instead of subtracted. In India, at +05:30, every time is one hour late *)
Theorem C68_offset_refuted t o d c h m :
  states_no_gps_time t -> first_stated t time_tags o d c -> valid_date d -> valid_clock c -> (let '(y, _, _) := d in 2 <= y <= 9998) ->
  t !! o = Some (TText (offset_text true h m)) -> 0 <= h <= 23 -> 0 <= m <= 59 ->
  exists x, instant d c x /\ extract_capture_time t = Ok (x - (h * 60 + m) * 60 * 1000000 + 2 * m * 60 * 1000000).
Proof.
  intros Hg Hf Hd Hc Hy Ho Hh Hm. rewrite gps_skipped by done. destruct (first_stated_spec _ _ _ _ _ Hf Hd Hc) as (g & Eg & Hs & E).
  destruct (stated_strptime t g d c o Hs Hd Hc Eg) as (x & Hx & El). exists x. split; [done|]. change time_strings with time_tags. rewrite E, El, Ho.
  cbn [mbind option_bind]. rewrite offset_minutes_spec by done.
  rewrite decide_True by (apply (datetime_range d c); [done|done|done|done|lia]). cbn [res_bind]. f_equal. lia.
Qed.

(** The time of the GPS has priority over the others, and is used to the nearest microsecond *)
Theorem C68_gps t d h m s :
  states_gps_time t d h m s -> valid_date d -> 0 <= h <= 23 -> 0 <= m <= 59 -> (0 <= s)%Qc -> (qc 1000000 * s <= qc 59999999)%Qc ->
  exists k n, nearest (s * qc 1000000) k /\ day_number d n /\ extract_capture_time t = Ok (((n * 24 + h) * 60 + m) * 60000000 + k).
Proof.
  intros (Hdt & v0 & v1 & v2 & Ht & H0 & H1 & H2) Hd Hh Hm Hs Hs'. exists (round_q s). destruct d as [[y mo] d].
  pose proof (proj2 (day_number_iff (y, mo, d) _ Hd) eq_refl) as Hn. set (n := ord (y, mo, d) - epoch) in *. clearbody n. exists n.
  split; [apply round_q_nearest|]. split; [done|]. unfold extract_capture_time. rewrite Hdt, Ht. unfold gps_timestamp.
  rewrite (states_number_get t v0 v1 v2 0 v0 _ Ht eq_refl H0). cbn [res_bind]. rewrite (states_number_get t v0 v1 v2 1 v1 _ Ht eq_refl H1). cbn [res_bind].
  rewrite (states_number_get t v0 v1 v2 2 v2 _ Ht eq_refl H2). cbn [res_bind as_text of_option]. rewrite !int_of_qc, format_02f_spec by done.
  assert (0 <= round_q s <= 59999999) as Hk.
  { rewrite qc_ge_iff in Hs'. unfold round_q. split; [apply round_nonneg; [lia|]|apply round_le; lia].
    unfold Qcle, Qle in Hs. destruct (this s) as [a b]. change (this 0%Qc) with 0%Q in Hs. cbn in Hs |- *. change (Qred 0) with 0%Q in Hs. cbn in Hs. lia. }
  rewrite gps_strptime by done. cbn [fmap option_fmap option_map of_option]. rewrite (since_epoch_spec _ _ _ _ _ _ _ n) by done. f_equal. pose proof (Z.div_mod (round_q s) 1000000 ltac:(lia)). lia.
Qed.
(** A file that states no time has the capture time 0 *)
Theorem C68_no_time t : states_no_gps_time t -> Forall (states_no_time t) time_tags -> extract_capture_time t = Ok 0.
Proof.
  intros Hg Hn. rewrite gps_skipped by done. change time_strings with time_tags. revert Hn. generalize time_tags. induction 1 as [|g l H Hl IH]; [done|].
  apply no_time_skips in H. destruct g as [[a b] e]. cbn [first_time fst snd] in *. rewrite H. done.
Qed.
(** The number of seconds orders the times: the instant of a later date, or of a later time of the same date, is greater *)
Theorem C68_ordered d c x d' c' x' :
  valid_date d -> valid_clock c -> valid_date d' -> valid_clock c' -> instant d c x -> instant d' c' x' -> before (key d c) (key d' c') -> x < x'.
Proof.
  destruct d as [[y m] d], d' as [[y' m'] d']. intros Hd Hc Hd' Hc' (n & Hn & ->) (n' & Hn' & ->) Hb. apply day_number_iff in Hn; [|done]. apply day_number_iff in Hn'; [|done].
  apply valid_ok in Hd as [_ Hd], Hd' as [_ Hd']. destruct Hc as (A1 & A2 & A3 & A4), Hc' as (B1 & B2 & B3 & B4). cbn [before key] in Hb.
  destruct Hb as [Hb|[<- Hb]]; [pose proof (ord_lt_year _ _ _ _ _ _ Hd Hd' Hb); lia|].
  destruct Hb as [Hb|[<- Hb]]; [pose proof (ord_lt_month _ _ _ _ _ Hd Hd' Hb); lia|].
  assert (ord (y, m, d') = ord (y, m, d) + (d' - d)) as E by (cbn; unfold ordinal; lia).
  destruct Hb as [Hb|[<- Hb]]; [lia|]. lia.
Qed.
(** The instant of a time exists and is unique *)
Theorem C68_instant d c : valid_date d -> exists x, forall x', instant d c x' <-> x' = x.
Proof.
  intros Hd. eexists. intros x'. split.
  - intros (n & Hn & ->). apply day_number_iff in Hn; [|done]. rewrite Hn. reflexivity.
  - intros ->. exists (ord d - epoch). split; [by apply day_number_iff|done].
Qed.
(** A GPS time of fewer than two numbers stops the extraction with an IndexError, also if another tag states the time *)
Theorem C68_short_gps_refuted t date l :
  t !! "GPS GPSDate" = Some date -> t !! "GPS GPSTimeStamp" = Some (TValues l) -> (length l < 2)%nat -> Forall is_ratio l -> extract_capture_time t = Err IndexError.
Proof.
  intros Hd Ht Hl Hr. unfold extract_capture_time. rewrite Hd, Ht. unfold gps_timestamp, get_tag_as_float. rewrite Ht.
  destruct l as [|v [|]]; [done| |cbn in Hl; lia]. inversion_clear Hr as [|? ? [n [e ->]] _]. done.
Qed.
(** Seconds that round to 60 make the time of the GPS unusable, although 59.9999996 seconds are a time *)
Example C68_round_refuted :
  let t : tags := <["GPS GPSDate" := TText "2020:01:01"]> (<["GPS GPSTimeStamp" := TValues [VInt 10; VInt 20; VRatio 599999996 10000000]]> ∅) in
  extract_capture_time t = Ok 0.
Proof. vm_compute. reflexivity. Qed.

(** ** The hypotheses are met *)
Definition photo : tags :=
  <["EXIF DateTimeOriginal" := TText "    :  :     :  :  "]> (<["EXIF DateTimeDigitized" := TText "2024:02:29 23:59:58"]>
  (<["EXIF SubSecTimeDigitized" := TText "25"]> (<["Image DateTime" := TText "0000:00:00 00:00:00"]> ∅))).
Example C68_photo : extract_capture_time photo = Ok 1709251198250000.
Proof. vm_compute. reflexivity. Qed.
Lemma unknown_blank : unknown_text "    :  :     :  :  ".
Proof. intros z s' Hz E. assert (z ∈ [0; 1; 2; 3; 4; 5; 6; 7; 8; 9]) as H by (by apply digit_cases). rewrite !elem_of_cons, elem_of_nil in H. destruct_or?; try done; subst; discriminate. Qed.
Example C68_photo_hypotheses :
  states_no_gps_time photo /\ first_stated photo time_tags "EXIF Tag 0x9012" (2024, 2, 29) (Clock 23 59 58 250000) /\ valid_date (2024, 2, 29) /\ valid_clock (Clock 23 59 58 250000) /\
  photo !! "EXIF Tag 0x9012" = None /\ states_no_time photo ("Image DateTime", "Image SubSecTime", "Image Tag 0x9010").
Proof.
  split; [by left|]. split.
  { apply (stated_next _ ("EXIF DateTimeOriginal", _, _)).
    - right. exists "    :  :     :  :  ". split; [done|]. split; [left; apply unknown_blank|by left].
    - apply (stated_here _ ("EXIF DateTimeDigitized", _, "EXIF Tag 0x9012")). split; [done|]. right. exists "25". split; [done|]. exists [2; 5]. split; [done|].
      split; [repeat constructor; lia|]. split; [cbn; lia|done]. }
  split; [apply valid_ok; split; [lia|]; split; [lia|]; vm_compute; split; discriminate|]. split; [unfold valid_clock; cbn; lia|]. split; [done|].
  right. exists "0000:00:00 00:00:00". split; [done|]. split; [|by left]. right. exists 0, 0, 0, (Clock 0 0 0 0). split; [done|]. cbn [hour minute second microsecond].
  repeat (split; [lia|]). intros [H _]. apply valid_ok in H as [H _]. lia.
Qed.
Example C68_gps_hypotheses :
  let t : tags := <["GPS GPSDate" := TText "2020:01:01"]> (<["GPS GPSTimeStamp" := TValues [VInt 10; VRatio 20 1; VRatio 61 2]]> ∅) in
  states_gps_time t (2020, 1, 1) 10 20 (qc 61 / qc 2)%Qc /\ extract_capture_time t = Ok 1577874030500000.
Proof.
  split; [|vm_compute; reflexivity]. split; [done|]. exists (VInt 10), (VRatio 20 1), (VRatio 61 2). split; [done|]. split; [right; by exists 10|]. split; [left; exists 20, 1|left; exists 61, 2].
  - split; [done|]. split; [done|]. by apply Qc_is_canon.
  - split; [done|]. split; [done|]. by apply Qc_is_canon.
Qed.
(** 12:00 in Delhi is 06:30 in UTC; the result is 07:30 *)
Example C68_delhi :
  extract_capture_time (<["EXIF DateTimeOriginal" := TText "1970:01:01 12:00:00"]> (<["EXIF Tag 0x9011" := TText "+05:30"]> ∅)) = Ok (((7 * 60) + 30) * 60 * 1000000) /\
  extract_capture_time (<["EXIF DateTimeOriginal" := TText "1970:01:01 12:00:00"]> (<["EXIF Tag 0x9011" := TText "-03:30"]> ∅)) = Ok (((15 * 60) + 30) * 60 * 1000000).
Proof. split; vm_compute; reflexivity. Qed.

Print Assumptions C68_local_time.
Print Assumptions C68_offset.
Print Assumptions C68_offset_refuted.
Print Assumptions C68_gps.
Print Assumptions C68_no_time.
Print Assumptions C68_ordered.
Print Assumptions C68_instant.
