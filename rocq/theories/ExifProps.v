(** C66: the position of an image and the reference of the dataset. *)
From stdpp Require Import prelude strings gmap numbers.
From Coq Require Import Ascii QArith Qcanon Field.
From Verif Require Import Base ExifModel ExifSpec ExifProofs.
Local Open Scope string_scope.
Local Open Scope list_scope.

(** The position that the tags state is the one that is read: for all degrees, minutes, seconds, denominators and hemispheres. *)
Theorem C66_position parse_float t xmp lat lon g :
  no_dji xmp -> states_latitude t lat -> states_longitude t lon ->
  extract_geo parse_float t xmp = Ok g -> gps_latlon g = Some (lat, lon).
Proof.
  intros Hx Hla Hlo. unfold extract_geo. rewrite (extract_lon_lat_spec parse_float t xmp lat lon) by done.
  destruct (extract_altitude _ _ _) as [a|e]; [|done]. destruct (extract_dop _) as [d|e]; [|done]. cbn. by intros [= <-].
Qed.
(** So are the altitude, up to 10000 m, and the dilution of precision. *)
Theorem C66_altitude parse_float t xmp a g : no_dji xmp -> states_altitude t a -> extract_geo parse_float t xmp = Ok g ->
  gps_altitude g = Some (if decide (a <= qc 10000)%Qc then a else qc 10000).
Proof.
  intros Hx Ha. unfold extract_geo. rewrite (extract_altitude_spec parse_float t xmp a) by done. cbn.
  destruct (extract_dop _) as [d|e]; [|done]. cbn. destruct (extract_lon_lat _ _ _) as [[lo la]|e]; [|done]. cbn. intros [= <-]. cbn. f_equal.
  unfold qc_min, maximum_altitude. repeat case_decide; try done.
  - by apply Qcle_antisym.
  - exfalso. apply Qcnot_le_lt, Qclt_le_weak in H. done.
Qed.
Theorem C66_dop parse_float t xmp q g : states_dop t q -> extract_geo parse_float t xmp = Ok g -> gps_dop g = Some q.
Proof.
  intros Hd. unfold extract_geo. destruct (extract_altitude _ _ _) as [a|e]; [|done]. rewrite (extract_dop_spec t q) by done. cbn.
  destruct (extract_lon_lat _ _ _) as [[lo la]|e]; [|done]. cbn. by intros [= <-].
Qed.
(** On tags with the types of the standard, reading never fails, and nothing is invented: a position comes from two stated angles. The
    reference letters that are not in "", N, E, NE count as south or west. *)
Theorem C66_total parse_float t xmp : no_dji xmp -> standard_gps t -> exists g, extract_geo parse_float t xmp = Ok g.
Proof. apply extract_geo_total. Qed.
Theorem C66_nothing_invented parse_float t xmp g lat lon : no_dji xmp -> standard_gps t ->
  extract_geo parse_float t xmp = Ok g -> gps_latlon g = Some (lat, lon) ->
  exists v0 v1 v2 w0 w1 w2 d m s d' m' s',
    t !! "GPS GPSLatitude" = Some (TValues [v0; v1; v2]) /\ ratio_is v0 d /\ ratio_is v1 m /\ ratio_is v2 s /\
    t !! "GPS GPSLongitude" = Some (TValues [w0; w1; w2]) /\ ratio_is w0 d' /\ ratio_is w1 m' /\ ratio_is w2 s' /\
    (lat = dms d m s \/ lat = (- dms d m s)%Qc) /\ (lon = dms d' m' s' \/ lon = (- dms d' m' s')%Qc).
Proof.
  intros Hx (Hla & Hlo & Hboth & Hrla & Hrlo & _) E Eg. unfold extract_geo in E.
  destruct (extract_altitude _ _ _) as [a|e]; [|done]. destruct (extract_dop _) as [dd|e]; [|done].
  destruct (extract_lon_lat parse_float t xmp) as [[lo la]|e] eqn:El; [|done]. cbn in E. injection E as <-. cbn in Eg.
  destruct lo as [lo|]; [|done]. destruct la as [la|]; [|done]. injection Eg as -> ->.
  unfold extract_lon_lat in El. rewrite no_dji_latlon in El by done. destruct (t !! "GPS GPSLatitude") as [v|] eqn:Ev; [|done].
  destruct Hboth as [w Ew]; [done|]. rewrite Ew in *. destruct (Hla v eq_refl) as (l & -> & Hl & Hr). destruct (Hlo w eq_refl) as (l' & -> & Hl' & Hr').
  unfold extract_ref_lon_lat in El. destruct (text_default t "GPS GPSLatitudeRef" "N") as [r Er]; [done|]. rewrite Er in El.
  destruct (text_default t "GPS GPSLongitudeRef" "E") as [r' Er']; [done|]. rewrite Er' in El.
  destruct (gps_to_decimal (TValues l) (TText r)) as [o|] eqn:E1; [|done]. cbn [res_bind of_option] in El.
  destruct (gps_to_decimal (TValues l') (TText r')) as [o'|] eqn:E2; [|done]. cbn [res_bind] in El. injection El as -> ->.
  apply decimal_Some in E1 as (v0 & v1 & v2 & d & m & s & -> & H0 & H1 & H2 & ->); [|done..].
  apply decimal_Some in E2 as (w0 & w1 & w2 & d' & m' & s' & -> & H0' & H1' & H2' & ->); [|done..].
  exists v0, v1, v2, w0, w1, w2, d, m, s, d', m', s'. do 8 (split; [done|]).
  split; destruct (bool_decide _); auto.
Qed.
(** A file with a longitude that is not known, or without a latitude, has no position. *)
Theorem C66_no_latitude parse_float t xmp g : no_dji xmp -> t !! "GPS GPSLatitude" = None -> extract_geo parse_float t xmp = Ok g -> gps_latlon g = None.
Proof.
  intros Hx E. unfold extract_geo, extract_lon_lat. rewrite no_dji_latlon, E by done.
  destruct (extract_altitude _ _ _) as [a|e]; [|done]. destruct (extract_dop _) as [d|e]; [|done]. cbn. by intros [= <-].
Qed.

(** A DJI position has priority over the tags; it is read as a sign and a number. *)
Theorem C66_dji parse_float t (x : gmap string string) xmp g a b la lo :
  x !! "@drone-dji:Latitude" = Some (String a la) -> x !! "@drone-dji:Longitude" = Some (String b lo) ->
  a = "+"%char \/ a = "-"%char -> b = "+"%char \/ b = "-"%char ->
  extract_geo parse_float t (x :: xmp) = Ok g ->
  exists p q, parse_float la = Some p /\ parse_float lo = Some q /\
    gps_latlon g = Some (if decide (a = "+"%char) then p else (- p)%Qc, if decide (b = "+"%char) then q else (- q)%Qc).
Proof.
  intros Ela Elo Ha Hb E. unfold extract_geo in E. destruct (extract_altitude _ _ _) as [al|e]; [|done]. destruct (extract_dop _) as [d|e]; [|done].
  destruct (extract_lon_lat parse_float t (x :: xmp)) as [[lo' la']|e] eqn:El; [|done]. cbn in E. injection E as <-. cbn [gps_latlon].
  unfold extract_lon_lat in El. assert (has_dji_latlon (x :: xmp) = true) as Hd by (apply bool_decide_eq_true_2; rewrite Ela, Elo; by split; eexists).
  rewrite Hd in El. unfold extract_dji_lon_lat in El. rewrite Elo, Ela in El. cbn [res_bind of_option] in El. unfold dji_number in El.
  destruct (parse_float lo) as [q|]; [|done]. destruct (parse_float la) as [p|]; [|by destruct (decide _)]. cbn [res_bind of_option fst snd] in El.
  injection El as <- <-. by exists p, q.
Qed.

(** The reference is the mean of the positions of the images, weighted by their precision. *)
Theorem C66_reference images gcps : Exists (fun g => is_Some (gps_latlon g)) images ->
  (forall g, precision_weight (gps_dop g) (gps_weight g)) /\
  weighted_mean (omap (fun g => (fun p => (gps_weight g, p.1)) <$> gps_latlon g) images) (invent_reference images gcps).1 /\
  weighted_mean (omap (fun g => (fun p => (gps_weight g, p.2)) <$> gps_latlon g) images) (invent_reference images gcps).2.
Proof.
  intros H. split; [apply gps_weight_spec|]. unfold invent_reference. change (reference_sums images) with (foldl add_gps (qc 0, qc 0, qc 0) images).
  pose proof (fold_gps_sums images (qc 0, qc 0, qc 0)) as E. cbn [fst snd] in E.
  assert ((foldl add_gps (qc 0, qc 0, qc 0) images).2 <> 0%Qc) as Hn.
  { clear E. assert (forall s, (0 <= s.2)%Qc -> (s.2 <= (foldl add_gps s images).2)%Qc /\ (s.2 < (foldl add_gps s images).2)%Qc) as Hs.
    { clear -H. induction images as [|g images IH]; [by inversion H|]. intros [[lat lon] w] Hw. cbn [foldl]. cbn [snd] in *.
      assert (forall l s, (s.2 <= (foldl add_gps s l).2)%Qc) as Hm.
      { clear. induction l as [|g l IH]; intros [[lat lon] w]; [apply Qcle_refl|]. cbn [foldl]. etrans; [|apply IH]. unfold add_gps.
        destruct (gps_latlon g) as [[la lo]|]; cbn [snd]; [|apply Qcle_refl]. rewrite <-(Qcplus_0_r w) at 1. apply Qcplus_le_compat; [apply Qcle_refl|].
        apply Qclt_le_weak, gps_weight_pos. }
      destruct (gps_latlon g) as [[la lo]|] eqn:E.
      - assert (w < (foldl add_gps (add_gps (lat, lon, w) g) images).2)%Qc as Hlt; [|split; [by apply Qclt_le_weak|done]].
        eapply Qclt_le_trans; [|apply Hm]. cbn. rewrite E. cbn [snd]. replace w with (0 + w)%Qc at 1 by ring. rewrite (Qcplus_comm w).
        apply Qcplus_lt_mono_r, gps_weight_pos.
      - inversion H as [? ? [? E']|? ? H']; subst; [congruence|]. destruct (IH H' (add_gps (lat, lon, w) g)) as [_ Hl]; cbn; rewrite E; [done|].
        cbn [snd] in *. assert (w < (foldl add_gps (lat, lon, w) images).2)%Qc by (cbn in Hl; by rewrite E in Hl). split; [by apply Qclt_le_weak|done]. }
    destruct (Hs (qc 0, qc 0, qc 0)) as [_ Hl]; [cbn; rewrite qc_0; apply Qcle_refl|]. cbn [snd] in Hl. intros E. rewrite E, qc_0 in Hl. by apply Qclt_not_eq in Hl. }
  rewrite E in *. cbn [fst snd] in *. rewrite qc_0 in *. rewrite decide_False by done. cbn [fst snd]. rewrite decide_False by done. cbn [fst snd].
  unfold weighted_mean. change (omap (fun g => (fun p => (gps_weight g, p.1)) <$> gps_latlon g) images) with (weighted fst images).
  change (omap (fun g => (fun p => (gps_weight g, p.2)) <$> gps_latlon g) images) with (weighted snd images). rewrite weighted_weights.
  replace (0 + total (weighted fst images).*1)%Qc with (total (weighted fst images).*1) in * by ring.
  split; field; done.
Qed.
(** It is within any box that contains the positions used: those of the images or, if there are none, those of the ground control points. *)
Theorem C66_reference_inside images gcps a b a' b' :
  let used := if decide (Exists (fun g => is_Some (gps_latlon g)) images) then gps_latlon <$> images else gcps in
  Exists is_Some used ->
  Forall (fun p => forall la lo, p = Some (la, lo) -> (a <= la /\ la <= b)%Qc /\ (a' <= lo /\ lo <= b')%Qc) used ->
  let r := invent_reference images gcps in (a <= r.1 /\ r.1 <= b)%Qc /\ (a' <= r.2 /\ r.2 <= b')%Qc.
Proof.
  intros used Hu Hw r. assert (sums_within a b a' b' (qc 0, qc 0, qc 0)) as H0.
  { rewrite qc_0. split; [apply Qcle_refl|]. split; apply between_0. }
  assert (forall s, sums_within a b a' b' s -> (0 < s.2)%Qc -> (a <= s.1.1 / s.2 /\ s.1.1 / s.2 <= b)%Qc /\ (a' <= s.1.2 / s.2 /\ s.1.2 / s.2 <= b')%Qc) as Hdiv.
  { intros s (Hs & H1 & H2) Hp. split; by apply between_div. }
  unfold r, invent_reference. change (reference_sums images) with (foldl add_gps (qc 0, qc 0, qc 0) images).
  unfold used in *. destruct (decide (Exists (fun g => is_Some (gps_latlon g)) images)) as [He|Hne].
  - destruct (fold_gps a b a' b' images _ H0 Hw) as (Hs & _ & Hp). specialize (Hp He). cbn [snd] in Hp. rewrite qc_0 in Hp.
    change (qc 0, qc 0, qc 0)%Qc with (qc 0, qc 0, qc 0) in *. rewrite qc_0 in *. set (s := foldl add_gps (0%Qc, 0%Qc, 0%Qc) images) in *. clearbody s.
    assert (s.2 <> 0%Qc) as Hn by (intros E; rewrite E in Hp; by apply Qclt_not_eq in Hp).
    rewrite decide_False by done. specialize (Hdiv s Hs Hp). destruct s as [[lat lon] w]. cbn [fst snd] in *. by rewrite decide_False by done.
  - assert (foldl add_gps (qc 0, qc 0, qc 0) images = (qc 0, qc 0, qc 0)) as ->.
    { apply not_Exists_Forall in Hne; [|intros ?; apply _]. clear -Hne. generalize (qc 0, qc 0, qc 0). induction Hne as [|g images Hg Hne IH]; [done|]. intros [[lat lon] w].
      cbn [foldl]. rewrite IH. unfold add_gps. destruct (gps_latlon g) as [[la lo]|] eqn:Eg; [|done]. destruct Hg. rewrite Eg. by eexists. }
    cbn [snd]. rewrite decide_True by done. change (add_gcps gcps (qc 0, qc 0, qc 0)) with (foldl add_gcp (qc 0, qc 0, qc 0) gcps).
    destruct (fold_gcp a b a' b' gcps _ H0 Hw) as (Hs & _ & Hp). specialize (Hp Hu). cbn [snd] in Hp. rewrite qc_0 in *.
    set (s := foldl add_gcp (0%Qc, 0%Qc, 0%Qc) gcps) in *. clearbody s.
    assert (s.2 <> 0%Qc) as Hn by (intros E; rewrite E in Hp; by apply Qclt_not_eq in Hp).
    specialize (Hdiv s Hs Hp). destruct s as [[lat lon] w]. cbn [fst snd] in *. by rewrite decide_False by done.
Qed.

(** ** What does not hold *)
Definition degrees_tag (d : Z) : tag := TValues [VRatio d 1; VRatio 0 1; VRatio 0 1].
Definition no_float (s : string) : option Qc := None.
(** A latitude tag without a longitude tag makes the extraction of the metadata fail. *)
Theorem C66_latitude_alone_refuted : exists t, t !! "GPS GPSLongitude" = None /\ ratios 3 (t !! "GPS GPSLatitude") /\
  extract_geo no_float t [] = Err KeyError.
Proof.
  exists (<["GPS GPSLatitude" := degrees_tag 45]> ∅). split; [done|]. split; [|reflexivity].
  intros v. rewrite lookup_insert. intros [= <-]. eexists. split; [done|]. split; [done|]. repeat constructor; by eexists _, _.
Qed.
(** A lower case reference letter moves the image to the other hemisphere. *)
Theorem C66_lower_case_refuted : exists t g, t !! "GPS GPSLatitudeRef" = Some (TText "n") /\ t !! "GPS GPSLatitude" = Some (degrees_tag 45) /\
  extract_geo no_float t [] = Ok g /\ gps_latlon g = Some (qc (-45), qc 7).
Proof.
  exists (<["GPS GPSLatitude" := degrees_tag 45]> (<["GPS GPSLongitude" := degrees_tag 7]> (<["GPS GPSLatitudeRef" := TText "n"]> ∅))).
  eexists. split; [done|]. split; [done|]. split; [vm_compute; reflexivity|]. vm_compute. do 2 f_equal; apply Qc_is_canon; reflexivity.
Qed.
(** A DJI coordinate without an explicit sign loses its first digit and becomes negative. *)
Theorem C66_dji_unsigned_refuted : exists (x : gmap string string) g, x !! "@drone-dji:Latitude" = Some "45" /\
  extract_geo (fun s => if decide (s = "5") then Some (qc 5) else None) ∅ [x] = Ok g /\ (fst <$> gps_latlon g) = Some (qc (-5)).
Proof.
  exists (<["@drone-dji:Latitude" := "45"]> (<["@drone-dji:Longitude" := "+5"]> ∅)). eexists. split; [done|]. split; [vm_compute; reflexivity|].
  vm_compute. f_equal. apply Qc_is_canon; reflexivity.
Qed.
(** Two images on either side of the antimeridian, two degrees apart, get a reference on the other side of the earth. *)
Theorem C66_antimeridian_refuted :
  let at_lon x := Gps (Some (qc 0, qc x)) None None in invent_reference [at_lon 179%Z; at_lon (-179)%Z] [] = (qc 0, qc 0).
Proof. vm_compute. f_equal; apply Qc_is_canon; reflexivity. Qed.

(** ** The hypotheses can be met *)
Definition sample_tags : tags :=
  <["GPS GPSLatitude" := TValues [VRatio 45 1; VRatio 30 1; VRatio 3600 100]]> (<["GPS GPSLatitudeRef" := TText "S"]>
  (<["GPS GPSLongitude" := TValues [VRatio 7 1; VRatio 15 1; VRatio 0 1]]> (<["GPS GPSAltitude" := TValues [VRatio 40 10]]>
  (<["GPS GPSAltitudeRef" := TValues [VInt 1]]> (<["GPS GPSDOP" := TValues [VRatio 5 2]]> ∅))))).
Example C66_example_states : states_latitude sample_tags (qc (-4551) / qc 100)%Qc /\ states_longitude sample_tags (qc 29 / qc 4)%Qc /\
  states_altitude sample_tags (qc (-4)) /\ states_dop sample_tags (qc 5 / qc 2)%Qc /\ standard_gps sample_tags.
Proof.
  assert (forall n d q, d <> 0%Z -> (q * qc d = qc n)%Qc -> ratio_is (VRatio n d) q) as Hr by (intros n d q H1 H2; by exists n, d).
  split; [|split; [|split; [|split]]].
  - exists (VRatio 45 1), (VRatio 30 1), (VRatio 3600 100), (qc 45), (qc 30), (qc 36). split; [done|].
    split; [apply Hr; [done|apply Qc_is_canon; reflexivity]|]. split; [apply Hr; [done|apply Qc_is_canon; reflexivity]|].
    split; [apply Hr; [done|apply Qc_is_canon; reflexivity]|]. right. split; [done|apply Qc_is_canon; reflexivity].
  - exists (VRatio 7 1), (VRatio 15 1), (VRatio 0 1), (qc 7), (qc 15), (qc 0). split; [done|].
    split; [apply Hr; [done|apply Qc_is_canon; reflexivity]|]. split; [apply Hr; [done|apply Qc_is_canon; reflexivity]|].
    split; [apply Hr; [done|apply Qc_is_canon; reflexivity]|]. left. split; [by left|apply Qc_is_canon; reflexivity].
  - exists (VRatio 40 10), (qc 4). split; [done|]. split; [apply Hr; [done|apply Qc_is_canon; reflexivity]|].
    right. split; [done|apply Qc_is_canon; reflexivity].
  - exists (VRatio 5 2). split; [done|]. apply Hr; [done|apply Qc_is_canon; reflexivity].
  - assert (forall n d, is_ratio (VRatio n d)) as Hi by (intros n d; by exists n, d).
    assert (forall n o l, o = Some (TValues l) -> length l = n -> Forall is_ratio l -> ratios n o) as Hs by (intros n o l -> H1 H2 v [= <-]; by exists l).
    assert (sample_tags !! "GPS GPSLatitude" = Some (TValues [VRatio 45 1; VRatio 30 1; VRatio 3600 100])) as E1 by reflexivity.
    assert (sample_tags !! "GPS GPSLongitude" = Some (TValues [VRatio 7 1; VRatio 15 1; VRatio 0 1])) as E2 by reflexivity.
    assert (sample_tags !! "GPS GPSLatitudeRef" = Some (TText "S")) as E3 by reflexivity. assert (sample_tags !! "GPS GPSLongitudeRef" = None) as E4 by reflexivity.
    assert (sample_tags !! "GPS GPSAltitude" = Some (TValues [VRatio 40 10])) as E5 by reflexivity.
    assert (sample_tags !! "GPS GPSAltitudeRef" = Some (TValues [VInt 1])) as E6 by reflexivity.
    assert (sample_tags !! "GPS GPSDOP" = Some (TValues [VRatio 5 2])) as E7 by reflexivity.
    unfold standard_gps. rewrite E1, E2, E3, E4, E5, E6, E7.
    split; [eapply Hs; [done|done|repeat (constructor; [apply Hi|]); constructor]|]. split; [eapply Hs; [done|done|repeat (constructor; [apply Hi|]); constructor]|].
    split; [intros _; by eexists|]. split; [intros v E; exists "S"; by injection E as <-|]. split; [intros v E; discriminate E|].
    split; [eapply Hs; [done|done|repeat (constructor; [apply Hi|]); constructor]|]. split; [intros v E; exists 1%Z; by injection E as <-|].
    eapply Hs; [done|done|repeat (constructor; [apply Hi|]); constructor].
Qed.
Example C66_example_read : exists g, extract_geo no_float sample_tags [] = Ok g /\ gps_latlon g = Some (qc (-4551) / qc 100, qc 29 / qc 4)%Qc /\
  gps_altitude g = Some (qc (-4)).
Proof.
  destruct C66_example_states as (Hla & Hlo & Ha & _ & Hs). destruct (C66_total no_float sample_tags [] I Hs) as [g E]. exists g.
  split; [exact E|]. split; [exact (C66_position no_float sample_tags [] _ _ g I Hla Hlo E)|]. rewrite (C66_altitude no_float sample_tags [] _ g I Ha E).
  by rewrite decide_True.
Qed.
Example C66_example_reference : Exists (fun g => is_Some (gps_latlon g)) [Gps (Some (qc 4, qc 5)) None None; Gps (Some (qc 6, qc 9)) None None] /\
  invent_reference [Gps (Some (qc 4, qc 5)) None None; Gps (Some (qc 6, qc 9)) None None] [] = (qc 5, qc 7).
Proof. split; [constructor; by eexists|]. vm_compute. f_equal; apply Qc_is_canon; reflexivity. Qed.

Print Assumptions C66_position.
Print Assumptions C66_altitude.
Print Assumptions C66_dop.
Print Assumptions C66_total.
Print Assumptions C66_nothing_invented.
Print Assumptions C66_no_latitude.
Print Assumptions C66_dji.
Print Assumptions C66_reference.
Print Assumptions C66_reference_inside.
Print Assumptions C66_latitude_alone_refuted.
Print Assumptions C66_lower_case_refuted.
Print Assumptions C66_dji_unsigned_refuted.
Print Assumptions C66_antimeridian_refuted.
