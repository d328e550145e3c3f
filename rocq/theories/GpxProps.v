(** C92: positions from a GPX track. *)
From stdpp Require Import prelude strings gmap.
From Coq Require Import Reals QArith Qreals Qcanon Lra Lia.
From Verif Require Import Base Lin GeoModel ExifModel GpxModel GpxSpec GpxProofs.
Local Open Scope R_scope.

(** A time is looked up between two points of the track that follow each other, at a constant rate between them and with the direction from the one to the other;
    ValueError exactly outside the track (its last time is outside); the only other error is TypeError, where only the first of the two points has an elevation *)
Theorem C92_interpolation points t first last_ : in_order points -> head points = Some first -> last points = Some last_ ->
  (interpolate_lat_lon points t = Err ValueError <-> t < g_time first \/ g_time last_ <= t) /\
  match interpolate_lat_lon points t with
  | Ok (lat, lon, bearing, ele) => exists i a b, points !! i = Some a /\ points !! S i = Some b /\ g_time a <= t < g_time b /\ on_way a b t lat lon /\
      heading (g_lat a) (g_lon a) (g_lat b) (g_lon b) bearing /\
      match ele with None => g_ele a = None | Some e => exists ea eb, g_ele a = Some ea /\ g_ele b = Some eb /\ reached (g_time a) ea (g_time b) eb t e end
  | Err e => e = ValueError \/ e = TypeError /\ exists i a b, points !! i = Some a /\ points !! S i = Some b /\ g_time a <= t < g_time b /\ is_Some (g_ele a) /\ g_ele b = None
  end.
Proof.
  intros Hord Hh Hl. destruct points as [|p0 rest]; [done|]. injection Hh as ->.
  destruct (interpolate_spec first rest t Hord last_ Hl) as [[Ht E]|(Ht & i & a & b & Ha & Hb & Hab & lat & lon & Hw & E)]; rewrite E; clear E.
  - split; [tauto|by left].
  - split.
    + split; [|lra]. destruct (g_ele a), (g_ele b); discriminate.
    + pose proof (bearing_heading (g_lat a) (g_lon a) (g_lat b) (g_lon b)) as Hb'. destruct (g_ele a) as [ea|] eqn:Ea; [destruct (g_ele b) as [eb|] eqn:Eb|].
      * exists i, a, b. do 5 (split; [done|]). exists ea, eb. split; [done|]. split; [done|]. unfold reached. split; [lra|]. split; [lra|]. field. lra.
      * right. split; [done|]. exists i, a, b. rewrite Ea. eauto 10.
      * exists i, a, b. done.
Qed.
Theorem C92_empty t : interpolate_lat_lon [] t = Err IndexError.
Proof. done. Qed.
(** At the time of a point of the track (the last one of that time), the position of this point *)
Theorem C92_at_a_point points t i p lat lon bearing ele : in_order points -> points !! i = Some p -> g_time p = t -> (forall j q, (i < j)%nat -> points !! j = Some q -> t < g_time q) ->
  interpolate_lat_lon points t = Ok (lat, lon, bearing, ele) -> lat = g_lat p /\ lon = g_lon p /\ (forall e, ele = Some e -> g_ele p = Some e).
Proof.
  intros Hord Hp Ht Hlater E. destruct (head points) as [first|] eqn:Hh; [|by destruct points]. destruct (last points) as [pl|] eqn:Hl; [|apply last_None in Hl; by subst].
  destruct (C92_interpolation points t first pl Hord Hh Hl) as [_ H]. rewrite E in H. destruct H as (j & a & b & Ha & Hb & Hab & Hw & _ & He).
  assert (j = i) as ->.
  { destruct (lt_eq_lt_dec j i) as [[H|H]|H]; [|done|].
    - pose proof (Hord (S j) i b p H Hb Hp). lra.
    - pose proof (Hlater j a H Ha). lra. }
  assert (a = p) as -> by congruence. destruct Hw as ((_ & Hlt & E1) & (_ & _ & E2)).
  assert (forall x y z, (g_time b - g_time p) * x = (g_time b - t) * y + (t - g_time p) * z -> x = y) as Hx.
  { intros x y z Exy. rewrite Ht, Rminus_eq_0, Rmult_0_l, Rplus_0_r in Exy. apply (Rmult_eq_reg_l (g_time b - t)); lra. }
  split; [by eapply Hx|]. split; [by eapply Hx|]. intros e ->. destruct He as (ea & eb & Ea & Eb & _ & _ & E3). rewrite Ea. f_equal. symmetry. by eapply Hx.
Qed.
(** Across the line of date the longitude goes the long way round: halfway between the longitudes 179 and -179 is 0 *)
Theorem C92_antimeridian_refuted : exists points t lat lon bearing ele, in_order points /\ (forall p, p ∈ points -> Rabs (g_lon p) = 179 /\ g_lat p = 0) /\
  interpolate_lat_lon points t = Ok (lat, lon, bearing, ele) /\ lon = 0.
Proof.
  set (a := Gpx 0 0 179 None). set (b := Gpx 2 0 (-179) None).
  assert (in_order [a; b]) as Hord. { intros [|[|i]] [|[|j]] p q Hle Hp Hq; try done; try lia; cbn in Hp, Hq; injection Hp as <-; injection Hq as <-; unfold a, b; cbn [g_time]; lra. }
  destruct (C92_interpolation [a; b] 1 a b Hord eq_refl eq_refl) as [Hv H]. 
  destruct (interpolate_lat_lon [a; b] 1) as [[[[lat lon] bearing] ele]|e] eqn:E.
  - exists [a; b], 1, lat, lon, bearing, ele. split; [done|]. split. { intros p Hp. apply elem_of_cons in Hp as [->|Hp%elem_of_list_singleton]; [|subst p]; unfold a, b; cbn [g_lon g_lat]; split; try done; [apply Rabs_right|rewrite Rabs_left]; lra. }
    split; [done|]. destruct H as (i & x & y & Hx & Hy & _ & (_ & _ & _ & E2) & _). destruct i as [|[|i]]; [|done|done]. cbn in Hx, Hy. injection Hx as <-. injection Hy as <-. unfold a, b in E2. cbn [g_time g_lon] in E2. lra.
  - exfalso. destruct H as [->|[-> (i & x & y & Hx & _ & _ & He & _)]].
    + destruct Hv as [[Hv|Hv] _]; [done|unfold a in Hv; cbn in Hv; lra|unfold b in Hv; cbn in Hv; lra].
    + destruct i as [|[|i]]; [| |done]; cbn in Hx; injection Hx as <-; by destruct He.
Qed.
(** The direction from one place to another, on a sphere; 0 for the same place *)
Theorem C92_heading lat1 lon1 lat2 lon2 : heading lat1 lon1 lat2 lon2 (compute_bearing lat1 lon1 lat2 lon2) /\ compute_bearing lat1 lon1 lat1 lon1 = 0.
Proof. split; [apply bearing_heading|apply bearing_same]. Qed.
(** A position written to the tags of an image is read back to half a millionth of a second of arc, whatever the tags were and for every value *)
Theorem C92_position_read_back parse m lat lon bearing elevation :
  exists qlon qlat, extract_lon_lat parse (add_gps_to_exif m lat lon bearing elevation) [] = Ok (Some qlon, Some qlat) /\
    Rabs (real qlat - lat) <= / (2 * 3600 * 1000000) /\ Rabs (real qlon - lon) <= / (2 * 3600 * 1000000).
Proof. apply gps_roundtrip. Qed.
(** The altitude is read back with its sign, to a centimetre and towards zero; without an elevation it is the one of the image *)
Theorem C92_altitude_read_back parse m lat lon bearing e :
  (exists q, extract_altitude parse (add_gps_to_exif m lat lon bearing (Some e)) [] = Ok (Some q) /\ Rabs (real q) <= Rabs e < Rabs (real q) + / 100 /\ 0 <= real q * e) /\
  extract_altitude parse (add_gps_to_exif m lat lon bearing None) [] = extract_altitude parse m [].
Proof.
  split; [apply altitude_roundtrip|]. unfold extract_altitude, below_sea_level, add_gps_to_exif. cbn [has_dji_altitude]. by rewrite !lookup_insert_ne by discriminate.
Qed.
(** The direction is written to a hundredth of a degree *)
Theorem C92_direction_written m lat lon bearing elevation : 0 <= bearing ->
  exists q, get_tag_as_float (add_gps_to_exif m lat lon bearing elevation) "GPS GPSImgDirection" 0 = Ok (Some q) /\ real q <= bearing < real q + / 100.
Proof.
  intros Hb. assert (add_gps_to_exif m lat lon bearing elevation !! "GPS GPSImgDirection"%string = Some (TValues [VRatio (py_int (bearing * 100)) 100])) as T.
  { unfold add_gps_to_exif. destruct elevation; repeat first [rewrite lookup_insert; reflexivity|rewrite lookup_insert_ne by discriminate]. }
  unfold get_tag_as_float. rewrite T. cbn [index lookup list_lookup of_option res_bind]. unfold eval_frac. rewrite decide_False by lia. eexists. split; [reflexivity|].
  rewrite real_div, !real_qc by (rewrite real_qc; lra). unfold py_int. pose proof (int_part_bounds (bearing * 100)). lra.
Qed.
(** The other tags stay *)
Theorem C92_other_tags m lat lon bearing elevation key : key ∉ ["GPS GPSLatitude"; "GPS GPSLatitudeRef"; "GPS GPSLongitude"; "GPS GPSLongitudeRef"; "GPS GPSImgDirection"; "GPS GPSImgDirectionRef"; "GPS GPSAltitude"; "GPS GPSAltitudeRef"]%string ->
  add_gps_to_exif m lat lon bearing elevation !! key = m !! key.
Proof.
  intros Hk. unfold add_gps_to_exif. destruct elevation; rewrite ?lookup_insert_ne; try done; intros <-; apply Hk; set_solver.
Qed.
(** Degrees, minutes below 60 and at most 60 seconds ... *)
Theorem C92_degrees v l0 l1 d m s r : to_deg v l0 l1 = (d, m, s, r) -> (0 <= d)%Z /\ (0 <= m < 60)%Z /\ 0 <= s <= 60 /\ Rabs (IZR d + IZR m / 60 + s / 3600 - Rabs v) <= / (2 * 3600 * 1000000).
Proof.
  intros E. destruct (to_deg_value _ _ _ _ _ _ _ E) as (H1 & H2 & (k & Hk & ->) & H3 & _). split; [done|]. split; [done|]. split; [|done].
  destruct Hk as [K1%IZR_le K2%IZR_le]. lra.
Qed.
(** ... but there can be 60 of them *)
Theorem C92_seconds_refuted : exists v, (to_deg v "S" "N").1.2 = 60.
Proof.
  exists (1 - / 36000000000). unfold to_deg. cbn [fst snd]. rewrite (Rabs_right) by lra.
  rewrite (int_part_unique (1 - / 36000000000) 0) by lra. rewrite (int_part_unique ((1 - / 36000000000 - 0) * 60) 59) by lra.
  assert (round_even (((1 - / 36000000000 - 0) * 60 - 59) * 60 * 1000000) = 60000000%Z) as ->; [|lra].
  unfold round_even. rewrite (int_part_unique _ 59999999) by lra. destruct (Rlt_dec _ _); [lra|]. destruct (Rlt_dec _ _); [done|lra].
Qed.
(** From a point inside a sphere to one that is not inside: the fraction of the way at which the sphere is met *)
Theorem C92_crossing A B C r : 0 <= r -> dot (vsub A C) (vsub A C) < r * r -> r * r <= dot (vsub B C) (vsub B C) ->
  let alpha := segment_sphere_intersection A B C r in
  0 < alpha <= 1 /\ let I := vadd A (vscale alpha (vsub B A)) in dot (vsub I C) (vsub I C) = r * r.
Proof. apply sphere_crossing. Qed.
(** Sampling every dt > 0 seconds ends: the k-th sample has the time of the first point plus k dt and lies on the track, and the samples reach the end of the track *)
Theorem C92_time_samples points p0 dx dt : head points = Some p0 -> 0 < dt -> in_order points -> (forall p, p ∈ points -> is_Some (g_ele p)) ->
  exists keys enough, (forall fuel, (enough <= fuel)%nat -> sample_gpx fuel points dx (Some dt) = Some (Ok keys)) /\ head keys = Some p0 /\
    (forall k q, keys !! k = Some q -> g_time q = g_time p0 + INR k * dt) /\
    (forall k q, keys !! S k = Some q -> exists i p r, points !! i = Some p /\ points !! S i = Some r /\ g_time p < g_time r /\ along p r q) /\
    forall pl ql, last points = Some pl -> last keys = Some ql -> g_time ql <= g_time pl < g_time ql + dt.
Proof. apply sample_time. Qed.
(** Sampling every dx > 0 metres, when it ends: the samples lie on the track, follow each other at dx metres to ten centimetres, and come closer than dx to the end;
    otherwise the assertion on these ten centimetres fails *)
Theorem C92_space_samples fuel points p0 dx : head points = Some p0 -> 0 < dx -> (forall p, p ∈ points -> is_Some (g_ele p)) ->
  match sample_gpx fuel points dx None with
  | Some (Ok keys) => head keys = Some p0 /\ (forall k q, keys !! S k = Some q -> on_track points q) /\
      (forall k p q, keys !! k = Some p -> keys !! S k = Some q -> Rabs (dx - gps_distance (g_lat p, g_lon p) (g_lat q, g_lon q)) < / 10) /\
      forall pl ql, last points = Some pl -> last keys = Some ql -> gps_distance (g_lat ql, g_lon ql) (g_lat pl, g_lon pl) < dx
  | Some (Err e) => e = AssertionError
  | None => True
  end.
Proof.
  intros Hh Hdx Hele. destruct points as [|p points]; [done|]. injection Hh as ->. cbn [sample_gpx].
  pose proof (space_segments dx fuel points p0 p0 [] Hdx Hele) as H. rewrite space_distance_self in H. specialize (H Hdx).
  destruct (sample_segments _ _ _ _ _ _ _ _) as [[all|e]|]; [|done|done]. destruct H as (new & -> & H1 & H2 & H3). cbn [rev app]. split; [done|]. split; [|split].
  - intros k q Hq. apply H1. apply elem_of_list_lookup. by exists k.
  - intros k a b Ha Hb. by apply (H2 k).
  - intros pl ql. apply H3.
Qed.
(** A step of 0 gives the first point only, a negative one does not end, and there is no point to start from in an empty track *)
Theorem C92_steps fuel points p0 dx dt : head points = Some p0 -> default dx dt = 0 -> sample_gpx fuel points dx dt = Some (Ok [p0]).
Proof. apply sample_zero. Qed.
Theorem C92_negative_step_refuted fuel p0 p1 rest dx dt : dt < 0 -> g_time p0 < g_time p1 -> is_Some (g_ele p0) -> is_Some (g_ele p1) -> sample_gpx fuel (p0 :: p1 :: rest) dx (Some dt) = None.
Proof. apply sample_negative. Qed.
Theorem C92_no_track fuel dx dt : sample_gpx fuel [] dx dt = Some (Err IndexError).
Proof. done. Qed.
(** Without elevations, which a track may lack, a step inside it is a TypeError *)
Theorem C92_no_elevation_refuted : exists points dx, in_order points /\ sample_gpx 1 points dx (Some 1) = Some (Err TypeError).
Proof.
  exists [Gpx 0 0 0 None; Gpx 2 0 0 None], 0. split.
  { intros [|[|i]] [|[|j]] p q Hle Hp Hq; try done; try lia; cbn in Hp, Hq; injection Hp as <-; injection Hq as <-; cbn [g_time]; lra. }
  cbn [sample_gpx sample_segments advance]. destruct (Req_EM_T 1 0) as [|_]; [lra|]. unfold time_distance, time_next_point, gpx_lerp. cbn [g_time g_ele]. destruct (Rle_dec _ _) as [_|?]; [|lra]. destruct (Req_EM_T _ _) as [|_]; [lra|]. done.
Qed.
Print Assumptions C92_interpolation.
Print Assumptions C92_empty.
Print Assumptions C92_at_a_point.
Print Assumptions C92_antimeridian_refuted.
Print Assumptions C92_heading.
Print Assumptions C92_position_read_back.
Print Assumptions C92_altitude_read_back.
Print Assumptions C92_direction_written.
Print Assumptions C92_other_tags.
Print Assumptions C92_degrees.
Print Assumptions C92_seconds_refuted.
Print Assumptions C92_crossing.
Print Assumptions C92_time_samples.
Print Assumptions C92_space_samples.
Print Assumptions C92_steps.
Print Assumptions C92_negative_step_refuted.
Print Assumptions C92_no_track.
Print Assumptions C92_no_elevation_refuted.

(** * Non-vacuity *)
Definition example_track : list gpx_point := [Gpx 0 45 7 (Some 100); Gpx 10 46 8 (Some 200)].
Example example_track_in_order : in_order example_track /\ (forall p, p ∈ example_track -> is_Some (g_ele p)).
Proof.
  split.
  - intros [|[|i]] [|[|j]] p q Hle Hp Hq; try done; try lia; cbn in Hp, Hq; injection Hp as <-; injection Hq as <-; cbn [g_time]; lra.
  - intros p Hp. unfold example_track in Hp. apply elem_of_cons in Hp as [->|Hp%elem_of_list_singleton]; [|subst p]; by eexists.
Qed.
(** A quarter of the way *)
Example example_lookup : exists bearing, interpolate_lat_lon example_track (5 / 2) = Ok (45 + / 4, 7 + / 4, bearing, Some 125).
Proof.
  unfold interpolate_lat_lon, example_track. cbn [head last of_option res_bind g_time enclosing]. destruct (Rlt_dec (5 / 2) 0) as [|_]; [lra|]. destruct (Rle_dec 10 (5 / 2)) as [|_]; [lra|]. destruct (Rlt_dec (5 / 2) 10) as [_|?]; [|lra].
  cbn [of_option res_bind default from_option Datatypes.id g_time g_lat g_lon g_ele]. set (b := compute_bearing _ _ _ _). exists b. clearbody b.
  assert (forall x1 x2 x3 y1 y2 y3 : R, x1 = y1 -> x2 = y2 -> x3 = y3 -> @Ok (R * R * R * option R) (x1, x2, b, Some x3) = Ok (y1, y2, b, Some y3)) as H by (intros; congruence). apply H; field.
Qed.
(** From a point on the equator, a place to the east is in the direction 90 *)
Example example_east : compute_bearing 0 0 0 10 = 90.
Proof.
  pose proof (bearing_heading 0 0 0 10) as (Hr & rho & Hrho & H1 & H2). set (th := compute_bearing 0 0 0 10) in *. clearbody th. unfold dot, place, north, east, deg in H1, H2. cbn [vx vy vz] in H1, H2.
  assert (0 * PI / 180 = 0) as E0 by field. rewrite !E0, ?sin_0, ?cos_0 in H1, H2. pose proof PI_RGT_0 as HP.
  assert (0 < sin (10 * PI / 180)) as Hs by (apply sin_gt_0; lra).
  assert (0 < rho * sin (th * PI / 180)) as Hp by lra. assert (0 < rho) as Hrp by (destruct Hrho as [?|<-]; [done|lra]). assert (cos (th * PI / 180) = 0) as Hc by (apply (Rmult_eq_reg_l rho); lra). assert (0 < sin (th * PI / 180)) as Hsp by nra.
  assert (th * PI / 180 < PI) as Hlt. { destruct (Rlt_le_dec (th * PI / 180) PI) as [|H]; [done|]. assert (sin (th * PI / 180) <= 0); [|lra]. apply sin_le_0; [done|]. nra. }
  destruct (Rtotal_order (th * PI / 180) (PI / 2)) as [H|[H|H]].
  - assert (0 < cos (th * PI / 180)); [|lra]. apply cos_gt_0; [|done]. nra.
  - assert (th * PI = 90 * PI) by lra. apply (Rmult_eq_reg_r PI); lra.
  - assert (cos (th * PI / 180) < 0); [|lra]. apply cos_lt_0; lra.
Qed.
Example example_samples : exists keys enough, sample_gpx enough example_track 0 (Some 4) = Some (Ok keys) /\ length keys = 3%nat.
Proof.
  destruct example_track_in_order as [Ho He]. destruct (C92_time_samples example_track (Gpx 0 45 7 (Some 100)) 0 4 eq_refl) as (keys & enough & E & Hh & Hk & _ & Hl); [lra|done|done|].
  exists keys, enough. split; [by apply E|]. destruct (last keys) as [ql|] eqn:El; [|apply last_None in El; by subst]. specialize (Hl _ ql eq_refl eq_refl). cbn [g_time] in Hl. rewrite last_lookup in El. rewrite (Hk _ _ El) in Hl. cbn [g_time] in Hl.
  destruct keys as [|k0 [|k1 [|k2 [|k3 keys]]]]; cbn [length Init.Nat.pred] in Hl; rewrite ?S_INR in Hl; cbn [INR] in Hl; try lra; [done|]. pose proof (pos_INR (length keys)). lra.
Qed.
(** A sphere of radius 2 around a point, left on a straight line *)
Example example_crossing : segment_sphere_intersection (Vec 0 0 0) (Vec 4 0 0) (Vec 0 0 0) 2 = / 2.
Proof.
  destruct (sphere_crossing (Vec 0 0 0) (Vec 4 0 0) (Vec 0 0 0) 2) as [H1 H2]; unfold dot, vsub; cbn [vx vy vz]; try lra.
  set (al := segment_sphere_intersection _ _ _ _) in *. clearbody al. unfold dot, vsub, vadd, vscale in H2. cbn [vx vy vz] in H2. nra.
Qed.
