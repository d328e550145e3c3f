From stdpp Require Import prelude strings gmap.
From Coq Require Import Reals QArith Qreals Qcanon Lra Lia.
From Verif Require Import Base Lin GeoModel GeoProofs ExifModel GpxModel GpxSpec.
Local Open Scope R_scope.

(** * Whole parts *)
Lemma int_part_bounds x : IZR (Int_part x) <= x < IZR (Int_part x) + 1.
Proof. pose proof (base_Int_part x). lra. Qed.
Lemma int_part_unique x z : IZR z <= x < IZR z + 1 -> Int_part x = z.
Proof. intros H. pose proof (int_part_bounds x) as H'. assert (IZR (Int_part x) < IZR (z + 1)) by (rewrite plus_IZR; lra). assert (IZR z < IZR (Int_part x + 1)) by (rewrite plus_IZR; lra). apply lt_IZR in H0, H1. lia. Qed.
Lemma int_part_IZR z : Int_part (IZR z) = z.
Proof. apply int_part_unique. lra. Qed.
Lemma py_mod_range x m : 0 < m -> 0 <= py_mod x m < m.
Proof.
  intros Hm. unfold py_mod. pose proof (int_part_bounds (x / m)) as [H1 H2]. set (k := IZR (Int_part (x / m))) in *.
  assert (x / m * m = x) as E by (field; lra). split; nra.
Qed.
Lemma round_even_near x : Rabs (IZR (round_even x) - x) <= / 2.
Proof.
  unfold round_even. pose proof (int_part_bounds x) as [H1 H2].
  destruct (Rlt_dec _ _). { apply Rabs_le. lra. }
  destruct (Rlt_dec _ _). { rewrite plus_IZR. apply Rabs_le. lra. }
  destruct (Z.even _); [|rewrite plus_IZR]; apply Rabs_le; lra.
Qed.
Lemma round_even_IZR z : round_even (IZR z) = z.
Proof. unfold round_even. rewrite int_part_IZR. destruct (Rlt_dec _ _); [done|lra]. Qed.

(** * The heading *)
Lemma deg_radians x : radians x = deg x.
Proof. unfold radians, deg. field. Qed.
Lemma cos_turns t k : cos (t + 2 * IZR k * PI) = cos t /\ sin (t + 2 * IZR k * PI) = sin t.
Proof.
  destruct (Z_le_gt_dec 0 k) as [H|H].
  - rewrite <- (Z2Nat.id k) by done. rewrite <- INR_IZR_INZ. split; [apply cos_period|apply sin_period].
  - assert (exists u, u = t + 2 * IZR k * PI) as [u Eu] by eauto. rewrite <- Eu. assert (t = u + 2 * INR (Z.to_nat (- k)) * PI) as ->. { rewrite INR_IZR_INZ, Z2Nat.id by lia. rewrite opp_IZR. rewrite Eu. ring. }
    split; [symmetry; apply cos_period|symmetry; apply sin_period].
Qed.
Lemma py_mod_turn x : cos (deg (py_mod x 360)) = cos (deg x) /\ sin (deg (py_mod x 360)) = sin (deg x).
Proof.
  unfold py_mod. set (k := Int_part _). assert (deg (x - IZR k * 360) = deg x + 2 * IZR (- k) * PI) as ->; [|apply cos_turns]. rewrite opp_IZR. unfold deg. field.
Qed.
Lemma bearing_heading lat1 lon1 lat2 lon2 : heading lat1 lon1 lat2 lon2 (compute_bearing lat1 lon1 lat2 lon2).
Proof.
  unfold heading, compute_bearing. rewrite !deg_radians. set (p1 := deg lat1). set (l1 := deg lon1). set (p2 := deg lat2). set (l2 := deg lon2).
  set (d := if Rlt_dec PI (Rabs (l2 - l1)) then _ else _).
  assert (cos d = cos (l2 - l1) /\ sin d = sin (l2 - l1)) as [Ec Es].
  { unfold d. destruct (Rlt_dec _ _); [|done]. destruct (Rlt_dec _ _).
    - assert (- (2 * PI - (l2 - l1)) = l2 - l1 + 2 * IZR (-1) * PI) as -> by ring. apply cos_turns.
    - assert (2 * PI + (l2 - l1) = l2 - l1 + 2 * IZR 1 * PI) as -> by ring. apply cos_turns. }
  clearbody d. rewrite Ec, Es. clear Ec Es d.
  set (y := sin (l2 - l1) * cos p2). set (x := cos p1 * sin p2 - sin p1 * cos p2 * cos (l2 - l1)).
  split; [apply py_mod_range; lra|].
  assert (dot (place lat2 lon2) (north lat1 lon1) = x) as ->. { unfold dot, place, north, x. cbn [vx vy vz]. fold p1 l1 p2 l2. rewrite cos_minus. ring. }
  assert (dot (place lat2 lon2) (east lat1 lon1) = y) as ->. { unfold dot, place, east, y. cbn [vx vy vz]. fold p1 l1 p2 l2. rewrite sin_minus. ring. }
  assert (x = 0 /\ y = 0 \/ (x <> 0 \/ y <> 0)) as [[Ex Ey]|Hxy].
  { destruct (Req_EM_T x 0); destruct (Req_EM_T y 0); tauto. }
  - exists 0. lra.
  - destruct (polar_exists x y Hxy) as (r & t & Hr & Ht & Ex & Ey). exists r. split; [lra|].
    assert (atan2 y x = t) as Ea by (rewrite Ex, Ey; by apply atan2_polar). rewrite Ea.
    destruct (py_mod_turn (degrees t + 360)) as [-> ->].
    assert (deg (degrees t + 360) = t + 2 * IZR 1 * PI) as Ed. { rewrite <- (radians_degrees t) at 2. rewrite deg_radians. unfold deg. field. }
    destruct (cos_turns t 1) as [E1 E2]. rewrite Ed, E1, E2. done.
Qed.
Lemma bearing_same lat lon : compute_bearing lat lon lat lon = 0.
Proof.
  unfold compute_bearing. rewrite !Rminus_eq_0, Rabs_R0. destruct (Rlt_dec _ _) as [H|_]; [pose proof PI_RGT_0; lra|]. rewrite sin_0, cos_0.
  assert (cos (radians lat) * sin (radians lat) - sin (radians lat) * cos (radians lat) * 1 = 0) as -> by ring. rewrite Rmult_0_l.
  unfold atan2. repeat (destruct (Rlt_dec _ _); [lra|]). unfold degrees, py_mod. assert ((0 * 180 / PI + 360) = 360) as E by (field; pose proof PI_RGT_0; lra).
  match goal with |- ?a - _ * _ = _ => assert (a = 360) as -> by (try exact E; field; pose proof PI_RGT_0; lra) end.
  rewrite (int_part_unique _ 1); lra.
Qed.

(** * Looking up a time *)
Lemma enclosing_spec points prev t : g_time prev <= t -> (exists p, p ∈ points /\ t < g_time p) ->
  exists i a b, enclosing (Some prev) points t = Some (a, b) /\ (prev :: points) !! i = Some a /\ points !! i = Some b /\ g_time a <= t < g_time b.
Proof.
  revert prev. induction points as [|q points IH]; intros prev Hp (p & Hin & Ht). { by apply elem_of_nil in Hin. }
  cbn [enclosing default]. destruct (Rlt_dec t (g_time q)) as [Hq|Hq].
  - exists O, prev, q. done.
  - apply elem_of_cons in Hin as [->|Hin]; [done|]. destruct (IH q) as (i & a & b & H1 & H2 & H3 & H4); [lra|eauto|]. exists (S i), a, b. done.
Qed.
Lemma interpolate_spec p0 rest t : in_order (p0 :: rest) ->
  forall pl, last (p0 :: rest) = Some pl ->
  ((t < g_time p0 \/ g_time pl <= t) /\ interpolate_lat_lon (p0 :: rest) t = Err ValueError) \/
  (g_time p0 <= t < g_time pl /\ exists i a b, (p0 :: rest) !! i = Some a /\ (p0 :: rest) !! S i = Some b /\ g_time a <= t < g_time b /\
    exists lat lon, on_way a b t lat lon /\
    interpolate_lat_lon (p0 :: rest) t = match g_ele a, g_ele b with
      | None, _ => Ok (lat, lon, compute_bearing (g_lat a) (g_lon a) (g_lat b) (g_lon b), None)
      | Some ea, Some eb => Ok (lat, lon, compute_bearing (g_lat a) (g_lon a) (g_lat b) (g_lon b), Some (((g_time b - t) * ea + (t - g_time a) * eb) / (g_time b - g_time a)))
      | Some _, None => Err TypeError
      end).
Proof.
  intros Hord pl Hl. unfold interpolate_lat_lon. rewrite Hl. cbn [head of_option res_bind].
  destruct (Rlt_dec t (g_time p0)) as [H0|H0]; [left; split; [lra|done]|]. destruct (Rle_dec (g_time pl) t) as [H1|H1]; [left; split; [lra|done]|].
  right. split; [lra|]. cbn [enclosing]. destruct (Rlt_dec t (g_time p0)) as [?|_]; [lra|].
  destruct (enclosing_spec rest p0 t) as (i & a & b & E & Ha & Hb & Ht); [lra| |].
  { exists pl. split; [|lra]. apply last_Some_elem_of in Hl as Hin. apply elem_of_cons in Hin as [->|Hin]; [lra|done]. }
  exists i, a, b. split; [exact Ha|]. split; [exact Hb|]. split; [exact Ht|]. rewrite E. cbn [of_option res_bind].
  exists ((g_lat a * (g_time b - t) + g_lat b * (t - g_time a)) / (t - g_time a + (g_time b - t))), ((g_lon a * (g_time b - t) + g_lon b * (t - g_time a)) / (t - g_time a + (g_time b - t))).
  split. { unfold on_way, reached. split_and!; try lra; field; lra. }
  destruct (g_ele a), (g_ele b); try done. do 3 f_equal. field. lra.
Qed.

(** * Writing a position and reading it back *)
Lemma real_qc z : real (qc z) = IZR z.
Proof. unfold real, qc, Qc_of_Z. cbn [this]. unfold Q2R, inject_Z. cbn [Qnum Qden]. field. Qed.
Lemma real_plus x y : real (x + y)%Qc = real x + real y.
Proof. unfold real. cbn [this Qcplus Q2Qc]. rewrite (Qeq_eqR _ _ (Qred_correct _)). apply Q2R_plus. Qed.
Lemma real_mult x y : real (x * y)%Qc = real x * real y.
Proof. unfold real. cbn [this Qcmult Q2Qc]. rewrite (Qeq_eqR _ _ (Qred_correct _)). apply Q2R_mult. Qed.
Lemma real_opp x : real (- x)%Qc = - real x.
Proof. unfold real. cbn [this Qcopp Q2Qc]. rewrite (Qeq_eqR _ _ (Qred_correct _)). apply Q2R_opp. Qed.
Lemma real_div x y : real y <> 0 -> real (x / y)%Qc = real x / real y.
Proof.
  intros Hy. assert (y <> qc 0) as Hy'. { intros ->. rewrite real_qc in Hy. lra. }
  assert (real x = real (x / y)%Qc * real y) as E. { rewrite <- real_mult. f_equal. unfold Qcdiv. rewrite <- Qcmult_assoc, Qcmult_inv_l; [ring|]. intros E. apply Hy'. rewrite E. apply Qc_is_canon. reflexivity. }
  rewrite E. field. done.
Qed.
Lemma to_deg_value v l0 l1 d m s r : to_deg v l0 l1 = (d, m, s, r) ->
  (0 <= d)%Z /\ (0 <= m < 60)%Z /\ (exists k : Z, (0 <= k <= 60000000)%Z /\ s = IZR k / 1000000) /\ Rabs (IZR d + IZR m / 60 + s / 3600 - Rabs v) <= / (2 * 3600 * 1000000) /\
  r = (if Rlt_dec v 0 then l0 else if Rlt_dec 0 v then l1 else ""%string).
Proof.
  unfold to_deg. intros H. injection H as <- <- <- <-. set (x := Rabs v). assert (0 <= x) as Hx by apply Rabs_pos. pose proof (int_part_bounds x) as [D1 D2].
  set (t1 := (x - IZR (Int_part x)) * 60). assert (0 <= t1 < 60) as Ht by (unfold t1; lra). pose proof (int_part_bounds t1) as [M1 M2].
  set (w := (t1 - IZR (Int_part t1)) * 60 * 1000000). assert (0 <= w < 60000000) as Hw by (unfold w; lra). pose proof (round_even_near w) as Hr.
  assert (- / 2 <= IZR (round_even w) - w <= / 2) as Hr'. { revert Hr. unfold Rabs. destruct (Rcase_abs _); lra. }
  split_and!.
  - assert (IZR (-1) < IZR (Int_part x)) as H%lt_IZR by lra. lia.
  - assert (IZR (-1) < IZR (Int_part t1)) as H%lt_IZR by lra. lia.
  - assert (IZR (Int_part t1) < IZR 60) as H%lt_IZR by lra. lia.
  - exists (round_even w). split; [|done]. split.
    + assert (IZR (-1) < IZR (round_even w)) as H%lt_IZR by lra. lia.
    + assert (IZR (round_even w) < IZR 60000001) as H%lt_IZR by lra. lia.
  - assert (IZR (Int_part x) + IZR (Int_part t1) / 60 + IZR (round_even w) / 1000000 / 3600 - x = (IZR (round_even w) - w) / (3600 * 1000000)) as ->.
    { generalize (IZR (round_even w)). intros RR. unfold w. generalize (IZR (Int_part t1)). intros M. unfold t1. field. }
    apply Rabs_le. lra.
  - done.
Qed.
Lemma gps_to_decimal_degrees v l0 l1 : in_NE (TText l0) = Ok false -> in_NE (TText l1) = Ok true ->
  exists q, gps_to_decimal (exif_degrees (to_deg v l0 l1)) (TText (to_deg v l0 l1).2) = Ok (Some q) /\ Rabs (real q - v) <= / (2 * 3600 * 1000000).
Proof.
  intros H0 H1. destruct (to_deg v l0 l1) as [[[d m] s] r] eqn:E. destruct (to_deg_value _ _ _ _ _ _ _ E) as (_ & _ & (k & Hk & ->) & Hn & Hr).
  assert (in_NE (TText r) = Ok (if Rlt_dec v 0 then false else true)) as HNE. { rewrite Hr. destruct (Rlt_dec v 0); [done|]. destruct (Rlt_dec 0 v); done. }
  unfold exif_degrees, gps_to_decimal. cbn [fst snd]. rewrite HNE. cbn [res_bind index lookup list_lookup of_option eval_frac_value].
  unfold eval_frac. rewrite !decide_False by lia. eexists. split; [reflexivity|].
  assert (py_int (IZR k / 1000000 * 1000000) = k) as ->. { unfold py_int. assert (IZR k / 1000000 * 1000000 = IZR k) as -> by field. apply int_part_IZR. }
  rewrite real_mult, !real_plus, !real_div, !real_qc by (rewrite real_qc; lra).
  assert (real (if (if Rlt_dec v 0 then false else true) then qc 1 else qc (-1)) = if Rlt_dec v 0 then -1 else 1) as ->. { destruct (Rlt_dec v 0); by rewrite real_qc. }
  revert Hn. generalize (IZR d) (IZR m) (IZR k). intros D M K. destruct (Rlt_dec v 0).
  - rewrite (Rabs_left v) by done. intros H. rewrite <- Rabs_Ropp. eapply Rle_trans; [|exact H]. right. f_equal. field.
  - rewrite (Rabs_right v) by lra. intros H. eapply Rle_trans; [|exact H]. right. f_equal. field.
Qed.
Lemma gps_roundtrip parse m lat lon bearing elevation :
  exists qlon qlat, extract_lon_lat parse (add_gps_to_exif m lat lon bearing elevation) [] = Ok (Some qlon, Some qlat) /\
    Rabs (real qlat - lat) <= / (2 * 3600 * 1000000) /\ Rabs (real qlon - lon) <= / (2 * 3600 * 1000000).
Proof.
  destruct (gps_to_decimal_degrees lat "S" "N") as (qlat & E1 & H1); [reflexivity|reflexivity|].
  destruct (gps_to_decimal_degrees lon "W" "E") as (qlon & E2 & H2); [reflexivity|reflexivity|].
  exists qlon, qlat. split; [|done]. set (t := add_gps_to_exif _ _ _ _ _).
  assert (t !! "GPS GPSLatitude"%string = Some (exif_degrees (to_deg lat "S" "N")) /\ t !! "GPS GPSLatitudeRef"%string = Some (TText (to_deg lat "S" "N").2) /\
    t !! "GPS GPSLongitude"%string = Some (exif_degrees (to_deg lon "W" "E")) /\ t !! "GPS GPSLongitudeRef"%string = Some (TText (to_deg lon "W" "E").2)) as (T1 & T2 & T3 & T4).
  { unfold t, add_gps_to_exif. destruct elevation; split_and!; repeat first [rewrite lookup_insert; reflexivity|rewrite lookup_insert_ne by discriminate]. }
  clearbody t. unfold extract_lon_lat, extract_ref_lon_lat. cbn [has_dji_latlon]. rewrite T1, T2, T3, T4. cbn [from_option Datatypes.id]. rewrite E1. cbn [res_bind of_option]. rewrite E2. done.
Qed.
Lemma altitude_roundtrip parse m lat lon bearing e :
  exists q, extract_altitude parse (add_gps_to_exif m lat lon bearing (Some e)) [] = Ok (Some q) /\ Rabs (real q) <= Rabs e < Rabs (real q) + / 100 /\ 0 <= real q * e.
Proof.
  set (t := add_gps_to_exif _ _ _ _ _).
  assert (t !! "GPS GPSAltitude"%string = Some (TValues [VRatio (py_int (Rabs e * 100)) 100]) /\ t !! "GPS GPSAltitudeRef"%string = Some (TValues [VInt (if Rle_dec 0 e then 0 else 1)%Z])) as (T1 & T2).
  { unfold t, add_gps_to_exif. split_and!; repeat first [rewrite lookup_insert; reflexivity|rewrite lookup_insert_ne by discriminate]. }
  clearbody t. unfold extract_altitude, below_sea_level. cbn [has_dji_altitude]. rewrite T1, T2. cbn [index lookup list_lookup of_option res_bind]. unfold eval_frac. rewrite decide_False by lia.
  unfold py_int. pose proof (int_part_bounds (Rabs e * 100)) as [B1 B2]. pose proof (Rabs_pos e) as Hp.
  assert (0 <= IZR (Int_part (Rabs e * 100))) as B0. { apply IZR_le. assert (IZR (-1) < IZR (Int_part (Rabs e * 100))) as H%lt_IZR by lra. lia. }
  set (z := Int_part (Rabs e * 100)) in *. clearbody z.
  assert (real (qc z / qc 100)%Qc = IZR z / 100) as Er. { rewrite real_div, !real_qc by (rewrite real_qc; lra). done. }
  destruct (Rle_dec 0 e) as [H|H].
  - rewrite bool_decide_eq_false_2 by done. eexists. split; [reflexivity|]. rewrite Er. rewrite (Rabs_right (IZR z / 100)) by lra. rewrite (Rabs_right e) in * by lra. split; [lra|]. apply Rmult_le_pos; lra.
  - rewrite bool_decide_eq_true_2 by done. eexists. split; [reflexivity|]. rewrite real_opp, Er. rewrite Rabs_Ropp, (Rabs_right (IZR z / 100)) by lra. rewrite (Rabs_left e) in * by lra. split; [lra|]. assert (0 <= IZR z / 100 * (- e)); [apply Rmult_le_pos; lra|lra].
Qed.

(** * The crossing of a sphere *)
Lemma sphere_crossing A B C r : 0 <= r -> dot (vsub A C) (vsub A C) < r * r -> r * r <= dot (vsub B C) (vsub B C) ->
  let alpha := segment_sphere_intersection A B C r in
  0 < alpha <= 1 /\ let I := vadd A (vscale alpha (vsub B A)) in dot (vsub I C) (vsub I C) = r * r.
Proof.
  intros Hr HA HB. unfold segment_sphere_intersection. cbn zeta. set (AB := vsub B A). set (CA := vsub A C).
  assert (dot (vsub B C) (vsub B C) = dot AB AB + 2 * dot AB CA + dot CA CA) as EB. { unfold AB, CA, dot, vsub. cbn [vx vy vz]. ring. }
  fold CA in HA. rewrite EB in HB.
  assert (forall s, dot (vsub (vadd A (vscale s AB)) C) (vsub (vadd A (vscale s AB)) C) = s * s * dot AB AB + s * (2 * dot AB CA) + dot CA CA) as EI.
  { intros s. unfold AB, CA, dot, vsub, vadd, vscale. cbn [vx vy vz]. ring. }
  rewrite EI. clear EI EB. assert (0 <= dot AB AB) as Ha. { unfold dot. nra. }
  assert (dot AB AB <> 0) as Ha0.
  { intros E. assert (dot AB CA = 0) as E2; [|lra]. unfold dot in E |- *. assert (vx AB = 0 /\ vy AB = 0 /\ vz AB = 0) as (-> & -> & ->) by (split_and!; nra). ring. }
  set (a := dot AB AB) in *. set (b := 2 * dot AB CA) in *. set (c0 := dot CA CA) in *. clearbody a b c0.
  set (c := c0 - r * r). assert (c < 0) as Hc by (unfold c; lra). assert (0 <= a + b + c) as Hf by (unfold c; lra).
  assert (0 < a) as Hpa by lra. assert (b * b < b * b - 4 * a * c) as Hd by nra.
  rewrite Rmax_right by nra. set (q := sqrt _). assert (q * q = b * b - 4 * a * c) as Eq by (apply sqrt_sqrt; nra). assert (0 <= q) as Hq by apply sqrt_pos. clearbody q.
  assert (Rabs b < q) as Hbq. { apply Rsqr_incrst_0; [|apply Rabs_pos|done]. rewrite <- Rsqr_abs. unfold Rsqr. lra. }
  assert (- q < b < q) as Hb by (revert Hbq; unfold Rabs; destruct (Rcase_abs b); lra).
  split; [split|].
  - apply Rdiv_lt_0_compat; lra.
  - apply (Rmult_le_reg_r (2 * a)); [lra|]. unfold Rdiv. rewrite Rmult_assoc, Rinv_l, Rmult_1_l, Rmult_1_r by lra. destruct (Rle_lt_dec q (2 * a + b)) as [H|H]; [lra|exfalso]. destruct (Rle_lt_dec 0 (2 * a + b)) as [H2|H2]; nra.
  - unfold c in Eq. assert ((- b + q) / (2 * a) * ((- b + q) / (2 * a)) * a + (- b + q) / (2 * a) * b + c0 = (q * q - b * b) / (4 * a) + c0) as -> by (field; lra). rewrite Eq. field. lra.
Qed.

(** * Sampling *)
Lemma along_start a b ea eb : g_ele a = Some ea -> g_ele b = Some eb -> along a b a.
Proof. intros Ha Hb. exists 0, ea, eb. split; [lra|]. split; [done|]. split; [done|]. destruct a as [t la lo e]. cbn [g_time g_lat g_lon g_ele] in *. subst e. unfold mix. f_equal; [| | |f_equal]; ring. Qed.
Lemma lerp_along A B a alpha : along A B a -> 0 <= alpha <= 1 -> exists q, gpx_lerp alpha a B = Ok q /\ along A B q /\ g_time q = mix alpha (g_time a) (g_time B).
Proof.
  intros (s & eA & eB & Hs & HA & HB & ->) Hal. unfold gpx_lerp. cbn [g_time g_lat g_lon g_ele]. rewrite HB. eexists. split; [reflexivity|]. split; [|cbn [g_time]; unfold mix; ring].
  exists (s + alpha - s * alpha), eA, eB. split; [split; nra|]. split; [done|]. split; [done|]. f_equal; unfold mix; try ring. f_equal. ring.
Qed.
Lemma along_ele A B a : along A B a -> exists e, g_ele a = Some e.
Proof. intros (s & eA & eB & _ & _ & _ & ->). eauto. Qed.

Section time.
  Context (dt : R) (Hdt : 0 < dt).
  Lemma time_step A B a last : g_time A <= g_time B -> along A B a -> g_time a < g_time last + dt -> g_time last + dt <= g_time B ->
    exists q, time_next_point a B last dt = Ok q /\ along A B q /\ g_time q = g_time last + dt /\ g_time A < g_time B.
  Proof.
    intros HAB Ha H1 H2. unfold time_next_point. destruct (Req_EM_T _ _) as [E|E]; [lra|].
    destruct (lerp_along A B a ((dt - (g_time a - g_time last)) / (g_time B - g_time last - (g_time a - g_time last))) Ha) as (q & Eq & Hq & Ht).
    { split; [apply Rlt_le, Rdiv_lt_0_compat; lra|]. apply (Rmult_le_reg_r (g_time B - g_time last - (g_time a - g_time last))); [lra|]. unfold Rdiv. rewrite Rmult_assoc, Rinv_l by lra. lra. }
    exists q. split; [done|]. split; [done|]. split.
    - rewrite Ht. unfold mix. field. lra.
    - destruct Ha as (s & eA & eB & Hs & _ & _ & ->). cbn [g_time] in *. unfold mix in *. nra.
  Qed.
  Lemma time_advance A B fuel a last keys : g_time A <= g_time B -> along A B a -> g_time a < g_time last + dt -> g_time last <= g_time B -> g_time B - g_time last < INR (S fuel) * dt ->
    exists last' new, advance time_distance time_next_point dt fuel a B last keys = Some (Ok (last', new ++ keys)) /\
      g_time last' <= g_time B < g_time last' + dt /\
      (new = [] /\ last' = last \/ exists new', new = new' ++ [last]) /\
      Forall (fun q => along A B q /\ g_time A < g_time B) (take (length new) (last' :: new)) /\
      forall k q, rev (last' :: new) !! k = Some q -> g_time q = g_time last + INR k * dt.
  Proof.
    intros HAB. revert a last keys. induction fuel as [|fuel IH]; intros a last keys Ha H1 H2 Hf; cbn [advance]; (destruct (Req_EM_T dt 0) as [E|_]; [lra|]); unfold time_distance at 1; (destruct (Rle_dec dt _) as [Hle|Hgt]).
    - cbn [INR] in Hf. lra.
    - exists last, []. split; [done|]. split; [lra|]. split; [by left|]. split; [constructor|]. intros [|k] q Hq; [|done]. cbn in Hq. injection Hq as <-. cbn [INR]. lra.
    - destruct (time_step A B a last HAB Ha H1) as (q & -> & Hq & Tq & Hs); [lra|].
      assert (Rabs (dt - time_distance last q) < / 10) as Hass. { unfold time_distance. rewrite Tq. assert (dt - (g_time last + dt - g_time last) = 0) as -> by ring. rewrite Rabs_R0. lra. }
      destruct (Rlt_dec _ _) as [_|?]; [|done]. rewrite S_INR in Hf.
      destruct (IH q q (last :: keys) Hq) as (last' & new & E & T & Hn & HF & Hk); [lra|lra|lra|].
      exists last', (new ++ [last]). split; [by rewrite <- app_assoc|]. split; [done|]. split; [right; eauto|]. split.
      { rewrite app_length, Nat.add_1_r. rewrite app_comm_cons, take_app_le by (cbn; lia). rewrite firstn_all2 by (cbn; lia).
        destruct Hn as [[-> ->]|[new' ->]]; [by repeat constructor|].
        rewrite app_length, Nat.add_1_r in HF. rewrite app_comm_cons in HF |- *. rewrite take_app_le in HF by (cbn; lia). rewrite firstn_all2 in HF by (cbn; lia). apply Forall_app_2; [done|]. by repeat constructor. }
      intros k x Hx. rewrite app_comm_cons, rev_app_distr in Hx. cbn [rev app] in Hx. destruct k as [|k]; cbn [lookup list_lookup] in Hx.
      + injection Hx as <-. cbn [INR]. lra.
      + rewrite (Hk _ _ Hx), Tq, S_INR. lra.
    - exists last, []. split; [done|]. split; [lra|]. split; [by left|]. split; [constructor|]. intros [|k] q Hq; [|done]. cbn in Hq. injection Hq as <-. cbn [INR]. lra.
  Qed.
  Lemma time_advance_in_order A B fuel a last keys : g_time A <= g_time B -> along A B a -> g_time a < g_time last + dt -> g_time last <= g_time B -> g_time B - g_time last < INR (S fuel) * dt ->
    exists last' keys' new, advance time_distance time_next_point dt fuel a B last keys = Some (Ok (last', keys')) /\ rev keys' ++ [last'] = rev keys ++ last :: new /\
      g_time last' <= g_time B < g_time last' + dt /\ g_time last <= g_time last' /\ list.last (last :: new) = Some last' /\
      Forall (fun q => along A B q /\ g_time A < g_time B) new /\ g_time last' = g_time last + INR (length new) * dt /\
      forall k q, (last :: new) !! k = Some q -> g_time q = g_time last + INR k * dt.
  Proof.
    intros HAB Ha H1 H2 Hf. destruct (time_advance A B fuel a last keys HAB Ha H1 H2 Hf) as (last' & new & E & T & Hn & HF & Hk).
    assert (exists n2, rev (last' :: new) = last :: n2 /\ n2 = rev (take (length new) (last' :: new))) as (n2 & E1 & E2).
    { destruct Hn as [[-> ->]|[new' ->]]; [by exists []|]. eexists. split; [|reflexivity]. rewrite app_length, Nat.add_1_r. rewrite app_comm_cons, take_app_le by (cbn; lia). rewrite firstn_all2 by (cbn; lia). by rewrite rev_app_distr. }
    assert (list.last (last :: n2) = Some last') as El. { rewrite <- E1. cbn [rev]. apply last_snoc. }
    assert (g_time last' = g_time last + INR (length n2) * dt) as Et. { apply Hk. rewrite E1. rewrite last_lookup in El. exact El. }
    exists last', (new ++ keys), n2. split; [done|]. split; [|split; [done|]; split; [|split; [done|]; split; [|split; [done|]]]].
    - rewrite rev_app_distr, <- app_assoc. f_equal. exact E1.
    - rewrite Et. pose proof (pos_INR (length n2)). nra.
    - rewrite E2. apply Forall_rev in HF. exact HF.
    - rewrite <- E1. done.
  Qed.
  Lemma time_segments fuel points a last keys : (forall i p q, (a :: points) !! i = Some p -> (a :: points) !! S i = Some q -> g_time p <= g_time q) ->
    (forall p, p ∈ a :: points -> is_Some (g_ele p)) -> g_time last <= g_time a < g_time last + dt -> (forall b, b ∈ points -> g_time b - g_time last < INR (S fuel) * dt) ->
    exists new, sample_segments time_distance time_next_point dt fuel a points last keys = Some (Ok (rev keys ++ last :: new)) /\
      (forall k q, (last :: new) !! k = Some q -> g_time q = g_time last + INR k * dt) /\
      (forall q, q ∈ new -> exists i p r, (a :: points) !! i = Some p /\ (a :: points) !! S i = Some r /\ g_time p < g_time r /\ along p r q) /\
      forall pl ql, list.last (a :: points) = Some pl -> list.last (last :: new) = Some ql -> g_time ql <= g_time pl < g_time ql + dt.
  Proof.
    revert a last keys. induction points as [|b points IH]; intros a last keys Hord Hele Ht Hf; cbn [sample_segments].
    - exists []. split; [done|]. split; [|split].
      + intros [|k] q Hq; [|done]. injection Hq as <-. cbn [INR]. lra.
      + intros q Hq. by apply elem_of_nil in Hq.
      + intros pl ql Hp Hq. injection Hp as <-. injection Hq as <-. lra.
    - destruct (Hele a) as [ea Ea]; [left|]. destruct (Hele b) as [eb Eb]; [right; left|]. pose proof (Hord 0%nat a b eq_refl eq_refl) as Hab.
      destruct (time_advance_in_order a b fuel a last keys Hab (along_start a b ea eb Ea Eb)) as (last' & keys' & new & -> & E & T & Hle & El & HF & Et & Hk); [lra|lra|apply Hf; left|].
      destruct (IH b last' keys') as (new2 & -> & Hk2 & Ho2 & Hl2).
      { intros i p q Hp Hq. by apply (Hord (S i)). }
      { intros p Hp. apply Hele. by right. }
      { lra. }
      { intros p Hp. assert (g_time p - g_time last < INR (S fuel) * dt); [apply Hf; by right|lra]. }
      exists (new ++ new2). split; [|split; [|split]].
      + do 2 f_equal. rewrite cons_middle, app_assoc, E, <- app_assoc. done.
      + intros k q Hq. rewrite app_comm_cons in Hq. apply lookup_app_Some in Hq as [Hq|[Hge Hq]]; [by apply Hk|]. cbn [length] in *.
        rewrite (Hk2 (S (k - S (length new))) q Hq), Et. rewrite Rplus_assoc, <- Rmult_plus_distr_r, <- plus_INR. do 3 f_equal. lia.
      + intros q Hq. apply elem_of_app in Hq as [Hq|Hq].
        * rewrite Forall_forall in HF. destruct (HF q Hq). exists 0%nat, a, b. done.
        * destruct (Ho2 q Hq) as (i & p & r & H). exists (S i), p, r. exact H.
      + intros pl ql Hp Hq. rewrite last_cons_cons in Hp. apply (Hl2 pl ql Hp).
        destruct new2 as [|x new2]. { rewrite app_nil_r in Hq. by rewrite El in Hq. }
        rewrite app_comm_cons, last_app in Hq. rewrite last_cons_cons. destruct (list.last (x :: new2)) eqn:E2; [done|]. by apply last_None in E2.
  Qed.
End time.

Lemma nat_above x : exists n, x < INR n.
Proof.
  exists (Z.to_nat (up x)). rewrite INR_IZR_INZ. destruct (archimed x) as [H _]. eapply Rlt_le_trans; [exact H|]. apply IZR_le. lia.
Qed.
Lemma advance_mono distance next dx fuel fuel' a b last keys r : (fuel <= fuel')%nat -> advance distance next dx fuel a b last keys = Some r -> advance distance next dx fuel' a b last keys = Some r.
Proof.
  revert fuel' a last keys. induction fuel as [|fuel IH]; intros [|fuel'] a last keys Hle; cbn [advance]; try lia; destruct (Req_EM_T dx 0); try done; destruct (Rle_dec _ _); try done.
  destruct (next a b last dx); [|done]. destruct (Rlt_dec _ _); [|done]. apply IH. lia.
Qed.
Lemma segments_mono distance next dx fuel fuel' a points last keys r : (fuel <= fuel')%nat -> sample_segments distance next dx fuel a points last keys = Some r -> sample_segments distance next dx fuel' a points last keys = Some r.
Proof.
  intros Hle. revert a last keys. induction points as [|b points IH]; intros a last keys; cbn [sample_segments]; [done|].
  destruct (advance distance next dx fuel a b last keys) as [r'|] eqn:E; [|done]. rewrite (advance_mono _ _ _ _ _ _ _ _ _ _ Hle E). destruct r' as [[l k]|]; [apply IH|done].
Qed.
Lemma sample_mono fuel fuel' points dx dt r : (fuel <= fuel')%nat -> sample_gpx fuel points dx dt = Some r -> sample_gpx fuel' points dx dt = Some r.
Proof. intros Hle. destruct points as [|p points]; [done|]. destruct dt; by apply segments_mono. Qed.

Lemma sample_time points p0 dx dt : head points = Some p0 -> 0 < dt -> in_order points -> (forall p, p ∈ points -> is_Some (g_ele p)) ->
  exists keys enough, (forall fuel, (enough <= fuel)%nat -> sample_gpx fuel points dx (Some dt) = Some (Ok keys)) /\ head keys = Some p0 /\
    (forall k q, keys !! k = Some q -> g_time q = g_time p0 + INR k * dt) /\
    (forall k q, keys !! S k = Some q -> exists i p r, points !! i = Some p /\ points !! S i = Some r /\ g_time p < g_time r /\ along p r q) /\
    forall pl ql, last points = Some pl -> last keys = Some ql -> g_time ql <= g_time pl < g_time ql + dt.
Proof.
  intros Hh Hdt Hord Hele. destruct points as [|p points]; [done|]. injection Hh as ->.
  destruct (last (p0 :: points)) as [pl|] eqn:El; [|by apply last_None in El].
  destruct (nat_above ((g_time pl - g_time p0) / dt)) as [n Hn].
  assert (forall fuel, (n <= fuel)%nat -> forall b, b ∈ points -> g_time b - g_time p0 < INR (S fuel) * dt) as Hf.
  { intros fuel Hn2 b Hb. apply elem_of_list_lookup in Hb as [i Hi]. pose proof El as El'. rewrite last_lookup in El'.
    assert (g_time b <= g_time pl) as Hle. { eapply (Hord (S i)); [|exact Hi|exact El']. apply lookup_lt_Some in Hi. cbn. lia. }
    apply le_INR in Hn2. assert ((g_time pl - g_time p0) / dt * dt = g_time pl - g_time p0) as E by (field; lra). rewrite S_INR. nra. }
  assert (forall fuel, (n <= fuel)%nat -> exists new, sample_gpx fuel (p0 :: points) dx (Some dt) = Some (Ok (p0 :: new)) /\
      (forall k q, (p0 :: new) !! k = Some q -> g_time q = g_time p0 + INR k * dt) /\
      (forall q, q ∈ new -> exists i p r, (p0 :: points) !! i = Some p /\ (p0 :: points) !! S i = Some r /\ g_time p < g_time r /\ along p r q) /\
      forall pl ql, list.last (p0 :: points) = Some pl -> list.last (p0 :: new) = Some ql -> g_time ql <= g_time pl < g_time ql + dt) as Hall.
  { intros fuel Hn2. destruct (time_segments dt Hdt fuel points p0 p0 []) as (new & E & H); [|done|lra|by apply Hf|exists new; exact (conj E H)].
    intros i p q Hp Hq. apply (Hord i (S i) p q); [lia|done|done]. }
  destruct (Hall n) as (new & E & H1 & H2 & H3); [lia|]. exists (p0 :: new), n. split; [|split; [done|split; [done|split]]].
  - intros fuel Hfuel. by eapply sample_mono.
  - intros k q Hq. apply H2. apply elem_of_list_lookup. eauto.
  - rewrite <- El. done.
Qed.

(** The time step 0 samples the first point only; a negative one never ends *)
Lemma sample_zero fuel points p0 dx dt : head points = Some p0 -> default dx dt = 0 -> sample_gpx fuel points dx dt = Some (Ok [p0]).
Proof.
  intros Hh Hd. destruct points as [|p points]; [done|]. injection Hh as ->.
  assert (forall distance next a, sample_segments distance next 0 fuel a points p0 [] = Some (Ok [p0])) as H.
  { intros distance next. induction points as [|b points IH]; intros a; [done|]. cbn [sample_segments]. assert (forall f a b l k, advance distance next 0 f a b l k = Some (Ok (l, k))) as ->; [|done].
    intros [|f] *; cbn [advance]; destruct (Req_EM_T 0 0); done. }
  unfold sample_gpx. destruct dt as [dt|]; cbn [from_option Datatypes.id] in Hd; subst; apply H.
Qed.
Lemma negative_advance dt fuel a b last keys : dt < 0 -> g_time a < g_time b -> g_time last <= g_time b -> is_Some (g_ele a) -> is_Some (g_ele b) ->
  advance time_distance time_next_point dt fuel a b last keys = None.
Proof.
  intros Hdt. revert a last keys. induction fuel as [|fuel IH]; intros a last keys Hab Hl Ha Hb; cbn [advance]; (destruct (Req_EM_T dt 0) as [|_]; [lra|]); unfold time_distance at 1; (destruct (Rle_dec _ _) as [_|?]; [|lra]); [done|].
  unfold time_next_point. destruct (Req_EM_T _ _) as [|_]; [lra|]. unfold gpx_lerp. destruct Ha as [ea ->]. destruct Hb as [eb Eb]. rewrite Eb.
  set (alpha := (dt - _) / _). set (q := Gpx _ _ _ _). assert (g_time q = g_time last + dt) as Tq. { unfold q, alpha. cbn [g_time]. field. lra. }
  destruct (Rlt_dec _ _) as [_|Hn].
  - apply IH; [lra|lra|by eexists|by eexists].
  - exfalso. apply Hn. unfold time_distance. rewrite Tq. assert (dt - (g_time last + dt - g_time last) = 0) as -> by ring. rewrite Rabs_R0. lra.
Qed.
Lemma sample_negative fuel p0 p1 rest dx dt : dt < 0 -> g_time p0 < g_time p1 -> is_Some (g_ele p0) -> is_Some (g_ele p1) -> sample_gpx fuel (p0 :: p1 :: rest) dx (Some dt) = None.
Proof. intros. cbn [sample_gpx sample_segments]. rewrite negative_advance; [done|done|done|lra|done|done]. Qed.

(** * Sampling in space *)
Lemma space_distance_dot a b : space_distance a b = sqrt (dot (vsub (ecef_from_lla (g_lat a) (g_lon a) 0) (ecef_from_lla (g_lat b) (g_lon b) 0)) (vsub (ecef_from_lla (g_lat a) (g_lon a) 0) (ecef_from_lla (g_lat b) (g_lon b) 0))).
Proof. unfold space_distance, gps_distance. cbn [fst snd]. f_equal. unfold dot, vsub. cbn [vx vy vz]. ring. Qed.
Lemma space_inside a b dx : space_distance a b < dx -> dot (vsub (ecef_from_lla (g_lat a) (g_lon a) 0) (ecef_from_lla (g_lat b) (g_lon b) 0)) (vsub (ecef_from_lla (g_lat a) (g_lon a) 0) (ecef_from_lla (g_lat b) (g_lon b) 0)) < dx * dx.
Proof.
  rewrite space_distance_dot. set (d := dot _ _). intros H. assert (0 <= d) as Hd by (unfold d, dot; nra). pose proof (sqrt_pos d). rewrite <- (sqrt_sqrt d Hd). nra.
Qed.
Lemma space_outside a b dx : 0 <= dx -> dx <= space_distance a b -> dx * dx <= dot (vsub (ecef_from_lla (g_lat a) (g_lon a) 0) (ecef_from_lla (g_lat b) (g_lon b) 0)) (vsub (ecef_from_lla (g_lat a) (g_lon a) 0) (ecef_from_lla (g_lat b) (g_lon b) 0)).
Proof.
  rewrite space_distance_dot. set (d := dot _ _). intros H0 H. assert (0 <= d) as Hd by (unfold d, dot; nra). rewrite <- (sqrt_sqrt d Hd). nra.
Qed.
Lemma space_distance_sym a b : space_distance a b = space_distance b a.
Proof. rewrite !space_distance_dot. f_equal. unfold dot, vsub. cbn [vx vy vz]. ring. Qed.
Lemma space_distance_self a : space_distance a a = 0.
Proof. rewrite space_distance_dot. unfold dot, vsub. cbn [vx vy vz]. rewrite !Rminus_eq_0, Rmult_0_l, !Rplus_0_l. apply sqrt_0. Qed.
Lemma space_step A B a last dx : 0 < dx -> along A B a -> space_distance last a < dx -> dx <= space_distance last B ->
  exists q, space_next_point a B last dx = Ok q /\ along A B q.
Proof.
  intros Hdx Ha H1 H2. unfold space_next_point.
  destruct (sphere_crossing (ecef_from_lla (g_lat a) (g_lon a) 0) (ecef_from_lla (g_lat B) (g_lon B) 0) (ecef_from_lla (g_lat last) (g_lon last) 0) dx) as [Hal _].
  { lra. } { apply space_inside. by rewrite space_distance_sym. } { apply space_outside; [lra|]. by rewrite space_distance_sym. }
  destruct (lerp_along A B a _ Ha (conj (Rlt_le _ _ (proj1 Hal)) (proj2 Hal))) as (q & Eq & Hq & _). eauto.
Qed.
Definition close (dx : R) (p q : gpx_point) : Prop := Rabs (dx - space_distance p q) < / 10.
Lemma space_advance A B dx fuel a last keys : 0 < dx -> along A B a -> space_distance last a < dx ->
  match advance space_distance space_next_point dx fuel a B last keys with
  | Some (Ok (last', keys')) => space_distance last' B < dx /\ exists new, rev keys' ++ [last'] = rev keys ++ last :: new /\ list.last (last :: new) = Some last' /\
      Forall (along A B) new /\ forall k p q, (last :: new) !! k = Some p -> new !! k = Some q -> close dx p q
  | Some (Err e) => e = AssertionError
  | None => True
  end.
Proof.
  intros Hdx. revert a last keys. induction fuel as [|fuel IH]; intros a last keys Ha H1; cbn [advance]; (destruct (Req_EM_T dx 0) as [|_]; [lra|]); (destruct (Rle_dec dx _) as [Hle|Hgt]).
  - done.
  - split; [lra|]. exists []. split; [done|]. split; [done|]. split; [constructor|]. done.
  - destruct (space_step A B a last dx Hdx Ha H1 Hle) as (q & -> & Hq). destruct (Rlt_dec _ _) as [Hc|_]; [|done].
    specialize (IH q q (last :: keys) Hq). rewrite space_distance_self in IH. specialize (IH Hdx).
    destruct (advance _ _ _ _ _ _ _ _) as [[[l' k']|e]|]; [|done|done]. destruct IH as (Hd & new & E & El & HF & Hk). split; [done|].
    exists (q :: new). split; [|split; [|split]].
    + rewrite E. cbn [rev]. by rewrite <- app_assoc.
    + by rewrite last_cons_cons.
    + by constructor.
    + intros [|k] p r Hp Hr; [|by apply (Hk k)]. injection Hp as <-. injection Hr as <-. done.
  - split; [lra|]. exists []. split; [done|]. split; [done|]. split; [constructor|]. done.
Qed.
Lemma space_segments dx fuel points a last keys : 0 < dx -> (forall p, p ∈ a :: points -> is_Some (g_ele p)) -> space_distance last a < dx ->
  match sample_segments space_distance space_next_point dx fuel a points last keys with
  | Some (Ok all) => exists new, all = rev keys ++ last :: new /\ (forall q, q ∈ new -> on_track (a :: points) q) /\
      (forall k p q, (last :: new) !! k = Some p -> new !! k = Some q -> close dx p q) /\
      forall pl ql, list.last (a :: points) = Some pl -> list.last (last :: new) = Some ql -> space_distance ql pl < dx
  | Some (Err e) => e = AssertionError
  | None => True
  end.
Proof.
  intros Hdx. revert a last keys. induction points as [|b points IH]; intros a last keys Hele Hl; cbn [sample_segments].
  - exists []. split; [done|]. split; [by intros q ?%elem_of_nil|]. split; [done|]. intros pl ql [= <-] [= <-]. done.
  - destruct (Hele a) as [ea Ea]; [left|]. destruct (Hele b) as [eb Eb]; [right; left|].
    pose proof (space_advance a b dx fuel a last keys Hdx (along_start a b ea eb Ea Eb) Hl) as H. destruct (advance _ _ _ _ _ _ _ _) as [[[last' keys']|e]|]; [|done|done].
    destruct H as (Hd & new & E & El & HF & Hk). specialize (IH b last' keys'). destruct (sample_segments _ _ _ _ _ _ _ _) as [[all|e]|]; [|apply IH; [intros p Hp; apply Hele; by right|done]|done].
    destruct IH as (new2 & -> & Ho2 & Hk2 & Hl2); [intros p Hp; apply Hele; by right|done|].
    exists (new ++ new2). split; [|split; [|split]].
    + rewrite cons_middle, app_assoc, E, <- app_assoc. done.
    + intros q Hq. apply elem_of_app in Hq as [Hq|Hq].
      * rewrite Forall_forall in HF. exists 0%nat, a, b. split; [done|]. split; [done|]. by apply HF.
      * destruct (Ho2 q Hq) as (i & p & r & H). exists (S i), p, r. exact H.
    + intros k p q Hp Hq. apply lookup_app_Some in Hq as [Hq|[Hge Hq]].
      * apply (Hk k); [|done]. rewrite app_comm_cons in Hp. apply lookup_lt_Some in Hq as Hlt. rewrite lookup_app_l in Hp; [done|cbn; lia].
      * apply (Hk2 (k - length new)%nat); [|done]. destruct (decide (k = length new)) as [->|Hne].
        -- rewrite Nat.sub_diag. cbn. rewrite app_comm_cons in Hp. rewrite lookup_app_l in Hp by (cbn; lia). rewrite last_lookup in El. cbn [length Init.Nat.pred] in El. congruence.
        -- rewrite app_comm_cons in Hp. rewrite lookup_app_r in Hp by (cbn; lia). cbn [length] in Hp. replace (k - length new)%nat with (S (k - S (length new))) by lia. exact Hp.
    + intros pl ql Hp Hq. rewrite last_cons_cons in Hp. apply (Hl2 pl ql Hp).
      destruct new2 as [|x new2]. { rewrite app_nil_r in Hq. by rewrite El in Hq. }
      rewrite app_comm_cons, last_app in Hq. rewrite last_cons_cons. destruct (list.last (x :: new2)) eqn:E2; [done|]. by apply last_None in E2.
Qed.
