(** Proofs about the positions read from image files and the reference. *)
From stdpp Require Import prelude strings gmap numbers.
From Coq Require Import Ascii QArith Qcanon Field.
From Verif Require Import Base TextModel PyText ExifModel ExifSpec.
Local Open Scope string_scope.
Local Open Scope list_scope.

Lemma qc_inj a b : qc a = qc b -> a = b.
Proof. apply Z2Qc_inj. Qed.
Lemma qc_neq0 z : z <> 0%Z -> qc z <> 0%Qc.
Proof. intros H E. apply H, qc_inj. rewrite E. apply Qc_is_canon. reflexivity. Qed.
Lemma qc_0 : qc 0 = 0%Qc. Proof. apply Qc_is_canon. reflexivity. Qed.
Lemma qc_1 : qc 1 = 1%Qc. Proof. apply Qc_is_canon. reflexivity. Qed.
Lemma qc_m1 : qc (-1) = (- (1))%Qc. Proof. apply Qc_is_canon. reflexivity. Qed.

Lemma eval_frac_is n d q : d <> 0%Z -> (q * qc d = qc n)%Qc -> eval_frac n d = Some q.
Proof.
  intros Hd E. unfold eval_frac. rewrite decide_False by done. f_equal. rewrite <-E. pose proof (qc_neq0 d Hd). field. done.
Qed.
Lemma ratio_eval v q : ratio_is v q -> eval_frac_value v = Ok (Some q).
Proof. intros (n & d & -> & Hd & E). cbn. by rewrite (eval_frac_is n d q). Qed.
Lemma ratio_unique v q q' : ratio_is v q -> ratio_is v q' -> q = q'.
Proof. intros H H'. apply ratio_eval in H, H'. rewrite H in H'. by injection H'. Qed.
Lemma ratio_is_Some v q : is_ratio v -> eval_frac_value v = Ok (Some q) -> ratio_is v q.
Proof.
  intros (n & d & ->). cbn. unfold eval_frac. case_decide; [done|]. intros [= <-]. exists n, d. split; [done|]. split; [done|].
  pose proof (qc_neq0 d H). field. done.
Qed.

Lemma in_NE_spec s : in_NE (TText s) = Ok (bool_decide (s ∈ [""; "N"; "E"; "NE"])).
Proof. done. Qed.
(** The decimal angle of three ratios *)
Lemma decimal_spec v0 v1 v2 d m s r : ratio_is v0 d -> ratio_is v1 m -> ratio_is v2 s ->
  gps_to_decimal (TValues [v0; v1; v2]) (TText r) =
    Ok (Some (if bool_decide (r ∈ [""; "N"; "E"; "NE"]) then dms d m s else (- dms d m s)%Qc)).
Proof.
  intros H0 H1 H2. unfold gps_to_decimal. cbn. rewrite (ratio_eval _ _ H0), (ratio_eval _ _ H1), (ratio_eval _ _ H2). cbn.
  do 2 f_equal. unfold dms. destruct (bool_decide _); [rewrite qc_1; ring|rewrite qc_m1; ring].
Qed.

Lemma lookup_ref (t : tags) k d r : (t !! k = None /\ r = d) \/ t !! k = Some r -> default d (t !! k) = r.
Proof. intros [[-> ->]| ->]; done. Qed.

Lemma states_angle_read t key ref plus minus a : states_angle t key ref plus minus a ->
  plus ∈ [""; "N"; "E"; "NE"] -> minus ∉ [""; "N"; "E"; "NE"] ->
  exists v, t !! key = Some v /\ gps_to_decimal v (default (TText plus) (t !! ref)) = Ok (Some a).
Proof.
  intros (v0 & v1 & v2 & d & m & s & Hk & H0 & H1 & H2 & H) Hp Hm. exists (TValues [v0; v1; v2]). split; [done|].
  destruct H as [[H ->]|[H ->]].
  - replace (default (TText plus) (t !! ref)) with (TText plus) by (by destruct H as [-> | ->]).
    rewrite (decimal_spec _ _ _ d m s) by done. by rewrite bool_decide_eq_true_2.
  - rewrite H. change (default (TText plus) (Some (TText minus))) with (TText minus). rewrite (decimal_spec _ _ _ d m s) by done. by rewrite bool_decide_eq_false_2.
Qed.

Lemma no_dji_latlon xmp : no_dji xmp -> has_dji_latlon xmp = false.
Proof. destruct xmp as [|x xmp]; [done|]. intros [H _]. apply bool_decide_eq_false_2. intros [[? E] [? E']]. destruct H; congruence. Qed.
Lemma no_dji_altitude xmp : no_dji xmp -> has_dji_altitude xmp = false.
Proof. destruct xmp as [|x xmp]; [done|]. intros [_ H]. apply bool_decide_eq_false_2. intros [? E]. congruence. Qed.

Lemma extract_lon_lat_spec pf t xmp lat lon : no_dji xmp -> states_latitude t lat -> states_longitude t lon ->
  extract_lon_lat pf t xmp = Ok (Some lon, Some lat).
Proof.
  intros Hx Hla Hlo. unfold extract_lon_lat. rewrite no_dji_latlon by done.
  destruct (states_angle_read _ _ _ _ _ _ Hla) as (v & Ev & Ela); [set_solver|set_solver|].
  destruct (states_angle_read _ _ _ _ _ _ Hlo) as (w & Ew & Elo); [set_solver|set_solver|].
  rewrite Ev. unfold extract_ref_lon_lat. rewrite Ela. cbn. rewrite Ew. cbn. rewrite Elo. done.
Qed.

Lemma extract_altitude_spec pf t xmp a : no_dji xmp -> states_altitude t a -> extract_altitude pf t xmp = Ok (Some a).
Proof.
  intros Hx (v & q & E & Hv & H). unfold extract_altitude. rewrite no_dji_altitude by done. rewrite E. cbn.
  destruct Hv as (n & d & -> & Hd & Hq). rewrite (eval_frac_is n d q) by done.
  unfold below_sea_level. destruct H as [[[H|H] ->]|[H ->]]; rewrite H; reflexivity.
Qed.
Lemma extract_dop_spec t q : states_dop t q -> extract_dop t = Ok (Some q).
Proof. intros (v & E & Hv). unfold extract_dop. rewrite E. cbn. by apply ratio_eval. Qed.

Lemma is_ratio_eval v : is_ratio v -> exists o, eval_frac_value v = Ok o.
Proof. intros (n & d & ->). by eexists. Qed.
Lemma decimal_total l r : length l = 3%nat -> Forall is_ratio l -> exists o, gps_to_decimal (TValues l) (TText r) = Ok o.
Proof.
  intros Hl H. destruct l as [|v0 [|v1 [|v2 [|]]]]; try done. inversion_clear H as [|? ? H0 H']. inversion_clear H' as [|? ? H1 H''].
  inversion_clear H'' as [|? ? H2 _]. unfold gps_to_decimal. cbn.
  destruct (is_ratio_eval v0) as [o0 E0]; [done|]. destruct (is_ratio_eval v1) as [o1 E1]; [done|]. destruct (is_ratio_eval v2) as [o2 E2]; [done|].
  rewrite E0, E1, E2. cbn. destruct o0, o1, o2; by eexists.
Qed.
Lemma decimal_Some l r a : length l = 3%nat -> Forall is_ratio l -> gps_to_decimal (TValues l) (TText r) = Ok (Some a) ->
  exists v0 v1 v2 d m s, l = [v0; v1; v2] /\ ratio_is v0 d /\ ratio_is v1 m /\ ratio_is v2 s /\
    a = (if bool_decide (r ∈ [""; "N"; "E"; "NE"]) then dms d m s else (- dms d m s)%Qc).
Proof.
  intros Hl H E. destruct l as [|v0 [|v1 [|v2 [|]]]]; try done. inversion_clear H as [|? ? H0 H']. inversion_clear H' as [|? ? H1 H''].
  inversion_clear H'' as [|? ? H2 _].
  destruct (is_ratio_eval v0) as [o0 E0]; [done|]. destruct (is_ratio_eval v1) as [o1 E1]; [done|]. destruct (is_ratio_eval v2) as [o2 E2]; [done|].
  assert (exists d m s, o0 = Some d /\ o1 = Some m /\ o2 = Some s) as (d & m & s & -> & -> & ->).
  { unfold gps_to_decimal in E. cbn in E. rewrite E0, E1, E2 in E. cbn in E. destruct o0, o1, o2; try done. by eexists _, _, _. }
  apply ratio_is_Some in E0, E1, E2; try done. exists v0, v1, v2, d, m, s. do 4 (split; [done|]).
  rewrite (decimal_spec v0 v1 v2 d m s) in E by done. by injection E.
Qed.

Lemma text_default (t : tags) k s : text (t !! k) -> exists r, default (TText s) (t !! k) = TText r.
Proof. intros H. destruct (t !! k) as [v|] eqn:E; [|by eexists]. by apply H. Qed.

Lemma extract_geo_total pf t xmp : no_dji xmp -> standard_gps t -> exists g, extract_geo pf t xmp = Ok g.
Proof.
  intros Hx (Hla & Hlo & Hboth & Hrla & Hrlo & Hal & Hra & Hd). unfold extract_geo.
  assert (exists a, extract_altitude pf t xmp = Ok a) as [a ->].
  { unfold extract_altitude. rewrite no_dji_altitude by done. destruct (t !! "GPS GPSAltitude") as [v|] eqn:E; [|by eexists].
    destruct (Hal v eq_refl) as (l & -> & Hl & Hr). destruct l as [|x [|]]; try done. cbn.
    unfold below_sea_level. destruct (t !! "GPS GPSAltitudeRef") as [w|] eqn:E'; [|by eexists].
    destruct (Hra w eq_refl) as (z & ->). cbn. by eexists. }
  assert (exists d, extract_dop t = Ok d) as [d ->].
  { unfold extract_dop. destruct (t !! "GPS GPSDOP") as [v|] eqn:E; [|by eexists].
    destruct (Hd v eq_refl) as (l & -> & Hl & Hr). destruct l as [|x [|]]; try done. cbn. inversion_clear Hr. by apply is_ratio_eval. }
  assert (exists p, extract_lon_lat pf t xmp = Ok p) as [[lo la] ->].
  { unfold extract_lon_lat. rewrite no_dji_latlon by done. destruct (t !! "GPS GPSLatitude") as [v|] eqn:E; [|by eexists].
    destruct Hboth as [w Ew]; [done|]. rewrite Ew in *. destruct (Hla v eq_refl) as (l & -> & Hl & Hr). destruct (Hlo w eq_refl) as (l' & -> & Hl' & Hr').
    unfold extract_ref_lon_lat. destruct (text_default t "GPS GPSLatitudeRef" "N") as [r ->]; [done|].
    destruct (text_default t "GPS GPSLongitudeRef" "E") as [r' ->]; [done|].
    destruct (decimal_total l r) as [o ->]; [done..|]. cbn [res_bind of_option].
    destruct (decimal_total l' r') as [o' ->]; [done..|]. by eexists. }
  cbn. by eexists.
Qed.

(** ** The reference *)
Local Open Scope Qc_scope.
Lemma qc_max_l a b : a <= qc_max a b.
Proof. unfold qc_max. case_decide; [done|apply Qcle_refl]. Qed.
Lemma qc_pos z : (0 < z)%Z -> 0 < qc z.
Proof. intros H. rewrite <-qc_0. unfold qc. by rewrite <-Z2Qc_inj_lt. Qed.
Lemma qc_div_pos a b : 0 < a -> 0 < b -> 0 < a / b.
Proof.
  intros Ha Hb. unfold Qcdiv. apply Qcnot_le_lt. intros H. assert (a * / b * b <= 0 * b) as H'.
  { apply Qcmult_le_compat_r; [done|]. by apply Qclt_le_weak. }
  replace (a * / b * b) with a in H'; [|field; intros ->; by apply Qclt_not_eq in Hb].
  replace (0 * b) with 0 in H' by ring. by apply Qcle_not_lt in H'.
Qed.
Lemma gps_weight_pos g : 0 < gps_weight g.
Proof.
  unfold gps_weight. apply qc_div_pos; [by apply qc_pos|]. eapply Qclt_le_trans; [|apply qc_max_l].
  apply qc_div_pos; by apply qc_pos.
Qed.

(** A weighted sum of positions between bounds *)
Definition between (a b : Qc) (w s : Qc) : Prop := w * a <= s /\ s <= w * b.
Lemma between_add a b w s x y : between a b w s -> a <= x -> x <= b -> 0 < y -> between a b (w + y) (s + y * x).
Proof.
  intros [H1 H2] Ha Hb Hy. assert (y * a <= y * x) by (rewrite (Qcmult_comm y a), (Qcmult_comm y x); apply Qcmult_le_compat_r; [done|by apply Qclt_le_weak]).
  assert (y * x <= y * b) by (rewrite (Qcmult_comm y b), (Qcmult_comm y x); apply Qcmult_le_compat_r; [done|by apply Qclt_le_weak]).
  split.
  - replace ((w + y) * a) with (w * a + y * a) by ring. by apply Qcplus_le_compat.
  - replace ((w + y) * b) with (w * b + y * b) by ring. by apply Qcplus_le_compat.
Qed.
Lemma between_div a b w s : 0 < w -> between a b w s -> a <= s / w /\ s / w <= b.
Proof.
  intros Hw [H1 H2]. assert (w <> 0) as Hn by (intros ->; by apply Qclt_not_eq in Hw).
  assert (0 < / w) as Hi. { replace (/ w) with (1 / w) by (field; done). apply qc_div_pos; [done|done]. }
  apply Qclt_le_weak in Hi. split.
  - replace a with (w * a * / w) by (field; done). unfold Qcdiv. by apply Qcmult_le_compat_r.
  - replace b with (w * b * / w) by (field; done). unfold Qcdiv. by apply Qcmult_le_compat_r.
Qed.

(** Every position is between the bounds *)
Definition all_within (a b a' b' : Qc) (l : list (option (Qc * Qc))) : Prop :=
  Forall (fun p => forall la lo, p = Some (la, lo) -> (a <= la /\ la <= b) /\ (a' <= lo /\ lo <= b')) l.
Definition sums_within a b a' b' (s : Qc * Qc * Qc) : Prop := 0 <= s.2 /\ between a b s.2 s.1.1 /\ between a' b' s.2 s.1.2.
Lemma between_0 a b : between a b 0 0.
Proof. split; replace (0 * a) with 0 by ring; replace (0 * b) with 0 by ring; apply Qcle_refl. Qed.

Definition add_gps := (fun '(lat, lon, w) g =>
    match gps_latlon g with
    | Some (la, lo) => ((lat + gps_weight g * la)%Qc, (lon + gps_weight g * lo)%Qc, (w + gps_weight g)%Qc)
    | None => (lat, lon, w)
    end : Qc * Qc * Qc).
Definition add_gcp := (fun '(lat, lon, w) (p : option (Qc * Qc)) =>
    match p with Some (la, lo) => ((lat + la)%Qc, (lon + lo)%Qc, (w + qc 1)%Qc) | None => (lat, lon, w) end : Qc * Qc * Qc).

Lemma fold_gps a b a' b' images : forall s, sums_within a b a' b' s -> all_within a b a' b' (gps_latlon <$> images) ->
  sums_within a b a' b' (foldl add_gps s images) /\ s.2 <= (foldl add_gps s images).2 /\
  (Exists (fun g => is_Some (gps_latlon g)) images -> s.2 < (foldl add_gps s images).2).
Proof.
  induction images as [|g images IH]; intros s Hs Hw.
  - cbn. split; [done|]. split; [apply Qcle_refl|]. intros H. by inversion H.
  - cbn [foldl]. inversion_clear Hw as [|? ? Hg Hw']. destruct s as [[lat lon] w]. destruct Hs as (Hw0 & Hla & Hlo). cbn [fst snd] in *.
    pose proof (gps_weight_pos g) as Hp.
    destruct (gps_latlon g) as [[la lo]|] eqn:E.
    + destruct (Hg la lo eq_refl) as [[Ha Hb] [Ha' Hb']].
      assert (w < w + gps_weight g) as Hlt.
      { rewrite <-(Qcplus_0_r w) at 1. apply Qcplus_lt_compat_l || idtac. replace (w + 0) with (0 + w) by ring. replace (w + gps_weight g) with (gps_weight g + w) by ring.
        apply Qcplus_lt_mono_r. done. }
      destruct (IH (lat + gps_weight g * la, lon + gps_weight g * lo, w + gps_weight g)) as (H1 & H2 & H3).
      { split; [|split]; cbn [fst snd]; [|by apply between_add..]. apply Qclt_le_weak. eapply Qcle_lt_trans; done. }
      { done. }
      cbn [fst snd] in *. assert (add_gps (lat, lon, w) g = (lat + gps_weight g * la, lon + gps_weight g * lo, w + gps_weight g)) as -> by (cbn; by rewrite E).
      split; [done|]. split; [|intros _].
      * apply Qclt_le_weak. by eapply Qclt_le_trans.
      * by eapply Qclt_le_trans.
    + destruct (IH (lat, lon, w)) as (H1 & H2 & H3); [done|done|]. assert (add_gps (lat, lon, w) g = (lat, lon, w)) as -> by (cbn; by rewrite E). cbn [fst snd] in *.
      split; [done|]. split; [done|]. intros H. apply H3. inversion H as [? ? [? E']|]; subst; [congruence|done].
Qed.
Lemma fold_gcp a b a' b' gcps : forall s, sums_within a b a' b' s -> all_within a b a' b' gcps ->
  sums_within a b a' b' (foldl add_gcp s gcps) /\ s.2 <= (foldl add_gcp s gcps).2 /\
  (Exists is_Some gcps -> s.2 < (foldl add_gcp s gcps).2).
Proof.
  induction gcps as [|p gcps IH]; intros s Hs Hw.
  - cbn. split; [done|]. split; [apply Qcle_refl|]. intros H. by inversion H.
  - cbn [foldl]. inversion_clear Hw as [|? ? Hg Hw']. destruct s as [[lat lon] w]. destruct Hs as (Hw0 & Hla & Hlo). cbn [fst snd] in *.
    destruct p as [[la lo]|].
    + destruct (Hg la lo eq_refl) as [[Ha Hb] [Ha' Hb']]. assert (0 < qc 1) as Hp by (by apply qc_pos).
      assert (w < w + qc 1) as Hlt.
      { rewrite <-(Qcplus_0_r w) at 1. replace (w + 0) with (0 + w) by ring. replace (w + qc 1) with (qc 1 + w) by ring.
        apply Qcplus_lt_mono_r. done. }
      destruct (IH (lat + la, lon + lo, w + qc 1)) as (H1 & H2 & H3).
      { split; [|split]; cbn [fst snd].
        - apply Qclt_le_weak. eapply Qcle_lt_trans; done.
        - replace (lat + la) with (lat + qc 1 * la) by (rewrite qc_1; ring). by apply between_add.
        - replace (lon + lo) with (lon + qc 1 * lo) by (rewrite qc_1; ring). by apply between_add. }
      { done. }
      cbn [fst snd] in *. change (add_gcp (lat, lon, w) (Some (la, lo))) with (lat + la, lon + lo, w + qc 1). split; [done|]. split; [|intros _].
      * apply Qclt_le_weak. by eapply Qclt_le_trans.
      * by eapply Qclt_le_trans.
    + destruct (IH (lat, lon, w)) as (H1 & H2 & H3); [done|done|]. change (add_gcp (lat, lon, w) None) with (lat, lon, w). cbn [fst snd] in *.
      split; [done|]. split; [done|]. intros H. apply H3. inversion H as [? ? [? E']|]; subst; [congruence|done].
Qed.

Lemma gps_weight_spec g : precision_weight (gps_dop g) (gps_weight g).
Proof.
  unfold precision_weight, gps_weight. set (d := default (qc 15) (gps_dop g)). clearbody d. rewrite qc_1.
  assert (0 < 1 / qc 100) as Hp by (apply qc_div_pos; [done|by apply qc_pos]).
  split; intros H; unfold qc_max.
  - rewrite decide_True by done. assert (0 < d) as Hd by (by eapply Qclt_le_trans). field. intros ->. by apply Qclt_not_eq in Hd.
  - rewrite decide_False by done. assert (qc 100 <> 0) by (by apply qc_neq0). field. split; [done|]. intros E. by apply Qclt_not_eq in Hp.
Qed.

(** The positions with their weights *)
Definition weighted (f : Qc * Qc -> Qc) (images : list gps) : list (Qc * Qc) :=
  omap (fun g => (fun p => (gps_weight g, f p)) <$> gps_latlon g) images.
Lemma total_cons x l : total (x :: l) = x + total l. Proof. done. Qed.
Lemma total_nil : total [] = 0. Proof. done. Qed.
Lemma weighted_some f g p images : gps_latlon g = Some p -> weighted f (g :: images) = (gps_weight g, f p) :: weighted f images.
Proof. intros E. unfold weighted. cbn. by rewrite E. Qed.
Lemma weighted_none f g images : gps_latlon g = None -> weighted f (g :: images) = weighted f images.
Proof. intros E. unfold weighted. cbn. by rewrite E. Qed.
Lemma fold_gps_sums images : forall s, foldl add_gps s images =
  (s.1.1 + total ((fun p => p.1 * p.2) <$> weighted fst images), s.1.2 + total ((fun p => p.1 * p.2) <$> weighted snd images), s.2 + total (weighted fst images).*1).
Proof.
  induction images as [|g images IH]; intros [[lat lon] w].
  - cbn [foldl fst snd]. change (weighted fst []) with (@nil (Qc * Qc)). change (weighted snd []) with (@nil (Qc * Qc)). rewrite !fmap_nil, total_nil.
    apply (f_equal2 pair); [apply (f_equal2 pair); ring|ring].
  - cbn [foldl]. rewrite IH. unfold add_gps. destruct (gps_latlon g) as [[la lo]|] eqn:E; cbn [fst snd].
    + rewrite !(weighted_some _ _ _ _ E), !fmap_cons, !total_cons. cbn [fst snd]. apply (f_equal2 pair); [apply (f_equal2 pair); ring|ring].
    + by rewrite !(weighted_none _ _ _ E).
Qed.
Lemma weighted_weights images : (weighted snd images).*1 = (weighted fst images).*1.
Proof.
  induction images as [|g images IH]; [done|]. destruct (gps_latlon g) as [[la lo]|] eqn:E.
  - rewrite !(weighted_some _ _ _ _ E), !fmap_cons, IH. done.
  - by rewrite !(weighted_none _ _ _ E).
Qed.
Lemma fold_gcp_sums gcps : forall s, foldl add_gcp s gcps =
  (s.1.1 + total (omap (fmap fst) gcps), s.1.2 + total (omap (fmap snd) gcps), s.2 + qc (Z.of_nat (length (omap id gcps)))).
Proof.
  induction gcps as [|p gcps IH]; intros [[lat lon] w].
  - cbn [foldl fst snd omap list_omap length]. change (Z.of_nat 0) with 0%Z. rewrite qc_0, total_nil. apply (f_equal2 pair); [apply (f_equal2 pair); ring|ring].
  - cbn [foldl]. rewrite IH. destruct p as [[la lo]|]; [|done]. cbn [fst snd add_gcp].
    change (omap (fmap fst) (Some (la, lo) :: gcps)) with (la :: omap (fmap fst) gcps). change (omap (fmap snd) (Some (la, lo) :: gcps)) with (lo :: omap (fmap snd) gcps).
    change (omap id (Some (la, lo) :: gcps)) with ((la, lo) :: omap id gcps). rewrite !total_cons. cbn [length].
    apply (f_equal2 pair); [apply (f_equal2 pair); ring|]. rewrite Nat2Z.inj_succ, <-Z.add_1_r. unfold qc. rewrite Z2Qc_inj_add. ring.
Qed.
