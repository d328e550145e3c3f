(** Proofs about capture times. *)
From stdpp Require Import prelude strings pretty numbers gmap.
From Coq Require Import Ascii QArith Qcanon.
From Verif Require Import Base TextModel TextProofs PyText ExifModel ExifSpec ExifProofs CaptureModel CaptureSpec.
Local Open Scope string_scope.
Local Open Scope list_scope.
Local Open Scope Z_scope.

(** ** The calendar *)
Lemma is_leap_spec y : is_leap y = true <-> leap_year y.
Proof.
  unfold is_leap, leap_year. rewrite andb_true_iff, orb_true_iff, negb_true_iff, Z.eqb_neq, !Z.eqb_eq.
  rewrite !Z.mod_divide by done. done.
Qed.
Lemma month_length_iff y m n : month_length y m n <-> 1 <= m <= 12 /\ n = days_in_month y m.
Proof.
  unfold month_length, days_in_month. rewrite !elem_of_cons, elem_of_nil. pose proof (is_leap_spec y) as H. split.
  - intros [[-> [[Hl ->]|[Hl ->]]]|[[Hm ->]|[Hm ->]]].
    + split; [lia|]. rewrite decide_True by done. apply H in Hl. by rewrite Hl.
    + split; [lia|]. rewrite decide_True by done. destruct (is_leap y); [|done]. by destruct Hl; apply H.
    + split; [lia|]. rewrite decide_False by lia. rewrite decide_True by lia. done.
    + split; [lia|]. rewrite decide_False by lia. rewrite decide_False by lia. done.
  - intros [Hm ->]. destruct (decide (m = 2)) as [-> |Hn].
    + left. split; [done|]. destruct (is_leap y); [left; split; [by apply H|done]|right; split; [|done]]. intros Hl. apply H in Hl. done.
    + right. case_decide; [left|right]; (split; [lia|done]).
Qed.
Lemma days_in_month_pos y m : 28 <= days_in_month y m <= 31.
Proof. unfold days_in_month. repeat case_decide; destruct (is_leap y); lia. Qed.
Lemma dby_next y : days_before_year (y + 1) = days_before_year y + 365 + (if is_leap y then 1 else 0).
Proof.
  unfold days_before_year, is_leap. replace (y + 1 - 1) with y by lia.
  destruct (Z.eqb_spec (y mod 4) 0), (Z.eqb_spec (y mod 100) 0), (Z.eqb_spec (y mod 400) 0); cbn [andb orb negb];
    Z.to_euclidean_division_equations; lia.
Qed.
Lemma dbm_1 y : days_before_month y 1 = 0.
Proof. done. Qed.
Lemma foldr_add_app l x : foldr Z.add 0 (l ++ [x]) = foldr Z.add 0 l + x.
Proof. induction l as [|a l IH]; cbn; [lia|]. rewrite IH. lia. Qed.
Lemma dbm_next y m : 1 <= m -> days_before_month y (m + 1) = days_before_month y m + days_in_month y m.
Proof.
  intros Hm. unfold days_before_month. replace (m + 1 - 1) with ((m - 1) + 1) by lia. rewrite seqZ_app by lia. rewrite fmap_app.
  replace (1 + (m - 1)) with m by lia. replace (seqZ m 1) with [m]; [apply foldr_add_app|].
  unfold seqZ. cbn. f_equal.
Qed.
Lemma dbm_mono y m m' : 1 <= m -> m <= m' -> days_before_month y m <= days_before_month y m'.
Proof.
  intros Hm Hle. replace m' with (m + Z.of_nat (Z.to_nat (m' - m))) by lia. generalize (Z.to_nat (m' - m)). intros k. induction k as [|k IH]; [rewrite Z.add_0_r; lia|].
  replace (m + Z.of_nat (S k)) with (m + Z.of_nat k + 1) by lia. rewrite dbm_next by lia. pose proof (days_in_month_pos y (m + Z.of_nat k)). lia.
Qed.
Lemma dbm_12 y : days_before_month y 12 + 31 = 365 + (if is_leap y then 1 else 0).
Proof. unfold days_before_month, days_in_month. cbn. destruct (is_leap y); reflexivity. Qed.
Lemma dim_12 y : days_in_month y 12 = 31. Proof. done. Qed.
Lemma dby_mono y y' : y <= y' -> days_before_year y <= days_before_year y'.
Proof. intros H. unfold days_before_year. Z.to_euclidean_division_equations. lia. Qed.

Definition ord (d : date) : Z := let '(y, m, d) := d in ordinal y m d.
Definition ok_date (d : date) : Prop := let '(y, m, d) := d in 1 <= m <= 12 /\ 1 <= d <= days_in_month y m.
Lemma valid_ok y m d : valid_date (y, m, d) <-> 1 <= y <= 9999 /\ ok_date (y, m, d).
Proof.
  cbn. split.
  - intros [Hy (n & Hn & Hd)]. apply month_length_iff in Hn as [Hm ->]. done.
  - intros (Hy & Hm & Hd). split; [done|]. exists (days_in_month y m). split; [by apply month_length_iff|done].
Qed.
Lemma day_in_year y m d : ok_date (y, m, d) -> 1 <= days_before_month y m + d <= 365 + (if is_leap y then 1 else 0).
Proof.
  intros [Hm Hd]. pose proof (dbm_mono y 1 m ltac:(lia) ltac:(lia)) as H1. rewrite dbm_1 in H1. split; [lia|].
  destruct (decide (m = 12)) as [-> |Hne]; [pose proof (dbm_12 y); rewrite dim_12 in Hd; lia|].
  pose proof (dbm_mono y (m + 1) 12 ltac:(lia) ltac:(lia)) as H2. rewrite dbm_next in H2 by lia. pose proof (dbm_12 y). lia.
Qed.
Lemma ord_lt_year y m d y' m' d' : ok_date (y, m, d) -> ok_date (y', m', d') -> y < y' -> ord (y, m, d) < ord (y', m', d').
Proof.
  intros H H' Hy. apply day_in_year in H, H'. cbn. unfold ordinal. pose proof (dby_mono (y + 1) y' ltac:(lia)) as Hm. rewrite dby_next in Hm. lia.
Qed.
Lemma ord_lt_month y m d m' d' : ok_date (y, m, d) -> ok_date (y, m', d') -> m < m' -> ord (y, m, d) < ord (y, m', d').
Proof.
  intros [H1 H2] [H1' H2'] Hm. cbn. unfold ordinal. pose proof (dbm_mono y (m + 1) m' ltac:(lia) ltac:(lia)) as H. rewrite dbm_next in H by lia. lia.
Qed.
Lemma ord_inj a b : ok_date a -> ok_date b -> ord a = ord b -> a = b.
Proof.
  destruct a as [[y m] d], b as [[y' m'] d']. intros Ha Hb E.
  destruct (Z.lt_trichotomy y y') as [H|[<- |H]].
  - pose proof (ord_lt_year _ _ _ _ _ _ Ha Hb H). lia.
  - destruct (Z.lt_trichotomy m m') as [H|[<- |H]].
    + pose proof (ord_lt_month _ _ _ _ _ Ha Hb H). lia.
    + cbn in E. unfold ordinal in E. f_equal. lia.
    + pose proof (ord_lt_month _ _ _ _ _ Hb Ha H). lia.
  - pose proof (ord_lt_year _ _ _ _ _ _ Hb Ha H). lia.
Qed.
Lemma ord_next a b : next_day a b -> ord b = ord a + 1.
Proof.
  intros [y m d n H Hd|y m d H Hm|y]; cbn; unfold ordinal.
  - lia.
  - apply month_length_iff in H as [H ->]. rewrite dbm_next by lia. lia.
  - rewrite dby_next, dbm_1. pose proof (dbm_12 y). lia.
Qed.
Lemma ord_later k a b : days_later k a b -> ord b = ord a + Z.of_nat k.
Proof. induction 1 as [|k a b c H IH Hn]; [lia|]. apply ord_next in Hn. lia. Qed.
(** The day before *)
Lemma previous b : ok_date b -> 1 < ord b -> (let '(y, _, _) := b in 1 <= y) -> exists a, ok_date a /\ next_day a b /\ (let '(y, _, _) := a in 1 <= y).
Proof.
  destruct b as [[y m] d]. intros [Hm Hd] Ho Hy. destruct (decide (1 < d)) as [H|H].
  - exists (y, m, d - 1). split; [split; [done|lia]|]. split; [|done]. replace d with (d - 1 + 1) at 2 by lia. apply (next_in_month y m (d - 1) (days_in_month y m)); [by apply month_length_iff|lia].
  - assert (d = 1) as -> by lia. destruct (decide (1 < m)) as [H'|H'].
    + pose proof (days_in_month_pos y (m - 1)). exists (y, m - 1, days_in_month y (m - 1)). split; [split; lia|]. split; [|done].
      replace m with (m - 1 + 1) at 3 by lia. apply next_month; [apply month_length_iff; split; [lia|done]|lia].
    + assert (m = 1) as -> by lia. assert (1 < y).
      { destruct (decide (y = 1)) as [-> |]; [|lia]. change (ord (1, 1, 1)) with 1 in Ho. lia. }
      exists (y - 1, 12, 31). split; [split; [lia|rewrite dim_12; lia]|]. split; [|lia]. replace y with (y - 1 + 1) at 2 by lia. apply next_year.
Qed.
Lemma later_exists k : forall a b, ok_date a -> ok_date b -> (let '(y, _, _) := a in 1 <= y) -> (let '(y, _, _) := b in 1 <= y) ->
  ord b = ord a + Z.of_nat k -> days_later k a b.
Proof.
  induction k as [|k IH]; intros a b Ha Hb Hya Hyb E.
  - assert (a = b) as -> by (apply ord_inj; [done|done|lia]). constructor.
  - assert (1 <= ord a) as H1.
    { destruct a as [[y m] d]. pose proof (day_in_year _ _ _ Ha) as H. cbn. unfold ordinal. pose proof (dby_mono 1 y ltac:(lia)) as H2.
      change (days_before_year 1) with 0 in H2. lia. }
    destruct (previous b Hb ltac:(lia) Hyb) as (p & Hp & Hn & Hyp). pose proof (ord_next _ _ Hn). eapply day_after; [|done]. apply IH; try done. lia.
Qed.
Definition epoch : Z := ordinal 1970 1 1.
Lemma day_number_iff d n : valid_date d -> day_number d n <-> n = ord d - epoch.
Proof.
  destruct d as [[y m] dd]. intros Hv. apply valid_ok in Hv as [Hy Hok].
  assert (ok_date (1970, 1, 1)) as He by (split; [lia|]; pose proof (days_in_month_pos 1970 1); lia). assert (ord (1970, 1, 1) = epoch) as Eo by done.
  split.
  - intros [(k & -> & H)|(k & -> & H)]; apply ord_later in H; lia.
  - intros ->. destruct (decide (epoch <= ord (y, m, dd))) as [H|H].
    + left. exists (Z.to_nat (ord (y, m, dd) - epoch)). split; [lia|]. apply later_exists; [done|done|lia|lia|]. lia.
    + right. exists (Z.to_nat (epoch - ord (y, m, dd))). split; [lia|]. apply later_exists; [done|done|lia|lia|]. lia.
Qed.

(** ** Texts *)
Definition is_digit (z : Z) : Prop := 0 <= z <= 9.
Lemma digit_cases z : is_digit z -> z ∈ [0; 1; 2; 3; 4; 5; 6; 7; 8; 9].
Proof. intros H. unfold is_digit in H. rewrite !elem_of_cons. lia. Qed.
Lemma digit_value_digit z : is_digit z -> digit_value (digit z) = Some z.
Proof. intros H. apply digit_cases in H. rewrite !elem_of_cons, elem_of_nil in H. destruct_or?; try done; by subst z. Qed.
(** The text does not start with a digit *)
Definition no_digit (s : string) : Prop := match s with "" => True | String a _ => digit_value a = None end.
Lemma take_digits_all l s n : Forall is_digit l -> (length l = n \/ (length l < n)%nat /\ no_digit s) ->
  take_digits n (digits_text l +:+ s) = (l, s).
Proof.
  revert n. induction l as [|z l IH]; intros n Hl Hn.
  - change (digits_text [] +:+ s) with s. destruct n as [|n]; [by destruct s|]. destruct Hn as [Hn|[_ Hn]]; [done|]. destruct s as [|a s]; [done|]. cbn in *. by rewrite Hn.
  - inversion_clear Hl as [|? ? Hz Hl']. destruct n as [|n]; [cbn in Hn; lia|]. change (digits_text (z :: l)) with (String (digit z) (digits_text l)).
    rewrite str_app_cons. cbn [take_digits]. rewrite digit_value_digit by done. rewrite IH; [done|done|]. cbn [length] in Hn. destruct Hn; [left|right]; lia || (split; [lia|tauto]).
Qed.
Lemma two_digits z : 0 <= z <= 99 -> Forall is_digit [z / 10; z mod 10] /\ number [z / 10; z mod 10] = z.
Proof. intros H. unfold is_digit, number. cbn [foldl]. split; [repeat constructor|]; Z.to_euclidean_division_equations; lia. Qed.
Lemma directive_two lo hi z s : 0 <= z <= 99 -> lo <= z <= hi -> directive lo hi (two z +:+ s) = Some (z, s).
Proof.
  intros Hz Hr. destruct (two_digits z Hz) as [Hd Hn]. unfold directive, two. rewrite take_digits_all by (first [done|left; done]).
  rewrite Hn. by rewrite decide_True.
Qed.
Lemma day_two z s : 1 <= z <= 31 -> day_directive (two z +:+ s) = Some (z, s).
Proof.
  intros Hz. assert (day_directive (two z +:+ s) = directive 1 31 (two z +:+ s)) as ->; [|apply directive_two; lia].
  unfold two, digits_text. rewrite str_app_cons. assert (is_digit (z / 10)) as Hd by (unfold is_digit; Z.to_euclidean_division_equations; lia).
  apply digit_cases in Hd. rewrite !elem_of_cons, elem_of_nil in Hd. destruct_or?; try done; by rewrite Hd.
Qed.
Lemma year_four y s : 0 <= y <= 9999 -> year_directive (four y +:+ s) = Some (y, s).
Proof.
  intros Hy. unfold year_directive, four. rewrite take_digits_all.
  - cbn [length]. rewrite decide_True by done. do 2 f_equal. unfold number. cbn [foldl]. Z.to_euclidean_division_equations. lia.
  - unfold is_digit. repeat constructor; Z.to_euclidean_division_equations; lia.
  - by left.
Qed.
Lemma foldl_zeros k acc : foldl (fun acc z => 10 * acc + z) acc (replicate k 0) = acc * 10 ^ Z.of_nat k.
Proof.
  revert acc. induction k as [|k IH]; intros acc; [cbn; lia|]. cbn [replicate foldl]. rewrite IH. rewrite Nat2Z.inj_succ, Z.pow_succ_r by lia. lia.
Qed.
Lemma fraction_spec s us : fraction_text s us -> fraction_directive s = Some us.
Proof.
  intros (l & -> & Hl & Hlen & ->). unfold fraction_directive. rewrite <-(str_app_nil (digits_text l)). rewrite take_digits_all; [|done|].
  - rewrite decide_True; [|split; [by destruct l; cbn in *; [lia|]|done]]. f_equal. rewrite foldl_app, foldl_zeros. unfold number. do 2 f_equal. lia.
  - destruct (decide (length l = 6%nat)); [by left|right]. split; [lia|done].
Qed.
Lemma fraction_range s us : fraction_text s us -> 0 <= us <= 999999.
Proof.
  intros (l & _ & Hl & Hlen & ->). set (r := l ++ replicate (6 - length l) 0).
  assert (Forall is_digit r /\ length r = 6%nat) as [Hr Hlr].
  { unfold r. split; [apply Forall_app; split; [done|]|rewrite app_length, replicate_length; lia]. apply Forall_replicate. unfold is_digit. lia. }
  clearbody r. destruct r as [|a [|b [|c [|d [|e [|f [|]]]]]]]; try done. repeat match goal with H : Forall _ (_ :: _) |- _ => inversion_clear H end. unfold is_digit in *. cbn [foldl]. lia.
Qed.

Lemma expect_ok c s : expect c (String c s) = Some s.
Proof. cbn. by rewrite decide_True. Qed.
Lemma make_valid y m d c : valid_date (y, m, d) -> valid_clock c ->
  make_datetime y m d (hour c) (minute c) (second c) (microsecond c) = Some (DateTime y m d (hour c) (minute c) (second c) (microsecond c)).
Proof.
  intros Hd (H1 & H2 & H3 & H4). apply valid_ok in Hd as [Hy [Hm Hd]]. unfold make_datetime. by rewrite decide_True.
Qed.
Lemma day_bound y m d : valid_date (y, m, d) -> 1 <= d <= 31 /\ 1 <= m <= 12 /\ 1 <= y <= 9999.
Proof. intros H. apply valid_ok in H as (Hy & Hm & Hd). pose proof (days_in_month_pos y m). lia. Qed.
(** The part of the text up to the hours *)
Lemma colon s : ":" +:+ s = String ":" s. Proof. done. Qed.
Lemma strptime_date y m d rest :
  valid_date (y, m, d) ->
  strptime (date_text (y, m, d) +:+ " " +:+ rest) =
    ('(h, s) ← directive 0 23 (lstrip rest); s ← expect ":" s; '(mi, s) ← directive 0 59 s; s ← expect ":" s;
     '(sec, s) ← directive 0 61 s; s ← expect "." s; us ← fraction_directive s; make_datetime y m d h mi sec us).
Proof.
  intros Hv. destruct (day_bound y m d Hv) as (Hd & Hm & Hy). unfold strptime, date_text. rewrite !str_app_assoc.
  rewrite year_four by lia. cbn [mbind option_bind]. rewrite colon, expect_ok. cbn [mbind option_bind]. rewrite directive_two by lia. cbn [mbind option_bind].
  rewrite colon, expect_ok. cbn [mbind option_bind]. rewrite day_two by lia. cbn [mbind option_bind]. done.
Qed.
Lemma lstrip_two z s : 0 <= z <= 99 -> lstrip (two z +:+ s) = two z +:+ s.
Proof.
  intros Hz. unfold two, digits_text. rewrite str_app_cons. assert (is_digit (z / 10)) as Hd by (unfold is_digit; Z.to_euclidean_division_equations; lia).
  apply digit_cases in Hd. rewrite !elem_of_cons, elem_of_nil in Hd. destruct_or?; try done; rewrite Hd; done.
Qed.
Lemma strptime_exif d c s us : valid_date d -> valid_clock c -> fraction_text s us ->
  strptime (exif_text d c +:+ "." +:+ s) =
    Some (let '(y, m, d) := d in DateTime y m d (hour c) (minute c) (second c) us).
Proof.
  destruct d as [[y m] d]. intros Hd Hc Hf. unfold exif_text. rewrite !str_app_assoc, strptime_date by done. destruct Hc as (Hh & Hm & Hs & Hu).
  unfold clock_text. rewrite !str_app_assoc. rewrite lstrip_two by lia. rewrite directive_two by lia. cbn [mbind option_bind].
  rewrite colon, expect_ok. cbn [mbind option_bind]. rewrite directive_two by lia. cbn [mbind option_bind].
  rewrite colon, expect_ok. cbn [mbind option_bind]. rewrite directive_two by lia. cbn [mbind option_bind].
  change ("." +:+ s) with (String "." s). rewrite expect_ok. cbn [mbind option_bind]. rewrite (fraction_spec s us) by done. cbn [mbind option_bind].
  apply (make_valid y m d (Clock (hour c) (minute c) (second c) us)); [done|]. pose proof (fraction_range s us Hf). done.
Qed.
Lemma since_epoch_spec y m d h mi s us n : valid_date (y, m, d) -> day_number (y, m, d) n ->
  since_epoch (DateTime y m d h mi s us) = (((n * 24 + h) * 60 + mi) * 60 + s) * 1000000 + us.
Proof. intros Hd Hn. apply day_number_iff in Hn; [|done]. unfold since_epoch. cbn. unfold epoch in Hn. cbn in Hn. rewrite Hn. lia. Qed.

(** ** Numbers *)
Lemma this_qc z : (this (qc z) == inject_Z z)%Q.
Proof. reflexivity. Qed.
Lemma qc_le_iff a b q : (qc a <= qc b * q)%Qc <-> a * Zpos (Qden (this q)) <= b * Qnum (this q).
Proof.
  unfold Qcle, Qcmult. cbn [this qc Qc_of_Z]. unfold Q2Qc. cbn [this]. rewrite Qred_correct. unfold Qle. cbn. destruct (this q) as [n d]. cbn. lia.
Qed.
Lemma qc_ge_iff a b q : (qc b * q <= qc a)%Qc <-> b * Qnum (this q) <= a * Zpos (Qden (this q)).
Proof.
  unfold Qcle, Qcmult. cbn [this qc Qc_of_Z]. unfold Q2Qc. cbn [this]. rewrite Qred_correct. unfold Qle. cbn. destruct (this q) as [n d]. cbn. lia.
Qed.
Lemma int_of_qc z : int_of (qc z) = z.
Proof.
  unfold int_of. pose proof (this_qc z) as H. unfold Qeq in H. destruct (this (qc z)) as [n d]. cbn in *. rewrite Z.mul_1_r in H. rewrite H.
  apply Z.quot_mul. done.
Qed.
Lemma round_spec n d : 0 < d -> 2 * round_half_even n d * d - d <= 2 * n <= 2 * round_half_even n d * d + d.
Proof.
  intros Hd. unfold round_half_even. pose proof (Z.div_mod n d ltac:(lia)) as E. pose proof (Z.mod_pos_bound n d Hd) as Hr.
  set (q := n / d) in *. set (r := n mod d) in *. repeat case_decide; try destruct (Z.even q); nia.
Qed.
Lemma round_nonneg n d : 0 < d -> 0 <= n -> 0 <= round_half_even n d.
Proof. intros Hd Hn. unfold round_half_even. pose proof (Z.div_pos n d Hn Hd). repeat case_decide; try destruct (Z.even _); lia. Qed.
Lemma round_le n d k : 0 < d -> n <= k * d -> round_half_even n d <= k.
Proof.
  intros Hd Hn. unfold round_half_even. pose proof (Z.div_mod n d ltac:(lia)) as E. pose proof (Z.mod_pos_bound n d Hd) as Hr.
  set (q := n / d) in *. set (r := n mod d) in *. assert (q <= k) by nia. assert (q = k -> r = 0) as H0 by nia.
  repeat case_decide; try destruct (Z.even q); destruct (decide (q = k)); lia.
Qed.
Definition round_q (q : Qc) : Z := round_half_even (Qnum (this q) * 1000000) (Zpos (Qden (this q))).
Lemma round_q_nearest q : nearest (q * qc 1000000) (round_q q).
Proof.
  unfold nearest, round_q. assert (forall a b c : Qc, (a * (b * c))%Qc = ((a * c) * b)%Qc) as E by (intros; ring). rewrite E.
  assert (qc 2 * qc 1000000 = qc 2000000)%Qc as -> by (by apply Qc_is_canon). rewrite qc_le_iff, qc_ge_iff.
  destruct (this q) as [n d]. cbn [Qnum Qden]. pose proof (round_spec (n * 1000000) (Zpos d) ltac:(lia)). lia.
Qed.

(** ** Formats *)
Lemma small_pretty : Forall (fun z => pretty z = if decide (z <= 9) then digits_text [z] else two z) (seqZ 0 100).
Proof. apply (bool_decide_unpack _). vm_compute. done. Qed.
Lemma pretty_small z : 0 <= z <= 99 -> pretty z = if decide (z <= 9) then digits_text [z] else two z.
Proof. intros H. pose proof small_pretty as F. rewrite Forall_forall in F. apply F. apply elem_of_seqZ. lia. Qed.
Lemma format_02d_two z : 0 <= z <= 99 -> format_02d z = two z.
Proof.
  intros H. unfold format_02d. rewrite pretty_small by done. destruct (decide (z <= 9)) as [H'|H'].
  - rewrite decide_True by lia. unfold two. rewrite Z.div_small, Z.mod_small by lia. done.
  - rewrite decide_False by lia. done.
Qed.
Lemma directive_pretty lo hi z s : 0 <= z <= 99 -> lo <= z <= hi -> no_digit s -> directive lo hi (pretty z +:+ s) = Some (z, s).
Proof.
  intros Hz Hr Hs. rewrite pretty_small by done. destruct (decide (z <= 9)); [|by apply directive_two].
  unfold directive. rewrite take_digits_all; [|repeat constructor; unfold is_digit; lia|right; split; [cbn; lia|done]].
  assert (number [z] = z) as -> by (unfold number; cbn [foldl]; lia). by rewrite decide_True.
Qed.
Lemma lstrip_digit z s : is_digit z -> lstrip (String (digit z) s) = String (digit z) s.
Proof. intros Hd. apply digit_cases in Hd. rewrite !elem_of_cons, elem_of_nil in Hd. destruct_or?; try done; subst; done. Qed.
Lemma six_digits_fraction z : 0 <= z <= 999999 -> fraction_text (six_digits z) z.
Proof.
  intros H. exists [z / 100000 mod 10; z / 10000 mod 10; z / 1000 mod 10; z / 100 mod 10; z / 10 mod 10; z mod 10].
  split; [done|]. split; [repeat constructor; Z.to_euclidean_division_equations; lia|]. split; [cbn; lia|]. cbn [app foldl replicate Nat.sub length].
  Z.to_euclidean_division_equations. lia.
Qed.
Lemma format_02f_spec q : (0 <= q)%Qc -> format_02f q = pretty (round_q q / 1000000) +:+ "." +:+ six_digits (round_q q mod 1000000).
Proof.
  intros Hq. unfold format_02f, round_q. assert (0 <= Qnum (this q)) as Hn.
  { unfold Qcle, Qle in Hq. destruct (this q) as [n e]. change (Qred 0) with 0%Q in Hq. cbn in Hq |- *. change (Qred 0) with 0%Q in Hq. cbn in Hq. lia. }
  rewrite decide_False by lia. rewrite Z.abs_eq by done. done.
Qed.

(** ** GPS times *)
Lemma states_number_get t v0 v1 v2 i v q : t !! "GPS GPSTimeStamp" = Some (TValues [v0; v1; v2]) -> [v0; v1; v2] !! i = Some v -> states_number v q ->
  get_tag_as_float t "GPS GPSTimeStamp" i = Ok (Some q).
Proof.
  intros Ht Hi Hv. unfold get_tag_as_float. rewrite Ht. unfold index. rewrite Hi. cbn [of_option res_bind].
  destruct Hv as [Hr|(z & -> & ->)]; [|done]. pose proof Hr as (n & d & -> & Hd & E). f_equal. by apply eval_frac_is.
Qed.
Lemma gps_strptime y m d h mi k : valid_date (y, m, d) -> 0 <= h <= 23 -> 0 <= mi <= 59 -> 0 <= k <= 59999999 ->
  strptime (date_text (y, m, d) +:+ " " +:+ format_02d h +:+ ":" +:+ format_02d mi +:+ ":" +:+ pretty (k / 1000000) +:+ "." +:+ six_digits (k mod 1000000)) =
    Some (DateTime y m d h mi (k / 1000000) (k mod 1000000)).
Proof.
  intros Hd Hh Hm Hk. rewrite strptime_date by done. rewrite !format_02d_two by lia. rewrite lstrip_two by lia.
  rewrite directive_two by lia. cbn [mbind option_bind]. rewrite colon, expect_ok. cbn [mbind option_bind]. rewrite directive_two by lia. cbn [mbind option_bind].
  rewrite colon, expect_ok. cbn [mbind option_bind].
  assert (0 <= k / 1000000 <= 59 /\ 0 <= k mod 1000000 <= 999999) as [Hs Hu] by (Z.to_euclidean_division_equations; lia).
  rewrite directive_pretty; [|lia|lia|done]. cbn [mbind option_bind]. change ("." +:+ ?s) with (String "." s). rewrite expect_ok. cbn [mbind option_bind].
  rewrite (fraction_spec _ (k mod 1000000)) by (by apply six_digits_fraction). cbn [mbind option_bind].
  apply (make_valid y m d (Clock h mi (k / 1000000) (k mod 1000000))); [done|]. done.
Qed.

(** ** Texts without a time *)
Lemma unknown_no_digit s : unknown_text s -> no_digit s.
Proof.
  destruct s as [|a s]; [done|]. intros H. cbn. unfold digit_value. case_decide as Ha; [|done]. exfalso.
  apply (H (Z.of_N (N_of_ascii a - 48)) s); [lia|]. f_equal. unfold digit. rewrite N2Z.id.
  replace (48 + (N_of_ascii a - 48))%N with (N_of_ascii a) by lia. by rewrite ascii_N_embedding.
Qed.
Lemma strptime_unknown s r : unknown_text s -> (s = "" -> no_digit r) -> strptime (s +:+ r) = None.
Proof.
  intros H Hr. apply unknown_no_digit in H. unfold strptime, year_directive.
  assert (take_digits 4 (s +:+ r) = ([], s +:+ r)) as ->.
  { destruct s as [|a s].
    - specialize (Hr eq_refl). change ("" +:+ r) with r. destruct r as [|a r]; [done|]. cbn in *. by rewrite Hr.
    - rewrite str_app_cons. cbn in *. by rewrite H. }
  done.
Qed.
Lemma directive_none lo hi z s : 0 <= z <= 99 -> ~ (lo <= z <= hi) -> directive lo hi (two z +:+ s) = None.
Proof.
  intros Hz Hr. destruct (two_digits z Hz) as [Hd Hn]. unfold directive, two. rewrite take_digits_all by (first [done|left; done]).
  rewrite Hn. rewrite decide_False; [done|]. tauto.
Qed.
Lemma day_two_eq z s : 0 <= z <= 99 -> day_directive (two z +:+ s) = directive 1 31 (two z +:+ s).
Proof.
  intros Hz. unfold two, digits_text. rewrite str_app_cons. assert (is_digit (z / 10)) as Hd by (unfold is_digit; Z.to_euclidean_division_equations; lia).
  apply digit_cases in Hd. rewrite !elem_of_cons, elem_of_nil in Hd. destruct_or?; try done; by rewrite Hd.
Qed.
Lemma make_datetime_none y m d h mi s us : 0 <= us <= 999999 -> ~ (valid_date (y, m, d) /\ valid_clock (Clock h mi s 0)) -> make_datetime y m d h mi s us = None.
Proof.
  intros Hu H. unfold make_datetime. rewrite decide_False; [done|]. intros (H1 & H2 & H3 & H4 & H5 & H6 & H7). apply H. split; [|unfold valid_clock; cbn [hour minute second microsecond]; lia].
  apply valid_ok. split; [done|]. split; done.
Qed.
Lemma strptime_impossible s f us : impossible_text s -> fraction_text f us -> strptime (s +:+ "." +:+ f) = None.
Proof.
  intros (y & m & d & [h mi se u] & -> & Hy & Hm & Hd & Hh & Hmi & Hs & Hu & Hn) Hf. cbn in Hh, Hmi, Hs, Hu. subst u.
  unfold strptime, exif_text, date_text, clock_text. cbn [hour minute second]. rewrite !str_app_assoc.
  rewrite year_four by lia. cbn [mbind option_bind]. rewrite colon, expect_ok. cbn [mbind option_bind].
  destruct (decide (1 <= m <= 12)); [rewrite directive_two by lia|by rewrite directive_none by lia]. cbn [mbind option_bind].
  rewrite colon, expect_ok. cbn [mbind option_bind]. rewrite day_two_eq by lia.
  destruct (decide (1 <= d <= 31)); [rewrite directive_two by lia|by rewrite directive_none by lia]. cbn [mbind option_bind].
  change (" " +:+ ?s) with (String " " s). cbn [expect_spaces]. change (py_space " ") with true. cbn [mbind option_bind]. rewrite lstrip_two by lia.
  destruct (decide (0 <= h <= 23)); [rewrite directive_two by lia|by rewrite directive_none by lia]. cbn [mbind option_bind].
  rewrite colon, expect_ok. cbn [mbind option_bind].
  destruct (decide (0 <= mi <= 59)); [rewrite directive_two by lia|by rewrite directive_none by lia]. cbn [mbind option_bind].
  rewrite colon, expect_ok. cbn [mbind option_bind].
  destruct (decide (0 <= se <= 61)); [rewrite directive_two by lia|by rewrite directive_none by lia]. cbn [mbind option_bind].
  change ("." +:+ f) with (String "." f). rewrite expect_ok. cbn [mbind option_bind]. rewrite (fraction_spec f us) by done. cbn [mbind option_bind].
  apply make_datetime_none; [by eapply fraction_range|done].
Qed.
