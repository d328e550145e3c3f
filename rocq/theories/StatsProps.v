(** Properties of the statistics of reconstructions. *)
From stdpp Require Import prelude strings gmap sorting.
From Coq Require Import Reals Lra Lia.
From Verif Require Import Base Lin RotModel PoseModel StatsModel StatsSpec StatsProofs.
Local Open Scope R_scope.

(** The histogram of the lengths of the tracks, the counts and the average length *)
Theorem C99_tracks : forall track_length recs, let s := tracks_statistics track_length recs in let l := lengths track_length recs in
  reconstructed_points_count s = length l /\ observations_count s = total l /\
  StronglySorted by_length (histogram_track_length s) /\ NoDup (histogram_track_length s).*1 /\
  (forall k n, (k, n) ∈ histogram_track_length s <-> (0 < n)%nat /\ n = occurrences k l) /\
  (l <> [] -> is_mean (INR <$> l) (average_track_length s)) /\ (l = [] -> average_track_length s = -1).
Proof.
  intros tl recs s l. assert (observations_count s = total l) as Ho by (unfold s, tracks_statistics; cbn [observations_count]; etransitivity; [exact (hist_weight tl Datatypes.id recs)|]; apply nsum_id).
  assert (reconstructed_points_count s = length l) as Hc by (apply points_count). split; [done|]. split; [done|]. split; [apply hist_sorted|]. split; [apply hist_keys|]. split; [intros k n; apply hist_elem|].
  assert (average_track_length s = if decide (0 < length l)%nat then INR (total l) / INR (length l) else -1) as -> by (rewrite <- Ho, <- Hc; done).
  split; intros Hl.
  - rewrite decide_True by (destruct l; [done|cbn; lia]). split; [by destruct l|]. rewrite fmap_length. change (foldr Rplus 0 (INR <$> l)) with (rsum (INR <$> l)). rewrite rsum_inr. unfold total. change (foldr Nat.add 0%nat l) with (nsum l). field. apply not_0_INR. by destruct l.
  - by rewrite Hl.
Qed.
(** The average over two, if the shortest tracks have two observations *)
Theorem C99_over_two : forall track_length recs, let l := lengths track_length recs in 2%nat ∈ l -> (forall x, x ∈ l -> (2 <= x)%nat) ->
  let longer := filter (fun x => (2 < x)%nat) l in
  (longer <> [] -> is_mean (INR <$> longer) (average_track_length_over_two (tracks_statistics track_length recs))) /\ (longer = [] -> average_track_length_over_two (tracks_statistics track_length recs) = -1).
Proof.
  intros tl recs l H2 Hmin longer. unfold tracks_statistics. cbn [average_track_length_over_two].
  assert (nsum (snd <$> drop 1 (hist_agg tl recs)) = length longer) as ->.
  { rewrite snd_weight. etransitivity; [exact (drop_weight tl (fun _ => 1%nat) recs 2 H2 Hmin)|]. apply nsum_ones. }
  assert (nsum ((fun kv => (kv.1 * kv.2)%nat) <$> drop 1 (hist_agg tl recs)) = nsum longer) as ->.
  { etransitivity; [exact (drop_weight tl Datatypes.id recs 2 H2 Hmin)|]. by rewrite list_fmap_id. }
  split; intros Hl.
  - rewrite decide_True by (destruct longer; [done|cbn; lia]). split; [by destruct longer|]. rewrite fmap_length. change (foldr Rplus 0 (INR <$> longer)) with (rsum (INR <$> longer)). rewrite rsum_inr. field. apply not_0_INR. by destruct longer.
  - by rewrite Hl.
Qed.
(** In general it is the average over all tracks but the shortest *)
Theorem C99_over_shortest : forall track_length recs m, let l := lengths track_length recs in m ∈ l -> (forall x, x ∈ l -> (m <= x)%nat) ->
  let longer := filter (fun x => (m < x)%nat) l in
  (longer <> [] -> is_mean (INR <$> longer) (average_track_length_over_two (tracks_statistics track_length recs))) /\ (longer = [] -> average_track_length_over_two (tracks_statistics track_length recs) = -1).
Proof.
  intros tl recs m l Hm Hmin longer. unfold tracks_statistics. cbn [average_track_length_over_two].
  assert (nsum (snd <$> drop 1 (hist_agg tl recs)) = length longer) as ->.
  { rewrite snd_weight. etransitivity; [exact (drop_weight tl (fun _ => 1%nat) recs m Hm Hmin)|]. apply nsum_ones. }
  assert (nsum ((fun kv => (kv.1 * kv.2)%nat) <$> drop 1 (hist_agg tl recs)) = nsum longer) as ->.
  { etransitivity; [exact (drop_weight tl Datatypes.id recs m Hm Hmin)|]. by rewrite list_fmap_id. }
  split; intros Hl.
  - rewrite decide_True by (destruct longer; [done|cbn; lia]). split; [by destruct longer|]. rewrite fmap_length. change (foldr Rplus 0 (INR <$> longer)) with (rsum (INR <$> longer)). rewrite rsum_inr. field. apply not_0_INR. by destruct longer.
  - by rewrite Hl.
Qed.
(** so tracks over two are left out if none has two observations *)
Theorem C99_over_two_refuted : exists recs, lengths (fun _ => 0%nat) recs = [3; 4]%nat /\ ~ is_mean (INR <$> [3; 4]%nat) (average_track_length_over_two (tracks_statistics (fun _ => 0%nat) recs)) /\
  exists recs', lengths (fun _ => 0%nat) recs' = [3; 3]%nat /\ average_track_length_over_two (tracks_statistics (fun _ => 0%nat) recs') = -1.
Proof.
  exists [[("a", 3%nat)]; [("b", 4%nat)]]. split; [done|]. split.
  - intros H. destruct (C99_over_shortest (fun _ => 0%nat) [[("a", 3%nat)]; [("b", 4%nat)]] 3) as [H1 _]; [left|intros x H'; change (x ∈ [3; 4]%nat) in H'; rewrite !elem_of_cons, elem_of_nil in H'; destruct H' as [-> |[-> |[]]]; lia|].
    change (filter _ (lengths _ _)) with [4%nat] in H1. specialize (H1 ltac:(done)). destruct H as [_ H]. destruct H1 as [_ H1]. cbn in H, H1. lra.
  - exists [[("a", 3%nat); ("b", 3%nat)]]. split; [done|]. apply (C99_over_shortest (fun _ => 0%nat) [[("a", 3%nat); ("b", 3%nat)]] 3); [left|intros x H'; change (x ∈ [3; 3]%nat) in H'; rewrite !elem_of_cons, elem_of_nil in H'; destruct H' as [-> |[-> |[]]]; lia|done].
Qed.

(** The reprojection errors: means over the observations with errors of at most four pixels *)
Theorem C99_projection : forall recs, let kept := concat (counted <$> concat recs) in let '(normalized, pixels, angular) := projection_error recs in
  (kept <> [] -> is_mean ((fun e => e.1.1) <$> kept) normalized /\ is_mean ((fun e => e.1.2) <$> kept) pixels /\ is_mean (snd <$> kept) angular /\ 0 <= pixels <= 4) /\
  (kept = [] -> normalized = -1 /\ pixels = -1 /\ angular = -1).
Proof.
  intros recs kept. unfold projection_error. rewrite all_errors. cbn [es_normalized es_pixels es_angular es_all app]. fold kept. rewrite !Rplus_0_l. destruct (decide (length kept = 0%nat)) as [E|E].
  - split; [|done]. intros H. by destruct kept.
  - split; [|by intros ->]. intros Hk. assert (INR (length kept) <> 0) as Hn by (by apply not_0_INR). assert (0 < INR (length kept)) as Hpos by (apply lt_0_INR; lia).
    assert (forall f : R * R * R -> R, is_mean (f <$> kept) (rsum (f <$> kept) / INR (length kept))) as Hmean by (intros f; split; [by destruct kept|]; rewrite fmap_length; unfold rsum; field; done).
    split; [apply Hmean|]. split; [apply Hmean|]. split; [apply Hmean|].
    assert (forall e, e ∈ kept -> 0 <= e.1.2 <= 4) as Hb.
    { intros e He. unfold kept in He. apply elem_of_list_In, in_concat in He as (l & Hl & He). apply elem_of_list_In in Hl, He. apply elem_of_list_fmap in Hl as (s & -> & _). unfold counted in He. apply elem_of_list_omap in He as ([nor [[px py] an]] & _ & He). cbn in He. destruct an as [a|]; [|done]. destruct (Rle_dec _ 4) as [H|H]; [|done]. apply (stdpp.base.inj Some) in He as <-. cbn. split; [|done]. apply Rmult_le_pos; [apply pos_INR|apply sqrt_pos]. }
    assert (0 <= rsum ((fun e => e.1.2) <$> kept) <= 4 * INR (length kept)) as [H1 H2].
    { clear -Hb. induction kept as [|e l IH]; [cbn; lra|]. cbn [fmap list_fmap rsum foldr]. change (length (e :: l)) with (S (length l)). rewrite S_INR. assert (0 <= e.1.2 <= 4) by (apply Hb; left). unfold rsum in IH. destruct IH as [H1 H2]; [intros; apply Hb; by right|]. lra. }
    split; [apply Rmult_le_pos; [done|left; by apply Rinv_0_lt_compat]|]. apply Rmult_le_reg_r with (INR (length kept)); [done|]. unfold Rdiv. rewrite Rmult_assoc, Rinv_l, Rmult_1_r by done. lra.
Qed.

(** The errors of the GPS positions *)
Theorem C99_gps : forall recs,
  (covered recs -> exists errors, all_gps_errors recs = Ok errors /\ Forall2 (fun rs e => has_gps_error rs.1 rs.2 e) (with_gps recs) errors) /\
  (~ covered recs -> all_gps_errors recs = Err KeyError).
Proof.
  intros recs. unfold all_gps_errors.
  assert (forall (l0 : list vec) pre, Forall2 (fun rs e => has_gps_error rs.1 rs.2 e) pre l0 ->
    (covered recs -> exists errors, foldl (fun acc r => try l := acc in try e := gps_errors_of r.1 r.2 in Ok (l ++ e)) (Ok l0) recs = Ok errors /\ Forall2 (fun rs e => has_gps_error rs.1 rs.2 e) (pre ++ with_gps recs) errors) /\
    (~ covered recs -> foldl (fun acc r => try l := acc in try e := gps_errors_of r.1 r.2 in Ok (l ++ e)) (Ok l0) recs = Err KeyError)) as H; [|by apply (H [] [])].
  induction recs as [|r recs IH]; intros l0 pre Hpre; cbn [foldl].
  { split; [|intros H; destruct H; constructor]. intros _. exists l0. split; [done|]. unfold with_gps. cbn. by rewrite app_nil_r. }
  cbn [res_bind]. unfold gps_errors_of at 2 4. rewrite gps_fold. destruct (decide (Forall _ r.2)) as [Hr|Hr].
  - cbn [res_bind app]. set (l1 := omap _ r.2). destruct (IH (l0 ++ l1) (pre ++ map (pair r.1) (filter (fun s => is_Some s.1.2) r.2))) as [H1 H2].
    + apply Forall2_app; [done|]. unfold l1. clear -Hr. induction Hr as [|[[c g] o] l Hs _ IH]; [constructor|]. rewrite filter_cons. cbn [omap list_omap fst snd] in *. destruct g as [g|].
      * rewrite decide_True by done. destruct Hs as [?|[b Hb]]; [done|]. rewrite Hb. cbn [map]. constructor; [|exact IH]. exists g, b. split; [done|]. split; [done|]. cbn. generalize (sim_transform b g), o. vring.
      * rewrite decide_False by (intros [? ?]; done). exact IH.
    + split; [intros H; apply Forall_cons in H as [_ H]; destruct (H1 H) as (e & E & He); exists e; split; [done|]; unfold with_gps in *; cbn [map concat]; by rewrite app_assoc|]. intros H. apply H2. intros H'. apply H. by constructor.
  - split; [intros H; apply Forall_cons in H as [H _]; done|]. intros _. cbn [res_bind]. clear. induction recs as [|r' recs IH]; [done|exact IH].
Qed.
(** their mean, standard deviation and root mean square by axis, and mean length. The squares of the root mean squares are the sums of those of the means and the standard deviations *)
Theorem C99_error_statistics : forall errors, (errors = [] <-> gps_gcp_errors_stats errors = None) /\ forall s, gps_gcp_errors_stats errors = Some s ->
  (forall coordinate, In coordinate [vx; vy; vz] -> is_mean (coordinate <$> errors) (coordinate (st_mean s)) /\
    0 <= coordinate (st_std s) /\ is_mean ((fun e => (coordinate e - coordinate (st_mean s)) ^ 2) <$> errors) (coordinate (st_std s) ^ 2) /\
    0 <= coordinate (st_error s) /\ is_mean ((fun e => coordinate e ^ 2) <$> errors) (coordinate (st_error s) ^ 2) /\
    coordinate (st_error s) ^ 2 = coordinate (st_mean s) ^ 2 + coordinate (st_std s) ^ 2) /\
  is_mean (norm <$> errors) (st_average s).
Proof.
  intros errors. unfold gps_gcp_errors_stats. destruct (decide (length errors = 0%nat)) as [E|E]; [split; [split; [done|]; intros _; by destruct errors|done]|].
  assert (errors <> []) as Hne by (intros ->; done). split; [split; [by intros ->|done]|]. cbv zeta. intros s Es. apply (stdpp.base.inj Some) in Es as <-. cbn [st_mean st_std st_error st_average]. split; [|apply rmean_spec; by destruct errors].
  assert (forall f : vec -> R, is_mean (f <$> errors) (rmean (f <$> errors)) /\ 0 <= rstd (f <$> errors) /\ is_mean ((fun e => (f e - rmean (f <$> errors)) ^ 2) <$> errors) (rstd (f <$> errors) ^ 2) /\
    0 <= sqrt (rmean ((fun x => x * x) <$> (f <$> errors))) /\ is_mean ((fun e => f e ^ 2) <$> errors) (sqrt (rmean ((fun x => x * x) <$> (f <$> errors))) ^ 2) /\
    sqrt (rmean ((fun x => x * x) <$> (f <$> errors))) ^ 2 = rmean (f <$> errors) ^ 2 + rstd (f <$> errors) ^ 2) as H.
  { intros f. set (l := f <$> errors). assert (l <> []) as Hl by (unfold l; by destruct errors). 
    assert (forall g : R -> R, (fun e => g (f e)) <$> errors = g <$> l) as Hg by (intros g; unfold l; by rewrite <- list_fmap_compose).
    assert (forall a, a ^ 2 = a * a) as Hsq by (intros a; ring). rewrite !Hsq, (rms_square l Hl), (rstd_square l Hl).
    split; [by apply rmean_spec|]. split; [apply sqrt_pos|]. split.
    - rewrite (Hg (fun x => (x - rmean l) ^ 2)). assert ((fun x => (x - rmean l) ^ 2) <$> l = (fun x => (x - rmean l) * (x - rmean l)) <$> l) as -> by (apply list_fmap_ext; intros; apply Hsq). apply rmean_spec. by destruct l.
    - split; [apply sqrt_pos|]. split; [|by apply mean_square]. rewrite (Hg (fun x => x ^ 2)). assert ((fun x => x ^ 2) <$> l = (fun x => x * x) <$> l) as -> by (apply list_fmap_ext; intros; apply Hsq). apply rmean_spec. by destruct l. }
  intros coordinate [<-|[<-|[<-|[]]]]; cbn [vx vy vz]; apply H.
Qed.

(** The time of the steps: the total is the sum of the reported times *)
Theorem C99_times : forall reports, (forall r t, r ∈ reports -> reported r t -> 0 <= t) ->
  (forall r t, reported r t -> step_time r = t) /\
  (forall r, (forall t, ~ reported r t) -> step_time r = -1) /\
  exists times, Forall2 reported (filter (fun r => has_time r = true) reports) times /\ total_time reports = foldr Rplus 0 times.
Proof.
  intros reports Hpos. split; [|split].
  - intros r t (w & ws & -> & [-> |(-> & l & -> & ->)]); done.
  - intros r Hr. destruct r as [[[w|] [l|]]|]; cbn; try done; exfalso; [apply (Hr w)|apply (Hr w)|apply (Hr (rsum l))]; eexists _, _; (split; [done|]); [by left|by left|right; split; [done|]; by exists l].
  - unfold total_time. induction reports as [|r reports IH]; [exists []; split; [constructor|done]|]. destruct IH as (times & H1 & H2); [intros r' t Hr'; apply Hpos; by right|]. rewrite filter_cons. cbn [fmap list_fmap omap list_omap].
    destruct r as [[[w|] ws]|].
    + rewrite decide_True by done. exists (w :: times). split; [constructor; [|done]; exists (Some w), ws; split; [done|by left]|]. assert (0 <= w) as Hw by (apply (Hpos (Some (Some w, ws))); [left|exists (Some w), ws; split; [done|by left]]). cbn [step_time]. destruct (Rle_dec 0 w); [|lra]. cbn [rsum foldr]. unfold rsum in *. by rewrite H2.
    + destruct ws as [l|].
      * rewrite decide_True by done. assert (reported (Some (None, Some l)) (rsum l)) as Hl by (exists None, (Some l); split; [done|right; split; [done|by exists l]]). exists (rsum l :: times). split; [by constructor|]. assert (0 <= rsum l) as Hw by (apply (Hpos (Some (None, Some l))); [left|done]). cbn [step_time]. destruct (Rle_dec 0 (rsum l)); [|lra]. cbn [rsum foldr]. unfold rsum in *. by rewrite H2.
      * rewrite decide_False by (intros H; done). exists times. split; [done|]. cbn [step_time]. destruct (Rle_dec 0 (-1)); [lra|done].
    + rewrite decide_False by (intros H; done). exists times. split; [done|]. cbn [step_time]. destruct (Rle_dec 0 (-1)); [lra|done].
Qed.

(** The area: of the box around the shots, if there are shots at both sides of the axes *)
Theorem C99_area : forall origins a b c d, smallest (vx <$> origins) a -> smallest (vy <$> origins) b -> largest (vx <$> origins) c -> largest (vy <$> origins) d ->
  a < 10 ^ 30 -> b < 10 ^ 30 -> area origins = (Rmax 0 c - a) * (Rmax 0 d - b) /\ (0 <= c -> 0 <= d -> area origins = (c - a) * (d - b)).
Proof.
  intros origins a b c d [Ha Ha'] [Hb Hb'] [Hc Hc'] [Hd Hd'] Ha30 Hb30. unfold area. destruct (area_fold origins (10 ^ 30) (10 ^ 30) 0 0) as (a' & b' & c' & d' & -> & [A1 A2] & [B1 B2] & [C1 C2] & [D1 D2]).
  assert (a' = a) as -> by (apply Rle_antisym; [apply A2; by right|]; apply elem_of_cons in A1 as [-> |A1]; [lra|by apply Ha']).
  assert (b' = b) as -> by (apply Rle_antisym; [apply B2; by right|]; apply elem_of_cons in B1 as [-> |B1]; [lra|by apply Hb']).
  assert (forall m x l, largest l x -> (m ∈ 0 :: l) -> (forall y, y ∈ 0 :: l -> y <= m) -> m = Rmax 0 x) as Hmax.
  { intros m x l [Hx Hx'] H1 H2. apply Rle_antisym.
    - apply elem_of_cons in H1 as [-> |H1]; [apply Rmax_l|]. apply Rle_trans with x; [by apply Hx'|apply Rmax_r].
    - apply Rmax_lub; apply H2; [left|by right]. }
  rewrite (Hmax c' c _ (conj Hc Hc') C1 C2), (Hmax d' d _ (conj Hd Hd') D1 D2). destruct (Req_EM_T a (10 ^ 30)); [lra|]. split; [done|]. intros Hc0 Hd0. by rewrite !Rmax_right.
Qed.
Theorem C99_no_area : area [] = -1.
Proof. unfold area. cbn [foldl]. by destruct (Req_EM_T _ _). Qed.
Theorem C99_area_refuted : area [Vec (-1) (-1) 0; Vec (-2) (-2) 0] = 4.
Proof.
  destruct (C99_area [Vec (-1) (-1) 0; Vec (-2) (-2) 0] (-2) (-2) (-1) (-1)) as [-> _]; try (cbn; split; [set_solver|intros x; rewrite !elem_of_cons, elem_of_nil; intros [-> |[-> |[]]]; lra]).
  - apply Rlt_trans with 0; [lra|apply pow_lt; lra].
  - apply Rlt_trans with 0; [lra|apply pow_lt; lra].
  - rewrite Rmax_left by lra. lra.
Qed.

(** Summaries of counts *)
Theorem C99_summary : forall l s, summary_of l = Some s -> (su_min s ∈ l /\ forall x, x ∈ l -> (su_min s <= x)%nat) /\ (su_max s ∈ l /\ forall x, x ∈ l -> (x <= su_max s)%nat) /\
  (length l * su_mean s <= total l < length l * S (su_mean s))%nat /\
  (length l <= 2 * length (filter (fun x => (x <= su_median s)%nat) l))%nat /\ (length l <= 2 * length (filter (fun x => (su_median s <= x)%nat) l))%nat.
Proof.
  intros [|x l] s Hs; [done|]. unfold summary_of in Hs. apply (stdpp.base.inj Some) in Hs as <-. cbn [su_min su_max su_mean su_median]. split; [apply fold_min|]. split; [apply fold_max|]. split; [|by apply median_spec].
  change (total (x :: l)) with (nsum (x :: l)). pose proof (Nat.div_mod (nsum (x :: l)) (length (x :: l)) ltac:(done)) as H1. pose proof (Nat.mod_upper_bound (nsum (x :: l)) (length (x :: l)) ltac:(done)) as H2. nia.
Qed.
(** The shots with observations on reconstructed points, and how many they have in all reconstructions *)
Theorem C99_reconstructed_features : forall observations recs, Forall (fun r : gset string * list string => NoDup r.2) recs -> forall s n,
  per_shots observations recs !! s = Some n <-> (0 < n)%nat /\ n = total ((fun r => on_points observations r s) <$> recs).
Proof.
  intros observations recs Hn s n. rewrite per_shots_fold. pose proof (recs_value observations recs Hn ∅ s) as Hv. assert (positive (foldl (fun acc r => rec_fold observations r acc r.2) ∅ recs)) as Hp by (apply recs_positive; intros ? ?; by rewrite lookup_empty).
  unfold value in Hv. rewrite lookup_empty in Hv. cbn [default from_option] in Hv. change (total ((fun r => on_points observations r s) <$> recs)) with (nsum ((fun r => on_points observations r s) <$> recs)). split.
  - intros E. rewrite E in Hv. cbn in Hv. split; [by eapply Hp|]. lia.
  - intros [H1 ->]. destruct (foldl _ ∅ recs !! s) as [m|]; cbn in Hv; [by rewrite Hv|lia].
Qed.

(** The cameras: the values of the largest reconstruction with the camera *)
Theorem C99_cameras : forall (A : Type) (models : gmap string A) (recs : list (nat * list (string * A))), Forall (fun r => NoDup r.2.*1) recs -> StronglySorted (fun a b => (b.1 <= a.1)%nat) recs ->
  ((forall r c a, r ∈ recs -> (c, a) ∈ r.2 -> is_Some (models !! c)) ->
    exists stats, cameras_statistics models (snd <$> recs) = Ok stats /\
      (forall c, is_Some (stats !! c) <-> is_Some (models !! c) /\ exists r a, r ∈ recs /\ (c, a) ∈ r.2) /\
      (forall c i o, stats !! c = Some (i, o) -> models !! c = Some i /\ exists r, r ∈ recs /\ (c, o) ∈ r.2 /\ forall r' a, r' ∈ recs -> (c, a) ∈ r'.2 -> (r'.1 <= r.1)%nat)) /\
  (~ (forall r c a, r ∈ recs -> (c, a) ∈ r.2 -> is_Some (models !! c)) -> cameras_statistics models (snd <$> recs) = Err KeyError).
Proof.
  intros A models recs Hn Hs. unfold cameras_statistics. rewrite camera_concat. fold (initial models). destruct (camera_fold (concat recs.*2) (initial models)) as [H1 H2].
  assert (Forall (fun p : string * A => is_Some (initial models !! p.1)) (concat recs.*2) <-> forall r c a, r ∈ recs -> (c, a) ∈ r.2 -> is_Some (models !! c)) as Hiff.
  { rewrite Forall_forall. split.
    - intros H r c a Hr Hc. apply initial_some. apply (H (c, a)). apply elem_of_list_In, in_concat. exists r.2. split; apply elem_of_list_In; [by apply elem_of_list_fmap_1|done].
    - intros H [c a] Hc. apply initial_some. apply elem_of_list_In, in_concat in Hc as (l & Hl & Hc). apply elem_of_list_In in Hl, Hc. apply elem_of_list_fmap in Hl as (r & -> & Hr). by eapply H. }
  split.
  - intros H. destruct (H1 (proj2 Hiff H)) as (st & -> & Hst). cbn [res_bind]. fold (final st). exists (final st). split; [done|]. pose proof (camera_result models (concat recs.*2) st Hst) as Hl.
    assert (Forall (fun r : list (string * A) => NoDup r.*1) (snd <$> recs)) as Hn' by (by apply Forall_fmap). split.
    + intros c. rewrite Hl. split.
      * destruct (models !! c) as [i|]; [|intros [? ?]; done]. destruct (first_value c _) as [o|] eqn:Eo; [|intros [? ?]; done]. intros _. split; [done|]. apply first_concat in Eo as (l1 & r & l2 & E & Ho & _); [|done]. assert (r ∈ snd <$> recs) as Hr by (rewrite E; set_solver). apply elem_of_list_fmap in Hr as (r' & -> & Hr). by exists r', o.
      * intros [[i Hi] (r & a & Hr & Ha)]. rewrite Hi. destruct (first_value c (concat recs.*2)) as [o|] eqn:Eo; [done|]. exfalso. unfold first_value in Eo. destruct (filter (fun p : string * A => p.1 = c) (concat recs.*2)) as [|x q] eqn:Ef; [|done].
        assert ((c, a) ∈ filter (fun p : string * A => p.1 = c) (concat recs.*2)) as Hin by (apply elem_of_list_filter; split; [done|]; apply elem_of_list_In, in_concat; exists r.2; split; apply elem_of_list_In; [by apply elem_of_list_fmap_1|done]). rewrite Ef in Hin. by apply elem_of_nil in Hin.
    + intros c i o. rewrite Hl. destruct (models !! c) as [i'|]; [|done]. destruct (first_value c _) as [o'|] eqn:Eo; [|done]. intros [= -> ->]. split; [done|]. apply first_concat in Eo as (l1 & r & l2 & E & Ho & Hno); [|done].
      apply fmap_app_inv in E as (m1 & m2 & -> & E2 & ->). symmetry in E2. destruct m2 as [|r0 m2]; [done|]. cbn in E2. injection E2 as <- <-. exists r0. split; [set_solver|]. split; [done|]. intros r' a Hr' Ha. apply elem_of_app in Hr' as [Hr'|[-> |Hr']%elem_of_cons]; [|done|].
      * destruct (Hno r'.2); [by apply elem_of_list_fmap_1|]. apply elem_of_list_fmap. by exists (c, a).
      * clear -Hs Hr'. induction m1 as [|x m1 IH]; cbn in Hs; inversion Hs as [|? ? G1 G2]; subst; [|by apply IH]. by apply (proj1 (Forall_forall _ _) G2) in Hr'.
  - intros H. rewrite H2; [done|]. intros H'. by apply H, Hiff.
Qed.
Print Assumptions C99_cameras.
Print Assumptions C99_error_statistics.

(** Non-vacuity *)
Definition case_points : list (list (string * nat)) := [[("a", 2%nat); ("b", 3%nat)]; [("c", 0%nat); ("d", 3%nat)]].
Example C99_case_tracks : let s := tracks_statistics (fun _ => 5%nat) case_points in lengths (fun _ => 5%nat) case_points = [2; 3; 5; 3]%nat /\
  histogram_track_length s = [(2, 1); (3, 2); (5, 1)]%nat /\ observations_count s = 13%nat /\ average_track_length s = 13 / 4 /\ average_track_length_over_two s = 11 / 3.
Proof.
  intros s. split; [done|]. split; [by vm_compute|]. split; [by vm_compute|]. unfold s, tracks_statistics. cbn [average_track_length average_track_length_over_two].
  assert (hist_agg (fun _ => 5%nat) case_points = [(2, 1); (3, 2); (5, 1)]%nat) as -> by (by vm_compute). cbn [case_points fmap list_fmap nsum foldr length drop]. cbn -[Rdiv INR]. split; f_equal; cbn; lra.
Qed.
Definition case_shot : shot_errors := ShotErrors 200 100 [(3, 4); (1, 0)] [(1 / 100, 0); (1, 0)] [Some (1 / 2); Some 1].
Example C99_case_projection : concat (counted <$> concat [[case_shot]]) = [(5, 2, 1 / 2)] /\ projection_error [[case_shot]] = (5, 2, 1 / 2).
Proof.
  assert (counted case_shot = [(5, 2, 1 / 2)]) as E.
  { unfold counted, case_shot. cbn [se_width se_height se_normalized se_pixel se_angle zip zip_with omap list_omap fst snd]. 
    replace (1 / 100 * (1 / 100) + 0 * 0) with ((1 / 100) * (1 / 100)) by ring. rewrite sqrt_square by lra. replace (1 * 1 + 0 * 0) with (1 * 1) by ring. rewrite sqrt_square by lra. replace (3 * 3 + 4 * 4) with (5 * 5) by ring. rewrite sqrt_square by lra.
    change (max 200 100) with 200%nat. assert (INR 200 = 200) as -> by (rewrite INR_IZR_INZ; done). destruct (Rle_dec (200 * (1 / 100)) 4) as [H|H]; [|lra]. destruct (Rle_dec (200 * 1) 4) as [H'|H']; [lra|]. repeat f_equal; lra. }
  assert (concat (counted <$> concat [[case_shot]]) = [(5, 2, 1 / 2)]) as E' by (change (counted case_shot ++ [] = [(5, 2, 1 / 2)]); by rewrite E). split; [done|].
  unfold projection_error. rewrite all_errors, E'. cbn. apply pair_equal_spec. split; [apply pair_equal_spec; split|]; lra.
Qed.
Example C99_case_gps : exists e, gps_gcp_errors_stats [Vec 1 0 0; Vec 3 0 0] = Some e /\ vx (st_mean e) = 2 /\ vx (st_std e) = 1 /\ covered [(∅, [("c", None, v0)])].
Proof.
  eexists. split; [unfold gps_gcp_errors_stats; rewrite decide_False by done; reflexivity|]. cbn [st_mean st_std vx fmap list_fmap]. assert (rmean [1; 3] = 2) as E by (unfold rmean; cbn; lra). split; [done|]. split; [unfold rstd; rewrite E; unfold rmean; cbn|].
  - replace (_ / _) with (1 * 1) by lra. apply sqrt_square. lra.
  - repeat constructor.
Qed.
Example C99_case_cameras : let recs := [(3%nat, [("a", 10)]); (1%nat, [("a", 20); ("b", 30)])] in Forall (fun r : nat * list (string * R) => NoDup r.2.*1) recs /\ StronglySorted (fun a b : nat * list (string * R) => (b.1 <= a.1)%nat) recs /\
  exists stats, cameras_statistics {["a" := 1; "b" := 2; "c" := 3]} recs.*2 = Ok stats /\ stats !! "a" = Some (1, 10) /\ stats !! "b" = Some (2, 30) /\ stats !! "c" = None.
Proof.
  intros recs. split; [repeat constructor; set_solver|]. split; [repeat constructor|]. eexists. split; [reflexivity|]. split; [reflexivity|]. by split.
Qed.
Example C99_case_features : per_shots (fun s => if decide (s = "x") then Some ["1"; "2"] else if decide (s = "y") then Some ["3"] else None) [({["1"]}, ["x"; "y"; "z"]); ({["1"; "2"]}, ["x"])] !! "x" = Some 3%nat /\
  per_shots (fun s => if decide (s = "x") then Some ["1"; "2"] else if decide (s = "y") then Some ["3"] else None) [({["1"]}, ["x"; "y"; "z"]); ({["1"; "2"]}, ["x"])] !! "y" = None /\ summary_of [4; 1; 2; 6]%nat = Some (Summary 1 6 3 3).
Proof. by vm_compute. Qed.
Example C99_case_times : total_time [Some (Some 3, None); None; Some (None, Some [1; 2])] = 6 /\ reported (Some (None, Some [1; 2])) 3.
Proof.
  split; [unfold total_time; cbn; destruct (Rle_dec 0 3), (Rle_dec 0 (-1)), (Rle_dec 0 _); cbn; lra|]. exists None, (Some [1; 2]). split; [done|]. right. split; [done|]. exists [1; 2]. split; [done|]. cbn. lra.
Qed.
