(** C30: ground control point files. Specification in GcpSpec.v. *)
From Coq Require Import Reals Ascii Lra.
From stdpp Require Import prelude gmap strings pretty.
From Verif Require Import Base TextModel TextProofs PyText JsonModel PixelModel GcpModel GcpSpec GcpProofs.
Local Close Scope R_scope.

(** Exactly the points that have all of their position are saved; otherwise an exception. *)
Theorem C30_json_saves : forall l, (exists j, write_ground_control_points l = Ok j) <-> Forall saveable l.
Proof.
  intros l. unfold write_ground_control_points. transitivity (exists js, mapR gcp_to_json l = Ok js).
  { destruct (mapR gcp_to_json l) as [js|e]; cbn; split; intros [? ?]; try done; by eexists. }
  split.
  - intros [js E]. apply mapR_ok in E. induction E as [|p j l js E _ IH]; constructor; [apply gcp_write; by eexists|done].
  - induction 1 as [|p l Hp _ IH]; [by exists []|]. destruct IH as [js E]. destruct (proj2 (gcp_write p) Hp) as [j Ej]. exists (j :: js). cbn. rewrite Ej. cbn. fold (mapR gcp_to_json). by rewrite E.
Qed.
(** What is read back: every point in order, with its id, position, altitude if known, and all its observations in order. *)
Theorem C30_json_round_trip : forall role l j, write_ground_control_points l = Ok j ->
  exists qs, read_ground_control_points role j = Ok qs /\ Forall2 (restored role) l qs.
Proof.
  intros role l j. unfold write_ground_control_points. destruct (mapR gcp_to_json l) as [js|e] eqn:E; [|done]. cbn [res_bind]. intros [= <-].
  unfold read_ground_control_points, jreq. cbn [as_obj res_bind jget]. rewrite decide_True by done. cbn [of_option res_bind as_list].
  apply mapR_ok in E. assert (exists qs, mapR (gcp_from_json role) js = Ok qs /\ Forall2 (restored role) l qs) as (qs & E1 & E2); [|by exists qs].
  induction E as [|p jp l js Ep _ IH]; [by exists []|]. destruct IH as (qs & E1 & E2). destruct (gcp_round role p jp Ep) as (q & Eq & Hq). exists (q :: qs). split; [|by constructor].
  cbn. rewrite Eq. cbn. fold (mapR (gcp_from_json role)). by rewrite E1.
Qed.
(** In particular the vector of a point with a position is the same. *)
Theorem C30_json_lla_vec : forall role p q, saveable p -> gcp_lla p <> ∅ -> restored role p q -> get_lla_vec 0%R q = get_lla_vec 0%R p.
Proof.
  intros role p q [Hs|(H1 & H2 & H3)] Hne [_ L1 L2 L3 _ L4 _ _]; [done|]. unfold get_lla_vec. rewrite L1, L2. destruct H1 as [a ->], H2 as [b ->]. cbn [of_option res_bind].
  destruct (gcp_has_altitude p) eqn:E; rewrite L3 in L4.
  - destruct (H3 eq_refl) as [c Hc]. rewrite Hc in L3, L4. rewrite (proj2 L4) by by eexists. by rewrite L3, Hc.
  - destruct (gcp_has_altitude q); [|done]. destruct (proj1 L4 eq_refl) as [? ?]. done.
Qed.
(** Points without unique ids, survey point ids and roles come back exactly. *)
Theorem C30_json_lossless : forall role l, Forall saveable l -> Forall (plain role) l ->
  exists j, write_ground_control_points l = Ok j /\ read_ground_control_points role j = Ok l.
Proof.
  intros role l Hs Hp. destruct (proj2 (C30_json_saves l) Hs) as [j Ej]. exists j. split; [done|]. destruct (C30_json_round_trip role l j Ej) as (qs & E & F). rewrite E. f_equal. clear Ej E.
  induction F as [|p q l qs H F IH]; [done|]. inversion Hs; inversion Hp; subst. f_equal; [by eapply plain_restored|by apply IH].
Qed.
(** The role, the survey point id and the unique ids of observations are not saved: two points that differ only in them have
    the same file. *)
Theorem C30_identifiers_lost_refuted : exists p q : gcp R, saveable p /\ p <> q /\ write_ground_control_points [p] = write_ground_control_points [q] /\
  gcp_role_ p <> gcp_role_ q /\ gcp_survey_point p <> gcp_survey_point q /\ map go_uid (gcp_obs p) <> map go_uid (gcp_obs q).
Proof.
  exists (Gcp "a" 1 false [GcpObservation "im" (0, 0)%R 5] ∅ Optimization), (Gcp "a" 2 false [GcpObservation "im" (0, 0)%R 6] ∅ MetricsOnly).
  split; [by left|]. split_and!; try done.
Qed.

(** gcp_list.txt: for any float parser and coordinate transformation, and any text whose lines that are not comments are a
    header and lines of six words or more, five of them numbers: one point for each place given by lines of known images, in
    the order in which the places appear, each with the observations of all its lines. *)
Theorem C30_gcp_list : forall parse_float transform parse_int role exifs text header lines rows c,
  filter (fun l => ~ comment l) (getlines NL text) = header :: lines ->
  parse_projection parse_int header = Ok c ->
  Forall2 (line_row parse_float) lines rows ->
  let kept := filter (fun r => is_Some (exifs !! r_shot r)) rows in
  exists ps, read_gcp_list parse_float transform parse_int role exifs text = Ok ps /\
    length ps = length (places kept) /\
    forall i j p, places kept !! i = Some j -> ps !! i = Some p -> point_of exifs (lat_lon transform c) role kept i j p.
Proof.
  intros pf tr pi role exifs text header lines rows c EF EH HR kept. unfold read_gcp_list.
  assert (filter (fun l => valid_gcp_line l = true) (getlines NL text) = header :: lines) as ->.
  { rewrite <- EF. apply filter_ext. intros l _. apply valid_line. }
  rewrite EH. cbn [res_bind]. rewrite (read_lines _ _ _ _ _ _ _ _ HR). unfold known. fold kept. rewrite grouping. eexists. split; [reflexivity|].
  rewrite map_length, imap_length. split; [done|]. intros i j p Hj Hp. rewrite list_lookup_fmap, list_lookup_imap, Hj in Hp. cbn in Hp. injection Hp as <-.
  apply (group_point tr role c exifs); [|by eapply elem_of_list_lookup_2]. apply Forall_forall. intros r Hr. by apply elem_of_list_filter in Hr as [? _].
Qed.
(** Every line of a known image gives one observation. *)
Theorem C30_gcp_list_observations : forall parse_float transform parse_int role exifs text header lines rows c ps,
  filter (fun l => ~ comment l) (getlines NL text) = header :: lines ->
  parse_projection parse_int header = Ok c ->
  Forall2 (line_row parse_float) lines rows ->
  read_gcp_list parse_float transform parse_int role exifs text = Ok ps ->
  map go_shot (concat (map gcp_obs ps)) ≡ₚ map r_shot (filter (fun r => is_Some (exifs !! r_shot r)) rows).
Proof.
  intros pf tr pi role exifs text header lines rows c ps EF EH HR. unfold read_gcp_list.
  assert (filter (fun l => valid_gcp_line l = true) (getlines NL text) = header :: lines) as ->.
  { rewrite <- EF. apply filter_ext. intros l _. apply valid_line. }
  rewrite EH. cbn [res_bind]. rewrite (read_lines _ _ _ _ _ _ _ _ HR). intros [= <-]. unfold known. generalize (filter (fun r => is_Some (exifs !! r_shot r)) rows). intros kept. clear.
  assert (forall points r, map go_shot (concat (map gcp_obs (map snd (step tr role c exifs points r)))) ≡ₚ map go_shot (concat (map gcp_obs (map snd points))) ++ [r_shot r]) as HS.
  { intros points r. unfold step. destruct (find_point points (row_key r)) eqn:E.
    - revert E. induction points as [|[k p] points IH]; [done|]. cbn [find_point update_point]. destruct (same_key k (row_key r)); intros E.
      + cbn. rewrite !map_app. cbn. rewrite <- !app_assoc. apply Permutation_app_head. by rewrite (Permutation_app_comm [_]).
      + cbn. rewrite !map_app, (IH E). by rewrite <- !app_assoc.
    - clear E. rewrite !map_app, concat_app. cbn. rewrite map_app. done. }
  induction kept as [|r kept IH] using rev_ind; [done|]. rewrite foldl_app. cbn [foldl]. rewrite HS, IH. rewrite map_app. done.
Qed.
(** Any other line is an exception: nothing is read. *)
Theorem C30_gcp_list_bad_line : forall parse_float transform parse_int role exifs text header lines line,
  filter (fun l => ~ comment l) (getlines NL text) = header :: lines -> line ∈ lines -> ~ (exists r, line_row parse_float line r) ->
  exists e, read_gcp_list parse_float transform parse_int role exifs text = Err e.
Proof.
  intros pf tr pi role exifs text header lines line EF Hin Hbad. unfold read_gcp_list.
  assert (filter (fun l => valid_gcp_line l = true) (getlines NL text) = header :: lines) as ->.
  { rewrite <- EF. apply filter_ext. intros l _. apply valid_line. }
  destruct (parse_projection pi header) as [c|e]; [|by eexists]. cbn [res_bind]. clear EF. generalize (@nil (gcp_key * gcp num)). induction lines as [|l lines IH]; [by apply elem_of_nil in Hin|]. intros points.
  cbn [read_gcp_list_lines]. apply elem_of_cons in Hin as [-> |Hin].
  - destruct (bad_line pf tr role c exifs points l Hbad) as [e ->]. by eexists.
  - destruct (read_gcp_line _ _ _ _ _ _ _) as [points'|e]; [|by eexists]. cbn [res_bind]. by apply IH.
Qed.
(** The headers. [parse_int] reads decimal numbers. *)
Theorem C30_header_wgs84 : forall parse_int header, strip header = "WGS84" -> parse_projection parse_int header = Ok None.
Proof. intros pi header H. unfold parse_projection. by rewrite decide_True. Qed.

Definition spelled (s t : string) : Prop := upper s = t.
Lemma upper_space a : py_space (upper_char a) = py_space a.
Proof. destruct a as [[] [] [] [] [] [] [] []]; reflexivity. Qed.
Lemma lower_space a : py_space (lower_char a) = py_space a.
Proof. destruct a as [[] [] [] [] [] [] [] []]; reflexivity. Qed.
Lemma str_map_app f s t : str_map f (s +:+ t) = str_map f s +:+ str_map f t.
Proof. induction s as [|a s IH]; [done|]. rewrite !str_app_cons. cbn. by rewrite IH. Qed.
Lemma lower_word s : word s -> word (lower s).
Proof.
  intros [H1 H2]. split; [by destruct s|]. induction s as [|a s IH]; [done|]. apply no_space_cons in H2 as [Ha Hs]. cbn. apply no_space_cons. split; [by rewrite lower_space|].
  destruct s; [done|]. by apply IH.
Qed.
Lemma upper_word_inv s t : spelled s t -> word t -> word s.
Proof.
  intros <- [H1 H2]. split; [by destruct s|]. clear H1. unfold upper in H2. induction s as [|a s IH]; [done|]. cbn in H2. apply no_space_cons in H2 as [Ha Hs]. apply no_space_cons. rewrite upper_space in Ha. split; [done|by apply IH].
Qed.
Lemma upper_digits s : Forall (.∈ ["0"; "1"; "2"; "3"; "4"; "5"; "6"; "7"; "8"; "9"]%char) (String.list_ascii_of_string s) -> upper s = s.
Proof.
  induction s as [|a s IH]; [done|]. cbn [String.list_ascii_of_string]. intros H. apply Forall_cons in H as [Ha Hs]. cbn. fold upper. rewrite (IH Hs). f_equal.
  rewrite !elem_of_cons, elem_of_nil in Ha. destruct_or?; subst; try done.
Qed.
Lemma last_char_app s a : last_char (s +:+ String a "") = Some a.
Proof. induction s as [|b s IH]; [done|]. rewrite str_app_cons. cbn. destruct (s +:+ String a "") eqn:E; [by destruct s|done]. Qed.
Lemma but_last_app s a : but_last (s +:+ String a "") = s.
Proof. induction s as [|b s IH]; [done|]. rewrite str_app_cons. cbn. destruct (s +:+ String a "") eqn:E; [by destruct s|]. by rewrite IH. Qed.
Lemma last_char_digits s : s <> "" -> Forall (.∈ ["0"; "1"; "2"; "3"; "4"; "5"; "6"; "7"; "8"; "9"]%char) (String.list_ascii_of_string s) ->
  exists a, last_char s = Some a /\ a ∈ ["0"; "1"; "2"; "3"; "4"; "5"; "6"; "7"; "8"; "9"]%char.
Proof.
  induction s as [|a s IH]; [done|]. intros _ H. cbn in H. apply Forall_cons in H as [Ha Hs]. destruct s as [|b s]; [by exists a|]. by apply IH.
Qed.
(** "WGS84 UTM <zone>", in upper or lower case: the zone number, in the northern hemisphere unless an S follows. *)
Theorem C30_header_utm : forall parse_int (n : N) w u hemisphere,
  (forall m : N, parse_int (pretty m) = Ok (Z.of_N m)) ->
  spelled w "WGS84" -> spelled u "UTM" -> hemisphere ∈ [""; "N"; "n"; "S"; "s"] ->
  parse_projection parse_int (join " " [w; u; pretty n +:+ hemisphere]) =
    Ok (Some (Proj4 ("+proj=utm +zone=" +:+ pretty n +:+ (if decide (hemisphere ∈ ["S"; "s"]) then " +south" else " +north") +:+ " +ellps=WGS84 +datum=WGS84 +units=m +no_defs"))).
Proof.
  intros pi n w u hem Hpi Hw Hu Hh.
  assert (word w) as Ww. { eapply upper_word_inv; [exact Hw|]. split; [done|]. repeat constructor. }
  assert (word u) as Wu. { eapply upper_word_inv; [exact Hu|]. split; [done|]. repeat constructor. }
  assert (word (pretty n +:+ hem)) as Wn.
  { apply word_app_r; [|set_unfold; destruct_or?; subst; repeat constructor]. pose proof (word_pretty (Z.of_N n)) as W. rewrite pretty_Z_eq in W. rewrite decide_True in W by lia. by rewrite N2Z.id in W. }
  pose proof (pretty_N_digits n) as HD. destruct (pretty_N_nonempty n) as (d & ds & Ed).
  assert (pretty n <> "") as Hne by by rewrite Ed.
  set (zone := pretty n +:+ hem) in *. assert (py_words (join " " [w; u; zone]) = [w; u; zone]) as EW by (apply py_words_join; by rewrite !Forall_cons, Forall_nil).
  unfold parse_projection. rewrite decide_False.
  2:{ intros E. assert (py_words (strip (join " " [w; u; zone])) = ["WGS84"]) as E2 by by rewrite E. clear E. destruct w as [|a w]; [by destruct Ww|]. 
      assert (lstrip (join " " [String a w; u; zone]) = join " " [String a w; u; zone]) as EL.
      { destruct Ww as [_ Hs]. apply no_space_cons in Hs as [Ha _]. rewrite join_cons, str_app_cons. cbn [lstrip]. by rewrite Ha. }
      unfold strip in E2. rewrite EL in E2. assert (rstrip (join " " [String a w; u; zone]) = join " " [String a w; u; zone]) as ER; [|rewrite ER, EW in E2; done].
      clear -Wn. assert (forall s, word s -> rstrip s = s) as R1.
      { intros s [_ H]. induction s as [|b s IH]; [done|]. apply no_space_cons in H as [Hb Hs]. cbn. rewrite (IH Hs), Hb. by destruct s. }
      assert (forall p s, word s -> rstrip (p +:+ s) = p +:+ s) as R2.
      { intros p s Hs. induction p as [|b p IH]; [by apply R1|]. rewrite str_app_cons. cbn. rewrite IH. destruct (p +:+ s) eqn:E; [|done]. destruct p; [destruct Hs; done|done]. }
      rewrite !join_cons. cbn [join]. rewrite <- !str_app_assoc. by apply R2. }
  assert (starts_with "WGS84 UTM" (upper (join " " [w; u; zone])) = true) as ->.
  { unfold upper. rewrite !join_cons, !str_map_app. unfold spelled, upper in Hw, Hu. rewrite Hw, Hu. reflexivity. }
  unfold parse_utm_projection_string. assert (lower (join " " [w; u; zone]) = join " " [lower w; lower u; lower zone]) as ->.
  { unfold lower. rewrite !join_cons, !str_map_app. done. }
  rewrite py_words_join by (rewrite !Forall_cons, Forall_nil; split_and!; try done; by apply lower_word). rewrite decide_False by (intros H; by apply H). rewrite EW. cbn [lookup list_lookup of_option res_bind].
  assert (upper zone = pretty n +:+ upper hem) as EU. { unfold zone, upper. rewrite str_map_app. fold upper. by rewrite (upper_digits _ HD). }
  rewrite EU. rewrite !elem_of_cons, elem_of_nil in Hh.
  assert (forall m : N, pretty (Z.of_N m) = pretty m) as EP. { intros m. rewrite pretty_Z_eq, decide_True by lia. by rewrite N2Z.id. }
  destruct Hh as [-> |[-> |[-> |[-> |[-> |[]]]]]].
  - change (upper "") with "". rewrite str_app_nil. destruct (last_char_digits _ Hne HD) as (a & -> & Ha).
    rewrite (decide_False (P := "" ∈ ["S"; "s"])) by (apply (bool_decide_unpack _); vm_compute; exact I).
    rewrite !elem_of_cons, elem_of_nil in Ha. destruct_or?; try done; subst a; rewrite Hpi; cbn [res_bind fst snd]; rewrite EP; done.
  - change (upper "N") with "N". rewrite last_char_app, but_last_app, Hpi. cbn [res_bind fst snd]. rewrite EP. by rewrite (decide_False (P := "N" ∈ ["S"; "s"])) by (apply (bool_decide_unpack _); vm_compute; exact I).
  - change (upper "n") with "N". rewrite last_char_app, but_last_app, Hpi. cbn [res_bind fst snd]. rewrite EP. by rewrite (decide_False (P := "n" ∈ ["S"; "s"])) by (apply (bool_decide_unpack _); vm_compute; exact I).
  - change (upper "S") with "S". rewrite last_char_app, but_last_app, Hpi. cbn [res_bind fst snd]. rewrite EP. by rewrite (decide_True (P := "S" ∈ ["S"; "s"])) by (apply (bool_decide_unpack _); vm_compute; exact I).
  - change (upper "s") with "S". rewrite last_char_app, but_last_app, Hpi. cbn [res_bind fst snd]. rewrite EP. by rewrite (decide_True (P := "s" ∈ ["S"; "s"])) by (apply (bool_decide_unpack _); vm_compute; exact I).
Qed.

(** A float parser for examples: one digit, or "nan" *)
Definition digit_float (w : string) : res num :=
  if decide (w = "nan") then Ok None else match w with String a "" => match is_nat a with Some d => Ok (Some (INR d)) | None => Err ValueError end | _ => Err ValueError end.
Definition example_exifs : gmap string (Z * Z) := {["im1" := (4, 3)%Z; "im2" := (4, 3)%Z]}.
Definition example_text (alt : string) : string :=
  join (String NL "") ["# a comment"; "WGS84"; "1 2 " +:+ alt +:+ " 1 1 im1"; ""; "3 2 5 0 1 im1 extra words"; "1 2 " +:+ alt +:+ " 2 2 im2"; "1 2 5 2 2 im3"; ""].
Definition example_rows (alt : num) : list row :=
  [Row (Some 1%R) (Some 2%R) alt (Some 1%R) (Some 1%R) "im1"; Row (Some 3%R) (Some 2%R) (Some 5%R) (Some 0%R) (Some 1%R) "im1"; Row (Some 1%R) (Some 2%R) alt (Some 2%R) (Some 2%R) "im2";
   Row (Some 1%R) (Some 2%R) (Some 5%R) (Some 2%R) (Some 2%R) "im3"].
Lemma digit_eq w a d x : w = String a "" -> is_nat a = Some d -> w <> "nan" -> INR d = x -> digit_float w = Ok (Some x).
Proof. intros -> E H <-. unfold digit_float. rewrite decide_False by done. by rewrite E. Qed.
Lemma example_line w0 w1 w2 w3 w4 w5 more line x y z px py :
  py_words line = w0 :: w1 :: w2 :: w3 :: w4 :: w5 :: more -> digit_float w0 = Ok x -> digit_float w1 = Ok y -> digit_float w2 = Ok z -> digit_float w3 = Ok px -> digit_float w4 = Ok py ->
  line_row digit_float line (Row x y z px py w5).
Proof. intros. by eapply LineRow. Qed.
Ltac dg := first [ reflexivity | eapply digit_eq; [reflexivity|reflexivity|done|cbn; lra] ].
Lemma example_filter alt : alt = "5" \/ alt = "nan" -> filter (fun l => ~ comment l) (getlines NL (example_text alt)) =
  "WGS84" :: ["1 2 " +:+ alt +:+ " 1 1 im1"; "3 2 5 0 1 im1 extra words"; "1 2 " +:+ alt +:+ " 2 2 im2"; "1 2 5 2 2 im3"].
Proof. intros [-> | ->]; vm_compute; reflexivity. Qed.
Lemma example_reads alt z : alt = "5" \/ alt = "nan" -> digit_float alt = Ok z ->
  Forall2 (line_row digit_float) ["1 2 " +:+ alt +:+ " 1 1 im1"; "3 2 5 0 1 im1 extra words"; "1 2 " +:+ alt +:+ " 2 2 im2"; "1 2 5 2 2 im3"] (example_rows z).
Proof.
  intros Ha Hz. repeat constructor; (eapply example_line; [destruct Ha as [-> | ->]; vm_compute; reflexivity|..]; try exact Hz; dg).
Qed.
(** Non-vacuity: a file with comments, an unknown image, extra words and a place seen twice. *)
Example C30_example : forall transform parse_int role, exists ps,
  read_gcp_list digit_float transform parse_int role example_exifs (example_text "5") = Ok ps /\ length ps = 2%nat /\ exists p, ps !! 0%nat = Some p /\ gcp_id p = "unnamed-0" /\ map go_shot (gcp_obs p) = ["im1"; "im2"].
Proof.
  intros tr pi role.
  destruct (C30_gcp_list digit_float tr pi role example_exifs (example_text "5") "WGS84" _ (example_rows (Some 5%R)) None (example_filter _ ltac:(by left)) (C30_header_wgs84 _ "WGS84" eq_refl)) as (ps & E & L & H).
  { apply example_reads; [by left|]. dg. }
  exists ps. split; [done|]. set (kept := filter _ _) in *.
  assert (kept = take 3 (example_rows (Some 5%R))) as EK by reflexivity. clearbody kept. subst kept.
  assert (places (take 3 (example_rows (Some 5%R))) = [0; 1]%nat) as EP.
  { unfold example_rows. cbn [take]. change [?a; ?b; ?c] with (([] ++ [a]) ++ [b] ++ [c]). rewrite app_assoc. rewrite !places_snoc.
    rewrite (decide_False (P := Exists _ [])) by by inversion 1. rewrite (decide_False (P := Exists _ ([] ++ [_]))).
    2:{ cbn. intros X. apply Exists_cons in X as [X|X]; [|by inversion X]. destruct X as (x & y & z & X). cbn in X. destruct X as (X1 & X2 & _). injection X1 as <-. injection X2. lra. }
    rewrite (decide_True (P := Exists _ (([] ++ [_]) ++ [_]))); [done|]. cbn. left. exists 1%R, 2%R, 5%R. done. }
  rewrite EP in L, H. split; [done|]. destruct ps as [|p ps]; [done|]. exists p. split; [done|]. destruct (H 0%nat 0%nat p eq_refl eq_refl) as [Hi _ (r & Er & Ho)]. split; [exact Hi|].
  injection Er as <-. cbn [drop example_rows take] in Ho. rewrite !filter_cons, filter_nil in Ho. rewrite decide_False in Ho. 2:{ intros (x & y & z & X). cbn in X. destruct X as (X1 & X2 & _). injection X1 as <-. injection X2. lra. }
  rewrite decide_True in Ho by (by exists 1%R, 2%R, 5%R).
  inversion Ho as [|? o1 ? l1 [H1 _] Ho1]; subst. inversion Ho1 as [|? o2 ? l2 [H2 _] Ho2]; subst. inversion Ho2; subst. cbn. cbn in H1, H2. congruence.
Qed.
(** Two lines for the same place whose altitude is unknown (nan) give two points: such a point is never seen in two images. *)
Theorem C30_unknown_altitude_refuted : forall transform parse_int role, exists parse_float text ps p q,
  text = join (String NL "") ["# a comment"; "WGS84"; "1 2 nan 1 1 im1"; ""; "3 2 5 0 1 im1 extra words"; "1 2 nan 2 2 im2"; "1 2 5 2 2 im3"; ""] /\ read_gcp_list parse_float transform parse_int role example_exifs text = Ok ps /\ ps !! 0%nat = Some p /\ ps !! 2%nat = Some q /\ length ps = 3%nat /\ map go_shot (gcp_obs p) = ["im1"] /\ map go_shot (gcp_obs q) = ["im2"] /\ gcp_lla p !! "latitude" = gcp_lla q !! "latitude" /\ gcp_lla p !! "longitude" = gcp_lla q !! "longitude".
Proof.
  intros tr pi role. exists digit_float, (example_text "nan").
  destruct (C30_gcp_list digit_float tr pi role example_exifs (example_text "nan") "WGS84" _ (example_rows None) None (example_filter _ ltac:(by right)) (C30_header_wgs84 _ "WGS84" eq_refl)) as (ps & E & L & H).
  { apply example_reads; [by right|]. reflexivity. }
  set (kept := filter _ _) in *. assert (kept = take 3 (example_rows None)) as EK by reflexivity. clearbody kept. subst kept.
  assert (forall r s, r_alt r = None \/ r_alt s = None -> ~ same_place r s) as HN. { intros r s Hrs (x & y & z & X). destruct X as (_ & _ & _ & _ & X1 & X2). destruct Hrs; congruence. }
  assert (places (take 3 (example_rows None)) = [0; 1; 2]%nat) as EP.
  { unfold example_rows. cbn [take]. change [?a; ?b; ?c] with (([] ++ [a]) ++ [b] ++ [c]). rewrite app_assoc. rewrite !places_snoc.
    rewrite (decide_False (P := Exists _ [])) by by inversion 1. rewrite (decide_False (P := Exists _ ([] ++ [_]))).
    2:{ cbn. intros X. apply Exists_cons in X as [X|X]; [|by inversion X]. revert X. apply HN. by left. }
    rewrite (decide_False (P := Exists _ (([] ++ [_]) ++ [_]))); [done|]. intros X. apply Exists_exists in X as (s & _ & X). revert X. apply HN. by right. }
  rewrite EP in L, H. destruct ps as [|p [|p1 [|q [|? ?]]]]; try done. exists [p; p1; q], p, q. split; [reflexivity|]. split; [done|]. split; [done|]. split; [done|]. split; [done|].
  destruct (H 0%nat 0%nat p eq_refl eq_refl) as [_ (r & Er & P1 & P2 & _) (r' & Er' & Ho)]. destruct (H 2%nat 2%nat q eq_refl eq_refl) as [_ (s & Es & Q1 & Q2 & _) (s' & Es' & Ho')].
  rewrite Er in Er'. injection Er' as <-. rewrite Es in Es'. injection Es' as <-. injection Er as <-. injection Es as <-.
  cbn [drop example_rows take] in Ho, Ho'. rewrite !filter_cons, filter_nil in Ho. rewrite !decide_False in Ho by (apply HN; by left). rewrite filter_nil in Ho'.
  inversion Ho as [|? o1 ? l1 [H1 _] Ho1]; subst. inversion Ho1; subst. inversion Ho' as [|? o2 ? l2 [H2 _] Ho2]; subst. inversion Ho2; subst. cbn in H1, H2. cbn. rewrite H1, H2, P1, P2, Q1, Q2. done.
Qed.
Example C30_json_example : let p := Gcp "p" 0 true [GcpObservation "im1" (0.5, 0.25)%R 0; GcpObservation "im1" (0, 0)%R 0] (<["latitude" := 1%R]> (<["longitude" := 2%R]> {["altitude" := 3%R]})) Optimization in
  saveable p /\ plain Optimization p /\ saveable (Gcp "q" 0 false [] ∅ Optimization : gcp R).
Proof.
  cbn. split; [right; cbn; split_and!; by eexists|]. split; [|by left]. split_and!; try done; cbn.
  - by repeat constructor.
  - intros k Hk. rewrite !elem_of_cons. destruct (decide (k = "latitude")); [by left|]. destruct (decide (k = "longitude")); [by right; left|]. destruct (decide (k = "altitude")); [by right; right; left|].
    exfalso. rewrite !lookup_insert_ne, lookup_singleton_ne in Hk by done. by destruct Hk.
Qed.

Print Assumptions C30_json_saves.
Print Assumptions C30_json_round_trip.
Print Assumptions C30_json_lla_vec.
Print Assumptions C30_json_lossless.
Print Assumptions C30_identifiers_lost_refuted.
Print Assumptions C30_gcp_list.
Print Assumptions C30_gcp_list_observations.
Print Assumptions C30_gcp_list_bad_line.
Print Assumptions C30_header_wgs84.
Print Assumptions C30_header_utm.
Print Assumptions C30_unknown_altitude_refuted.
