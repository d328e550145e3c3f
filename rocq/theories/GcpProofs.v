(** Proofs about the ground control point files. *)
From Coq Require Import Reals Ascii.
From stdpp Require Import prelude gmap strings pretty.
From Verif Require Import Base TextModel TextProofs PyText JsonModel PixelModel GcpModel GcpSpec.
Local Close Scope R_scope.

(** ** JSON *)
Lemma mapR_map {A B} (f : A -> res B) (g : A -> B) l : (forall a, a ∈ l -> f a = Ok (g a)) -> mapR f l = Ok (map g l).
Proof.
  induction l as [|a l IH]; [done|]. intros H. cbn. rewrite (H a) by left. cbn. fold (mapR f). rewrite IH by (intros b Hb; apply H; by right). done.
Qed.
Lemma mapR_ok {A B} (f : A -> res B) l r : mapR f l = Ok r <-> Forall2 (fun a b => f a = Ok b) l r.
Proof.
  revert r. induction l as [|a l IH]; intros r.
  - cbn. split; [intros [= <-]; constructor|]. by inversion 1.
  - cbn. destruct (f a) as [b|e] eqn:E; cbn; [|split; [done|]; inversion 1; congruence]. fold (mapR f). destruct (mapR f l) as [bs|e] eqn:E2; cbn.
    + split; [intros [= <-]; constructor; [done|by apply IH]|]. inversion 1 as [|? ? ? ? H1 H2]; subst. apply IH in H2. congruence.
    + split; [done|]. inversion 1 as [|? ? ? ? H1 H2]; subst. apply IH in H2. congruence.
Qed.
Lemma mapR_mapR {A B C} (f : A -> res B) (g : B -> res C) (P : A -> C -> Prop) l bs cs :
  mapR f l = Ok bs -> (forall a b, a ∈ l -> f a = Ok b -> exists c, g b = Ok c /\ P a c) -> mapR g bs = Ok cs -> Forall2 P l cs.
Proof.
  rewrite !mapR_ok. intros H. revert cs. induction H as [|a b l bs Hab Hl IH]; intros cs HP Hg; inversion Hg as [|? c ? cs' Hc Hcs]; subst; constructor.
  - destruct (HP a b) as (c' & E & Pc); [by left|done|]. congruence.
  - apply IH; [|done]. intros a' b' Ha. apply HP. by right.
Qed.

Definition back_obs (o : gcp_observation R) : gcp_observation R := GcpObservation (go_shot o) (go_projection o) 0.
Lemma obs_round o : gcp_observation_from_json (gcp_observation_to_json o) = Ok (back_obs o).
Proof. destruct o as [s [x y] u]. reflexivity. Qed.
Lemma obs_rounds l : mapR gcp_observation_from_json (map gcp_observation_to_json l) = Ok (map back_obs l).
Proof. induction l as [|o l IH]; [done|]. cbn [map mapR]. rewrite obs_round. cbn [res_bind]. fold (mapR gcp_observation_from_json). rewrite IH. done. Qed.

Ltac jk := repeat first [rewrite decide_True by done | rewrite decide_False by done].

Lemma gcp_write p : (exists j, gcp_to_json p = Ok j) <-> saveable p.
Proof.
  unfold gcp_to_json, gcp_position_to_json, saveable. destruct (decide (gcp_lla p = ∅)) as [E|E]; [cbn; split; [by left|by eexists]|].
  destruct (gcp_lla p !! "latitude") as [lat|]; [|cbn; split; [intros (? & ?); done|intros [?|([? ?] & _)]; done]].
  destruct (gcp_lla p !! "longitude") as [lon|]; [|cbn; split; [intros (? & ?); done|intros [?|(_ & [? ?] & _)]; done]].
  cbn. destruct (gcp_has_altitude p); cbn; [|split; [right; split_and!; done|by eexists]].
  destruct (gcp_lla p !! "altitude"); cbn; [split; [right; split_and!; done|by eexists]|].
  split; [intros (? & ?); done|intros [?|(_ & _ & H)]; [done|]]. destruct (H eq_refl) as [? ?]. done.
Qed.
Lemma gcp_round role p j : gcp_to_json p = Ok j -> exists q, gcp_from_json role j = Ok q /\ restored role p q.
Proof.
  unfold gcp_to_json. destruct (gcp_position_to_json p) as [pos|e] eqn:E; [|done]. cbn [res_bind]. intros [= <-].
  assert (exists lla, gcp_position_from_json (jget ([("id", JStr (gcp_id p))] ++ pos ++ [("observations", JList (map gcp_observation_to_json (gcp_obs p)))]) "position") = Ok lla /\
          jget ([("id", JStr (gcp_id p))] ++ pos ++ [("observations", JList (map gcp_observation_to_json (gcp_obs p)))]) "observations" = Some (JList (map gcp_observation_to_json (gcp_obs p))) /\
          lla !! "latitude" = gcp_lla p !! "latitude" /\ lla !! "longitude" = gcp_lla p !! "longitude" /\
          lla !! "altitude" = (if gcp_has_altitude p then gcp_lla p !! "altitude" else None) /\
          (forall k, k <> "latitude" -> k <> "longitude" -> k <> "altitude" -> lla !! k = None)) as (lla & E1 & E2 & H1 & H2 & H3 & H4).
  { unfold gcp_position_to_json in E. destruct (decide (gcp_lla p = ∅)) as [E0|_].
    - injection E as <-. exists ∅. cbn [app jget]. jk. rewrite E0, !lookup_empty. split_and!; try done. by destruct (gcp_has_altitude p).
    - destruct (gcp_lla p !! "latitude") as [lat|] eqn:A1; [|done]. destruct (gcp_lla p !! "longitude") as [lon|] eqn:A2; [|done]. cbn [res_bind of_option] in E.
      destruct (gcp_has_altitude p).
      + destruct (gcp_lla p !! "altitude") as [alt|] eqn:A3; [|done]. cbn [res_bind of_option] in E. injection E as <-. cbn [app jget]. jk. cbn [gcp_position_from_json as_lla as_obj mapR res_bind as_real fst snd].
        eexists. split; [reflexivity|]. split; [done|]. cbn [list_to_map foldr curry]. simplify_map_eq. split_and!; try done. intros k K1 K2 K3. cbn. rewrite !lookup_insert_ne by done. done.
      + injection E as <-. cbn [app jget]. jk. cbn [gcp_position_from_json as_lla as_obj mapR res_bind as_real fst snd].
        eexists. split; [reflexivity|]. split; [done|]. cbn [list_to_map foldr curry]. simplify_map_eq. split_and!; try done. intros k K1 K2 K3. cbn. rewrite !lookup_insert_ne by done. done. }
  eexists. split.
  - unfold gcp_from_json. cbn [as_obj res_bind]. cbn [app] in E1, E2.
    rewrite E1. unfold jreq. rewrite E2. cbn [app jget]. jk. cbn [of_option res_bind as_str as_list]. rewrite obs_rounds. cbn [res_bind]. reflexivity.
  - split; cbn; try done.
    + by rewrite bool_decide_eq_true.
    + clear. induction (gcp_obs p); cbn; constructor; done.
Qed.
Lemma plain_restored role p q : saveable p -> plain role p -> restored role p q -> q = p.
Proof.
  intros Hs (P1 & P2 & P3 & P4 & P5) [rst_id0 rst_lat0 rst_lon0 rst_alt0 rst_other0 rst_has0 rst_obs0 rst_new0]. destruct p as [i sp ha obs lla ro], q as [i' sp' ha' obs' lla' ro']. cbn in *. destruct rst_new0 as [-> ->]. subst.
  assert (obs' = obs) as ->.
  { clear -P3 rst_obs0. induction rst_obs0 as [|o r l l' (E1 & E2 & E3) _ IH]; [done|]. inversion P3; subst. f_equal; [|by apply IH]. destruct o, r; cbn in *. congruence. }
  assert (lla' !! "altitude" = lla !! "altitude") as EA.
  { rewrite rst_alt0. destruct ha; [done|]. symmetry. apply eq_None_not_Some. intros H. by apply P4 in H. }
  assert (ha' = ha) as ->. { apply eq_bool_prop_intro. rewrite !Is_true_true. rewrite rst_has0, P4, EA. done. }
  f_equal. apply map_eq. intros k. destruct (decide (k = "latitude")) as [-> |]; [done|]. destruct (decide (k = "longitude")) as [-> |]; [done|].
  destruct (decide (k = "altitude")) as [-> |]; [done|]. rewrite rst_other0 by done. symmetry. apply eq_None_not_Some. intros H. apply P5 in H. rewrite !elem_of_cons, elem_of_nil in H. tauto.
Qed.

(** ** gcp_list.txt *)
Definition row_key (r : row) : gcp_key := (r_x r, r_y r, r_alt r).
Lemma same_num_spec a b : same_num a b = true <-> exists x, a = Some x /\ b = Some x.
Proof. destruct a as [x|], b as [y|]; cbn; try (destruct (Req_EM_T x y)); naive_solver. Qed.
Lemma same_key_spec r s : same_key (row_key r) (row_key s) = true <-> same_place r s.
Proof. unfold same_key, same_place. cbn. rewrite !andb_true_iff, !same_num_spec. naive_solver. Qed.
Lemma same_place_sym r s : same_place r s -> same_place s r.
Proof. intros (x & y & z & ?). exists x, y, z. tauto. Qed.
Lemma same_place_trans r s t : same_place r s -> same_place s t -> same_place r t.
Proof. intros (x & y & z & ?) (x' & y' & z' & ?). exists x, y, z. naive_solver. Qed.

Section Lines.
Context (parse_float : string -> res num) (transform : crs -> num -> num -> num * num).
Context (role : gcp_role) (projection : option crs) (exifs : gmap string (Z * Z)).

Definition known (r : row) : Prop := is_Some (exifs !! r_shot r).
Definition to_lat_lon (x y : num) : num * num := match projection with Some c => transform c x y | None => (y, x) end.

Definition obs_of (r : row) : gcp_observation num :=
  GcpObservation (r_shot r) (normalized (default (0, 0)%Z (exifs !! r_shot r)).1 (default (0, 0)%Z (exifs !! r_shot r)).2 (r_px r) (r_py r)) 0.
Definition new_point (i : nat) (r : row) (obs : list (gcp_observation num)) : gcp num :=
  Gcp ("unnamed-" +:+ pretty (Z.of_nat i)) 0 (match r_alt r with Some _ => true | None => false end) obs
    (<["altitude" := match r_alt r with Some a => Some a | None => Some 0%R end]> (<["longitude" := (to_lat_lon (r_x r) (r_y r)).2]> {["latitude" := (to_lat_lon (r_x r) (r_y r)).1]})) role.
Definition step (points : list (gcp_key * gcp num)) (r : row) : list (gcp_key * gcp num) :=
  match find_point points (row_key r) with
  | Some _ => update_point points (row_key r) (fun p => add_gcp_observation p (obs_of r))
  | None => points ++ [(row_key r, new_point (length points) r [obs_of r])]
  end.

Lemma read_line points line r : line_row parse_float line r ->
  read_gcp_line parse_float transform role projection exifs points line = Ok (if decide (known r) then step points r else points).
Proof.
  intros [wx wy wz wp wq shot more x y z px py W E1 E2 E3 E4 E5]. unfold read_gcp_line. destruct (split_max_words 5 line) as (T & D & L). rewrite W in T, D. cbn [take] in T. rewrite T.
  rewrite E1, E2, E3, E4, E5. cbn [res_bind]. cbn [drop] in D. destruct (split_max 5 line !! 5%nat) as [rest|]; [|done]. cbn in D. injection D as D. cbn [of_option res_bind]. rewrite D. cbn [lookup list_lookup of_option res_bind].
  unfold known, step, obs_of, new_point, to_lat_lon, row_key. cbn [r_shot r_x r_y r_alt r_px r_py]. destruct (exifs !! shot) as [[w h]|]; [|by rewrite decide_False by (intros [? ?]; done)].
  rewrite decide_True by by eexists. cbn [default from_option fst snd Datatypes.id]. destruct (find_point points _); [done|]. destruct z; destruct (match projection with Some _ => _ | None => _ end); done.
Qed.
Lemma bad_line points line : ~ (exists r, line_row parse_float line r) ->
  exists e, read_gcp_line parse_float transform role projection exifs points line = Err e.
Proof.
  intros Hn. unfold read_gcp_line. destruct (split_max_words 5 line) as (T & D & L).
  destruct (take 5 (split_max 5 line)) as [|w0 [|w1 [|w2 [|w3 [|w4 [|w5 ws]]]]]] eqn:ET; try by eexists.
  destruct (parse_float w0) eqn:E0; [|by eexists]. destruct (parse_float w1) eqn:E1; [|by eexists]. destruct (parse_float w2) eqn:E2; [|by eexists].
  destruct (parse_float w3) eqn:E3; [|by eexists]. destruct (parse_float w4) eqn:E4; [|by eexists]. cbn [res_bind].
  destruct (split_max 5 line !! 5%nat) as [rest|] eqn:ER; [|by eexists]. cbn [of_option res_bind].
  destruct (py_words rest) as [|shot more] eqn:EW; [by eexists|]. exfalso. apply Hn. eexists. apply (LineRow _ _ w0 w1 w2 w3 w4 shot more); [|done..].
  rewrite <- (take_drop 5 (py_words line)), <- T. cbn [app]. cbn in D. destruct (drop 5 (py_words line)) as [|? ?]; [done|]. rewrite EW in D.
 inversion D; subst. done.
Qed.

Lemma read_lines points lines rows : Forall2 (line_row parse_float) lines rows ->
  read_gcp_list_lines parse_float transform role projection exifs points lines = Ok (map snd (foldl step points (filter known rows))).
Proof.
  intros H. revert points. induction H as [|l r ls rs Hr Hl IH]; intros points; [done|]. cbn [read_gcp_list_lines]. rewrite (read_line _ _ _ Hr). cbn [res_bind].
  rewrite filter_cons. destruct (decide (known r)); rewrite IH; done.
Qed.

(** The grouping *)
Definition group (rows : list row) (i j : nat) : gcp_key * gcp num :=
  match rows !! j with
  | Some r => (row_key r, new_point i r (map obs_of (r :: filter (same_place r) (drop (S j) rows))))
  | None => ((None, None, None), new_point i (Row None None None None None "") [])
  end.

Lemma filter_ext {A} (P Q : A -> Prop) `{!forall x, Decision (P x)} `{!forall x, Decision (Q x)} (l : list A) : (forall x, x ∈ l -> P x <-> Q x) -> filter P l = filter Q l.
Proof.
  induction l as [|a l IH]; [done|]. intros HPQ. rewrite !filter_cons. rewrite IH by (intros x Hx; apply HPQ; by right). destruct (decide (P a)) as [p|p], (decide (Q a)) as [q|q]; try done; exfalso; [apply q|apply p]; apply HPQ; try done; by left.
Qed.
Lemma places_snoc rows r : places (rows ++ [r]) = places rows ++ (if decide (Exists (fun s => same_place s r) rows) then [] else [length rows]).
Proof.
  unfold places. rewrite app_length. cbn [length]. rewrite seq_app, filter_app. cbn [seq]. f_equal.
  - apply filter_ext. intros j Hj. apply elem_of_seq in Hj. unfold first_of_place. rewrite lookup_app_l by lia. rewrite take_app_le by lia. done.
  - rewrite Nat.add_0_l. assert (first_of_place (rows ++ [r]) (length rows) <-> Forall (fun s => ~ same_place s r) rows) as HF.
    { unfold first_of_place. rewrite list_lookup_middle by done. by rewrite take_app. }
    rewrite filter_cons, filter_nil. destruct (decide (Exists _ _)) as [E|E].
    + rewrite decide_False; [done|]. rewrite HF. intros F. apply Exists_exists in E as (s & Hs & E). rewrite Forall_forall in F. by apply (F s).
    + rewrite decide_True; [done|]. apply HF, Forall_forall. intros s Hs E'. apply E, Exists_exists. eauto.
Qed.

Lemma elem_places rows j : j ∈ places rows <-> exists r, rows !! j = Some r /\ Forall (fun s => ~ same_place s r) (take j rows).
Proof.
  unfold places. rewrite elem_of_list_filter, elem_of_seq. unfold first_of_place. split.
  - intros [H _]. destruct (rows !! j) as [r|]; [|done]. by exists r.
  - intros (r & E & H). rewrite E. split; [done|]. apply lookup_lt_Some in E. lia.
Qed.
Lemma NoDup_places rows : NoDup (places rows).
Proof. apply NoDup_filter, NoDup_seq. Qed.
Lemma exists_place rows r : Exists (fun s => same_place s r) rows -> exists j s, j ∈ places rows /\ rows !! j = Some s /\ same_place s r.
Proof.
  induction rows as [|t rows IH] using rev_ind; [by inversion 1|]. intros H. destruct (decide (Exists (fun s => same_place s r) rows)) as [E|E].
  - destruct (IH E) as (j & s & Hj & Hs & Hr). exists j, s. split; [|split; [by apply lookup_app_l_Some|done]]. rewrite places_snoc. apply elem_of_app. by left.
  - apply Exists_app in H as [H|H]; [done|]. apply Exists_cons in H as [H|H]; [|by inversion H]. exists (length rows), t. split; [|split; [by apply list_lookup_middle|done]].
    rewrite places_snoc. apply elem_of_app. right. rewrite decide_False; [by left|]. intros H'. apply E. eapply Exists_impl; [exact H'|]. intros s Hs. cbn in *. by eapply same_place_trans.
Qed.
Lemma unique_place rows r j j' s s' : j ∈ places rows -> j' ∈ places rows -> rows !! j = Some s -> rows !! j' = Some s' -> same_place s r -> same_place s' r -> j = j'.
Proof.
  assert (forall j j' s s', j ∈ places rows -> j' ∈ places rows -> rows !! j = Some s -> rows !! j' = Some s' -> same_place s r -> same_place s' r -> ~ j < j')%nat as H.
  { clear. intros j j' s s' _ H' E E' S S' Hlt. apply elem_places in H' as (r' & E2 & F). rewrite E' in E2. injection E2 as <-. rewrite Forall_forall in F. apply (F s).
    - apply elem_of_list_lookup. exists j. by rewrite lookup_take by done.
    - eapply same_place_trans; [exact S|]. by apply same_place_sym. }
  intros H1 H2 E1 E2 S1 S2. destruct (lt_eq_lt_dec j j') as [[Hl|Hl]|Hl]; [exfalso; exact (H _ _ _ _ H1 H2 E1 E2 S1 S2 Hl)| done|exfalso; exact (H _ _ _ _ H2 H1 E2 E1 S2 S1 Hl)].
Qed.

Lemma find_point_none {A} (points : list (gcp_key * A)) k : find_point points k = None <-> Forall (fun e => same_key e.1 k = false) points.
Proof.
  induction points as [|[l p] points IH]; [done|]. cbn [find_point]. rewrite Forall_cons. cbn. destruct (same_key l k); [split; [done|intros [? _]; done]|]. rewrite IH. tauto.
Qed.
Lemma update_point_id {A} (points : list (gcp_key * A)) k g : Forall (fun e => same_key e.1 k = false) points -> update_point points k g = points.
Proof. induction 1 as [|[l p] points H _ IH]; [done|]. cbn in *. rewrite H. by rewrite IH. Qed.
Lemma update_point_imap {A B} (f : nat -> B -> gcp_key * A) (l : list B) k g :
  (forall i i' j j', l !! i = Some j -> l !! i' = Some j' -> same_key (f i j).1 k = true -> same_key (f i' j').1 k = true -> i = i') ->
  update_point (imap f l) k g = imap (fun i j => if same_key (f i j).1 k then ((f i j).1, g (f i j).2) else f i j) l.
Proof.
  revert f. induction l as [|b l IH]; intros f H; [done|]. rewrite !imap_cons. cbn [update_point]. destruct (f 0%nat b) as [key p] eqn:E. cbn [fst snd]. destruct (same_key key k) eqn:SK.
  - f_equal. apply imap_ext. intros i x Hi. cbn. destruct (same_key (f (S i) x).1 k) eqn:S2; [|done]. exfalso.
    assert (0%nat = S i) by (eapply (H 0%nat (S i)); [done|exact Hi|by rewrite E|done]). done.
  - f_equal. apply (IH (fun i => f (S i))). intros i i' j j' H1 H2 H3 H4. assert (S i = S i') by (by eapply (H (S i) (S i'))). lia.
Qed.

Lemma group_snoc rows r i j s : rows !! j = Some s ->
  group (rows ++ [r]) i j = if decide (same_place s r) then ((group rows i j).1, add_gcp_observation (group rows i j).2 (obs_of r)) else group rows i j.
Proof.
  intros E. unfold group. rewrite (lookup_app_l_Some _ _ _ _ E), E. pose proof (lookup_lt_Some _ _ _ E). rewrite drop_app_le by lia. rewrite filter_app, filter_cons, filter_nil.
  destruct (decide (same_place s r)); [|by rewrite app_nil_r]. unfold add_gcp_observation, new_point. cbn. by rewrite map_app.
Qed.
Lemma grouping rows : foldl step [] rows = imap (group rows) (places rows).
Proof.
  induction rows as [|r rows IH] using rev_ind; [done|]. rewrite foldl_app, IH. cbn [foldl]. rewrite places_snoc, imap_app. unfold step.
  assert (forall i j, places rows !! i = Some j -> exists s, rows !! j = Some s /\ (same_key (group rows i j).1 (row_key r) = true <-> same_place s r)) as HG.
  { intros i j Hj. apply elem_of_list_lookup_2 in Hj. apply elem_places in Hj as (s & E & _). exists s. split; [done|]. unfold group. rewrite E. cbn [fst]. by rewrite same_key_spec. }
  assert (imap (group (rows ++ [r])) (places rows) = imap (fun i j => if same_key (group rows i j).1 (row_key r) then ((group rows i j).1, add_gcp_observation (group rows i j).2 (obs_of r)) else group rows i j) (places rows)) as ->.
  { apply imap_ext. intros i j Hj. destruct (HG i j Hj) as (s & E & HK). rewrite (group_snoc _ _ _ _ _ E). destruct (decide (same_place s r)) as [S|S].
    - rewrite (proj2 HK S). done.
    - destruct (same_key _ _); [|done]. exfalso. by apply S, HK. }
  destruct (decide (Exists (fun s => same_place s r) rows)) as [EX|EX].
  - destruct (exists_place _ _ EX) as (j & s & Hj & E & S). destruct (find_point (imap (group rows) (places rows)) (row_key r)) eqn:EF.
    + cbn [imap]. rewrite app_nil_r. rewrite update_point_imap; [done|]. intros i i' j1 j2 H1 H2 S1 S2. destruct (HG _ _ H1) as (s1 & E1 & K1). destruct (HG _ _ H2) as (s2 & E2 & K2).
      assert (j1 = j2) as <-. { eapply (unique_place rows r); [by eapply elem_of_list_lookup_2|by eapply elem_of_list_lookup_2|exact E1|exact E2|by apply K1|by apply K2]. }
      eapply NoDup_lookup; [apply (NoDup_places rows)|done..].
    + exfalso. apply find_point_none in EF. rewrite Forall_forall in EF. apply elem_of_list_lookup in Hj as [i Hi]. destruct (HG _ _ Hi) as (s' & E' & K). rewrite E in E'. injection E' as <-.
      specialize (EF (group rows i j)). cbn in EF. rewrite (proj2 K S) in EF. discriminate EF. apply elem_of_list_lookup. exists i. rewrite list_lookup_imap, Hi. done.
  - assert (Forall (fun e => same_key e.1 (row_key r) = false) (imap (group rows) (places rows))) as HF.
    { apply Forall_forall. intros e He. apply elem_of_list_lookup in He as [i Hi]. rewrite list_lookup_imap in Hi. destruct (places rows !! i) as [j|] eqn:Hj; [|done]. cbn in Hi. injection Hi as <-.
      destruct (HG _ _ Hj) as (s & E & K). destruct (same_key _ _); [|done]. exfalso. apply EX, Exists_exists. exists s. split; [by eapply elem_of_list_lookup_2|by apply K]. }
    rewrite (proj2 (find_point_none _ _) HF). f_equal.
    + symmetry. apply imap_ext. intros i j Hj. destruct (HG i j Hj) as (s & E & K). rewrite Forall_forall in HF. specialize (HF (group rows i j)). cbn in HF. rewrite HF; [done|]. apply elem_of_list_lookup. exists i. rewrite list_lookup_imap, Hj. done.
    + rewrite imap_length. cbn [imap]. unfold group. rewrite Nat.add_0_r. rewrite list_lookup_middle by done. rewrite drop_ge; [done|]. rewrite app_length. cbn. lia.
Qed.

Lemma normalized_eq w h x y : normalized w h (Some x) (Some y) = (Some (normalized_image_coordinates (x, y) w h).1, Some (normalized_image_coordinates (x, y) w h).2).
Proof. done. Qed.
Lemma group_point rows i j : Forall known rows -> j ∈ places rows -> point_of exifs to_lat_lon role rows i j (group rows i j).2.
Proof.
  intros HK Hj. apply elem_places in Hj as (r & E & _). unfold group. rewrite E. cbn [snd]. split.
  - done.
  - exists r. split; [done|]. cbn. split; [done|]. split; [done|]. destruct (r_alt r) as [a|]; [|done]. split; [|done]. intros b [= <-]. done.
  - exists r. split; [done|]. cbn [gcp_obs new_point]. apply Forall2_fmap_r, Forall_Forall2_diag, Forall_forall. intros s Hs.
    assert (known s) as [[w h] Es].
    { rewrite Forall_forall in HK. apply HK. apply elem_of_cons in Hs as [-> |Hs]; [by eapply elem_of_list_lookup_2|]. apply elem_of_list_filter in Hs as [_ Hs]. by apply elem_of_list_lookup in Hs as [k Hk]; rewrite lookup_drop in Hk; eapply elem_of_list_lookup_2. }
    cbn. split; [done|]. exists w, h. split; [done|]. intros x y Ex Ey. unfold obs_of. rewrite Es, Ex, Ey. done.
Qed.
End Lines.

Lemma valid_line line : valid_gcp_line line = true <-> ~ comment line.
Proof.
  unfold valid_gcp_line, comment. destruct (lstrip line) as [|a t] eqn:E.
  - assert (strip line = "") as -> by (unfold strip; by rewrite E). split; [done|]. intros H. exfalso. apply H. by left.
  - destruct (strip_head _ _ _ E) as [u ->]. rewrite negb_true_iff, bool_decide_eq_false. split; [intros H [?|[rest [= -> _]]]; done|]. intros H ->. apply H. right. by exists t.
Qed.
