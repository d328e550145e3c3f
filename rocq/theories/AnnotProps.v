(** Properties of the annotations of ground control points. *)
From stdpp Require Import prelude strings pretty.
From Coq Require Import Reals Lra Lia.
From Verif Require Import Base JsonModel AnnotModel AnnotSpec AnnotProofs.

(** After any calls, every point is under its own name and no name is used twice *)
Theorem C100_consistent : forall cs, consistent (session cs).
Proof. apply session_consistent. Qed.
(** After any calls, if the files loaded have at most one observation of a point in an image, so has the manager *)
Theorem C100_observed_once : forall cs, Forall call_once cs -> observed_once (session cs).
Proof. apply session_ind; [intros ?? H; inversion H|intros c m; apply call_once_ok]. Qed.
(** Adding a point succeeds: the point is last, without observations; the others are untouched; its name is new *)
Theorem C100_add_point : forall m, exists m' id, add_point m = Ok (m', id) /\ id ∉ (points m).*1 /\ points m' = points m ++ [(id, Point id [] None)] /\ gcp_reprojections m' = gcp_reprojections m.
Proof. intros m. destruct (add_point_ok m) as (k & -> & _ & H & _). eexists _, _. by repeat split. Qed.
(** In a session no name is given twice, whatever is removed or loaded *)
Theorem C100_fresh : forall cs, NoDup (names_given (Manager [] 0 []) cs).
Proof. intros cs. apply names_nodup. Qed.
(** What is saved is what is loaded, whatever was there before *)
Theorem C100_save_load : forall cs m0, plain (session cs) -> load_from_file m0 (Some (write_to_file (session cs))) = (with_points m0 (points (session cs)), Ok ()).
Proof. intros cs m0 H. apply save_load; [apply session_consistent|done]. Qed.
(** A file that cannot be read loses the points (refuted: that the points stay if loading fails) *)
Theorem C100_failed_load_refuted : exists cs, (points (session cs)).*1 = ["0"; "1"] /\ load_from_file (session cs) None = (with_points (session cs) [], Err RuntimeError).
Proof. exists [CAdd; CAdd]. split; reflexivity. Qed.

(** Adding an observation: an error for unknown points and for observed ones; otherwise it is added and nothing else changes *)
Theorem C100_add_observation : forall cs id shot c geo, Forall call_once cs -> let m := session cs in
  (id ∉ (points m).*1 -> add_point_observation m id shot c geo = Err KeyError) /\
  (forall c', observed m id shot c' -> add_point_observation m id shot c geo = Err AssertionError) /\
  (forall m', add_point_observation m id shot c geo = Ok m' -> (forall id' shot' c', observed m' id' shot' c' <-> (id', shot', c') = (id, shot, c) \/ observed m id' shot' c') /\ (points m').*1 = (points m).*1 /\ gcp_reprojections m' = gcp_reprojections m) /\
  (id ∈ (points m).*1 -> (forall c', ~ observed m id shot c') -> geo = [] -> exists m', add_point_observation m id shot c geo = Ok m').
Proof.
  intros cs id shot c geo Hcs m. assert (consistent m) as Hcons by apply session_consistent. assert (observed_once m) as Honce by by apply C100_observed_once.
  split. { intros H%aget_none. unfold add_point_observation. by rewrite H. }
  split. { intros c' H. pose proof (observed_get _ _ _ _ Hcons Honce H) as Hg. destruct H as (p & Hp & _). unfold add_point_observation. rewrite (aget_elem _ _ p) by (by destruct Hcons). cbn [of_option res_bind]. by rewrite Hg. }
  split.
  - intros m' H. unfold add_point_observation in H. destruct (aget (points m) id) as [p|] eqn:E; cbn [of_option res_bind] in H; [|done]. destruct (get_observation m id shot) as [[o|]|]; cbn [res_bind] in H; try done.
    destruct (match geo with [] => _ | _ => _ end) as [g|]; cbn [res_bind] in H; [|done]. injection H as <-. cbn [points gcp_reprojections with_points]. split; [|split; [by rewrite (aset_keys _ _ _ p)|done]].
    intros id' shot' c'. unfold observed. cbn [points with_points]. destruct Hcons as [Hn Hi]. pose proof (aset_nodup (points m) id (Point (point_id p) (observations p ++ [Observation shot c]) g) Hn) as Hn'. split.
    + intros (q & [[-> ->]|Hq]%aset_in & Ho); [|right; by exists q]. cbn [observations] in Ho. apply elem_of_app in Ho as [Ho|[= -> ->]%elem_of_list_singleton]; [right|by left]. exists p. split; [by apply aget_some|done].
    + intros [[= -> -> ->]|(q & Hq & Ho)].
      * eexists. split; [apply aget_some; rewrite aget_aset, decide_True by done; done|]. cbn [observations]. apply elem_of_app. right. left.
      * destruct (decide (id = id')) as [-> |Hd].
        -- assert (q = p) as -> by (apply (aget_elem _ _ _ Hn) in Hq; congruence). eexists. split; [apply aget_some; rewrite aget_aset, decide_True by done; done|]. cbn [observations]. apply elem_of_app. by left.
        -- exists q. split; [|done]. apply aget_some. rewrite aget_aset, decide_False by done. by apply aget_elem.
  - intros Hid Hno ->. unfold add_point_observation. destruct (aget (points m) id) as [p|] eqn:E; [|by apply aget_none in E]. cbn [of_option res_bind]. destruct (get_observation m id shot) as [[o|]|e] eqn:Eg; cbn [res_bind].
    + destruct (get_observed _ _ _ _ Eg) as [_ Ho]. by destruct (Hno _ Ho).
    + by eexists.
    + unfold get_observation in Eg. by rewrite E in Eg.
Qed.
(** The position given with an observation is that of the point *)
Theorem C100_add_position : forall m id shot c geo m', add_point_observation m id shot c geo = Ok m' -> forall p, aget (points m) id = Some p -> exists p', aget (points m') id = Some p' /\
  match geodetic_measurement p' with
  | Some g => (geo = [] /\ geodetic_measurement p = Some g) \/ (jget geo "longitude" = Some (longitude g) /\ jget geo "latitude" = Some (latitude g) /\ jget geo "measured_at" = Some (measured_at g) /\ (exists t, measured_at g = JInt t) /\ horizontal_std g = default (JInt 100) (jget geo "horizontal_std") /\ altitude g = default JNull (jget geo "altitude") /\ vertical_std g = default JNull (jget geo "vertical_std"))
  | None => geo = [] /\ geodetic_measurement p = None
  end.
Proof.
  intros m id shot c geo m' H p Hp. unfold add_point_observation in H. rewrite Hp in H. cbn [of_option res_bind] in H. destruct (get_observation m id shot) as [[o|]|]; cbn [res_bind] in H; try done.
  destruct geo as [|kv geo]; cbn [res_bind] in H.
  - injection H as <-. eexists. split; [cbn [points with_points]; rewrite aget_aset, decide_True by done; done|]. cbn [geodetic_measurement]. destruct (geodetic_measurement p); [by left|done].
  - set (d := kv :: geo) in *. unfold read_geodetic, jreq in H. destruct (jget d "measured_at") as [t|] eqn:Et; cbn [of_option res_bind] in H; [|done]. destruct t as [|t| | | |]; try done. destruct (jget d "longitude") as [lon|] eqn:E1; cbn [of_option res_bind] in H; [|done]. destruct (jget d "latitude") as [lat|] eqn:E2; cbn [of_option res_bind] in H; [|done].
    injection H as <-. eexists. split; [cbn [points with_points]; rewrite aget_aset, decide_True by done; done|]. cbn [geodetic_measurement]. right. cbn [longitude latitude measured_at horizontal_std altitude vertical_std]. repeat split; try done. by eexists.
Qed.
(** Removing an observation: an error for unknown points; otherwise all observations of the point in the image, and no others, are gone *)
Theorem C100_remove_observation : forall cs id shot b, let m := session cs in
  (id ∉ (points m).*1 -> remove_point_observation m id shot b = Err KeyError) /\
  (id ∈ (points m).*1 -> exists m', remove_point_observation m id shot b = Ok m' /\ (forall id' shot' c', observed m' id' shot' c' <-> (id', shot') <> (id, shot) /\ observed m id' shot' c') /\ (points m').*1 = (points m).*1 /\
     forall p, aget (points m) id = Some p -> exists p', aget (points m') id = Some p' /\ geodetic_measurement p' = (if b then None else geodetic_measurement p)).
Proof.
  intros cs id shot b m. destruct (session_consistent cs) as [Hn Hi]. fold m in Hn, Hi. split; [intros H%aget_none; unfold remove_point_observation; by rewrite H|].
  intros Hid. unfold remove_point_observation. destruct (aget (points m) id) as [p|] eqn:E; [|by apply aget_none in E]. cbn [of_option res_bind]. eexists. split; [done|]. cbn [points].
  set (p' := Point _ _ _). pose proof (aset_nodup (points m) id p' Hn) as Hn'. split; [|split; [by rewrite (aset_keys _ _ _ p)|]].
  - intros id' shot' c'. unfold observed. cbn [points]. split.
    + intros (q & Hq & Ho). apply (aget_elem _ _ _ Hn') in Hq. rewrite aget_aset in Hq. destruct (decide (id = id')) as [<- |Hd].
      * injection Hq as <-. cbn [observations p'] in Ho. apply elem_of_list_filter in Ho as [H1 H2]. cbn in H1. split; [congruence|]. exists p. split; [by apply aget_some|done].
      * split; [congruence|]. exists q. split; [by apply aget_some|done].
    + intros (Hne & q & Hq & Ho). apply (aget_elem _ _ _ Hn) in Hq. destruct (decide (id = id')) as [<- |Hd].
      * assert (q = p) as -> by congruence. exists p'. split; [apply aget_some; by rewrite aget_aset, decide_True|]. cbn [observations p']. apply elem_of_list_filter. split; [cbn; congruence|done].
      * exists q. split; [apply aget_some; by rewrite aget_aset, decide_False|done].
  - intros q [= <-]. exists p'. split; [by rewrite aget_aset, decide_True|done].
Qed.
(** ... its error, if known, becomes zero, and the other errors stay *)
Theorem C100_remove_error : forall m id shot b m', remove_point_observation m id shot b = Ok m' -> forall id' shot', let error m := aget (gcp_reprojections m) id' ≫= fun l => aget l shot' in
  error m' = if decide ((id', shot') = (id, shot)) then (fun _ => 0%R) <$> error m else error m.
Proof.
  intros m id shot b m' H id' shot' error. unfold remove_point_observation in H. destruct (aget (points m) id) as [p|]; cbn [of_option res_bind] in H; [|done]. injection H as <-. unfold error. cbn [gcp_reprojections].
  destruct (aget (gcp_reprojections m) id) as [l|] eqn:El; [destruct (aget l shot) as [x|] eqn:Ex|].
  - rewrite aget_aset. destruct (decide (id = id')) as [<- |Hd]; [|by rewrite decide_False by congruence]. rewrite El. cbn [mbind option_bind]. rewrite aget_aset. destruct (decide (shot = shot')) as [<- |Hs].
    + rewrite decide_True by done. by rewrite Ex.
    + by rewrite decide_False by congruence.
  - destruct (decide _) as [[= -> ->]|]; [|done]. rewrite El. cbn [mbind option_bind]. by rewrite Ex.
  - destruct (decide _) as [[= -> ->]|]; [|done]. by rewrite El.
Qed.
(** Removing a point: it is gone, the others stay *)
Theorem C100_remove_gcp : forall m id id', aget (points (remove_gcp m id)) id' = if decide (id = id') then None else aget (points m) id'.
Proof.
  intros m id id'. unfold remove_gcp. destruct (point_exists m id) eqn:E; [apply aget_adel|]. destruct (decide (id = id')) as [<- |]; [|done]. apply aget_none. rewrite <- exists_iff. by rewrite E.
Qed.

(** The points visible in an image are those observed in it, with their coordinates, in the order of the points *)
Theorem C100_visible : forall cs img, Forall call_once cs -> let m := session cs in
  (forall id c, (id, c) ∈ get_visible_points_coords m img <-> observed m id img c) /\ (get_visible_points_coords m img).*1 `sublist_of` (points m).*1.
Proof.
  intros cs img Hcs m. destruct (session_consistent cs) as [Hn Hi]. fold m in Hn, Hi. assert (observed_once m) as Honce by by apply C100_observed_once.
  assert (get_visible_points_coords m img = omap (seen img) (points m)) as ->.
  { unfold get_visible_points_coords. rewrite (visible_outer img (points m) []); [done|done|]. intros i p Hp. split; [by apply Hi|by apply (Honce i)]. }
  split; [|apply seen_keys]. intros id c. rewrite elem_of_list_omap. split.
  - intros ([i p] & Hp & Hs). unfold seen in Hs. cbn [fst snd] in Hs. destruct (List.find _ _) as [o|] eqn:E; [|done]. injection Hs as -> <-. apply List.find_some in E as [Ho Hb%bool_decide_eq_true]. exists p. split; [done|]. apply elem_of_list_In. destruct o. cbn in *. by subst.
  - intros (p & Hp & Ho). exists (id, p). split; [done|]. unfold seen. cbn [fst snd]. by rewrite (find_elem img _ c) by (try apply (Honce id); done).
Qed.
(** A file may have two observations of a point in an image (refuted: at most one after any calls): then the first is given by get_observation and the last is shown *)
Definition double_file : json := JObj [("points", JList [JObj [("id", JStr "p"); ("observations", JList [JObj [("shot_id", JStr "a"); ("projection", JList [JInt 1; JInt 1])]; JObj [("shot_id", JStr "a"); ("projection", JList [JInt 2; JInt 2])]])]])].
Theorem C100_observed_once_refuted : let m := session [CLoad (Some double_file)] in
  ~ observed_once m /\ get_observation m "p" "a" = Ok (Some (Observation "a" (Coords2 (JInt 1) (JInt 1) (JNum (4 / 1000))))) /\ get_visible_points_coords m "a" = [("p", Coords2 (JInt 2) (JInt 2) (JNum (4 / 1000)))].
Proof.
  split; [|split; reflexivity]. intros H. specialize (H "p" (Point "p" [Observation "a" (Coords2 (JInt 1) (JInt 1) (JNum (4 / 1000))); Observation "a" (Coords2 (JInt 2) (JInt 2) (JNum (4 / 1000)))] None)).
  assert (NoDup ["a"; "a"]) as Hd by (apply H; left). apply NoDup_cons in Hd as [Hd _]. apply Hd. left.
Qed.

(** The worst point exists and has a positive error, the largest of those of all points; there is none if no point has a positive error *)
Theorem C100_worst : forall m, match get_worst_gcp m with
  | Some id => exists shot e, point_error m id shot e /\ (0 < e)%R /\ forall id' shot' e', point_error m id' shot' e' -> (e' <= e)%R
  | None => forall id' shot' e', point_error m id' shot' e' -> (e' <= 0)%R
  end.
Proof.
  intros m. unfold get_worst_gcp. pose proof (outer_best m (gcp_reprojections m) 0%R None) as H. destruct (foldl _ _ _) as [e g]. destruct H as (H1 & H2 & H3). cbn [snd].
  assert (forall id' shot' e', point_error m id' shot' e' -> (e' <= e)%R) as Hmax by (intros id' shot' e' (Hp & l & Hl & Hs); by eapply H2).
  destruct H3 as [[-> ->]|(Hlt & id & d & s & -> & Hp & Hd & Hs)]; [exact Hmax|]. exists s, e. split; [|done]. split; [done|]. by exists d.
Qed.
(** The image of a point with the largest error: an error for points without errors; none if none of the images has one *)
Theorem C100_worst_image : forall m images id, match shot_with_max_gcp_error m images id with
  | Err e => e = KeyError /\ id ∉ (gcp_reprojections m).*1
  | Ok r => exists l, (id, l) ∈ gcp_reprojections m /\
      match r with
      | Some shot => shot ∈ images /\ exists e, (shot, e) ∈ l /\ forall shot' e', shot' ∈ images -> (shot', e') ∈ l -> (e' <= e)%R
      | None => forall shot' e', (shot', e') ∈ l -> shot' ∉ images
      end
  end.
Proof.
  intros m images id. unfold shot_with_max_gcp_error. destruct (aget (gcp_reprojections m) id) as [l|] eqn:E; cbn [of_option res_bind]; [|split; [done|by apply aget_none]].
  exists l. split; [by apply aget_some|]. destruct (filter _ l) as [|b r] eqn:Ef.
  - intros shot e He Hin. assert ((shot, e) ∈ filter (fun s : string * R => s.1 ∈ images) l) as H by (apply elem_of_list_filter; done). rewrite Ef in H. inversion H.
  - destruct (max_best r b) as [H1 H2]. destruct (foldl _ b r) as [shot e]. rewrite <- Ef in H1, H2. apply elem_of_list_filter in H1 as [H1 H1']. split; [done|]. exists e. split; [done|]. intros shot' e' Hi He. apply (H2 (shot', e')). by apply elem_of_list_filter.
Qed.

(** A session: two points, observations, positions, a removal; the saved file is loaded again *)
Example C100_example_calls : list call :=
  [CAdd; CAdd; CObserve "0" "a" (Coords2 (JInt 1) (JInt 2) (JInt 3)) []; CObserve "1" "a" (Coords3 (JInt 1) (JInt 2) (JInt 3) JNull) [("latitude", JInt 5); ("longitude", JInt 6); ("measured_at", JInt 7)];
   CObserve "0" "b" (Coords2 (JInt 4) (JInt 5) (JInt 6)) []; CObserve "0" "b" (Coords2 (JInt 7) (JInt 7) (JInt 7)) []; CUnobserve "0" "a" false; CRemove "2"; CAdd; CRemove "2"; CAdd].
Example C100_example : points (session C100_example_calls) =
  [("0", Point "0" [Observation "b" (Coords2 (JInt 4) (JInt 5) (JInt 6))] None);
   ("1", Point "1" [Observation "a" (Coords3 (JInt 1) (JInt 2) (JInt 3) JNull)] (Some (Geodetic (JInt 6) (JInt 5) (JInt 100) (JInt 7) JNull JNull))); ("3", Point "3" [] None)] /\
  names_given (Manager [] 0 []) C100_example_calls = ["0"; "1"; "2"; "3"].
Proof. split; reflexivity. Qed.
Example C100_example_plain : Forall call_once C100_example_calls /\ plain (session C100_example_calls).
Proof.
  split; [repeat constructor|]. intros i p H. rewrite (proj1 C100_example) in H. rewrite !elem_of_cons, elem_of_nil in H. destruct H as [[= -> ->]|[[= -> ->]|[[= -> ->]|[]]]]; repeat constructor.
Qed.
(** Loading a file with points keeps new names apart from them *)
Example C100_example_load : let m := session [CLoad (Some (JObj [("points", JList [JObj [("id", JStr "0")]; JObj [("id", JStr "1")]])]))] in
  (points m).*1 = ["0"; "1"] /\ match add_point m with Ok (_, id) => id = "2" | Err _ => False end /\ call_once (CLoad (Some (JObj [("points", JList [JObj [("id", JStr "0")]; JObj [("id", JStr "1")]])]))).
Proof.
  split; [reflexivity|]. split; [reflexivity|]. intros j d ps x p [= <-] [= <-] [= <-] Hx Hr. rewrite !elem_of_cons, elem_of_nil in Hx. destruct Hx as [-> |[-> |[]]]; cbn in Hr; rewrite ?decide_False in Hr by (by intros []); injection Hr as <-; constructor.
Qed.
(** Errors of a point that was removed do not count *)
Example C100_example_worst : get_worst_gcp (Manager [("p", Point "p" [] None)] 0 [("q", [("a", 5%R)]); ("p", [("a", 1%R)])]) = Some "p".
Proof.
  unfold get_worst_gcp. cbn [gcp_reprojections foldl fst snd]. change (point_exists _ "q") with false. change (point_exists _ "p") with true. cbn match. cbn [foldl fst snd]. destruct (Rlt_dec 0 1) as [H|H]; [done|]. exfalso. apply H. lra.
Qed.

Print Assumptions C100_consistent.
Print Assumptions C100_observed_once.
Print Assumptions C100_add_point.
Print Assumptions C100_fresh.
Print Assumptions C100_save_load.
Print Assumptions C100_failed_load_refuted.
Print Assumptions C100_add_observation.
Print Assumptions C100_add_position.
Print Assumptions C100_remove_observation.
Print Assumptions C100_remove_error.
Print Assumptions C100_remove_gcp.
Print Assumptions C100_visible.
Print Assumptions C100_observed_once_refuted.
Print Assumptions C100_worst.
Print Assumptions C100_worst_image.
