(** Proofs about the annotations of ground control points. *)
From stdpp Require Import prelude strings pretty.
From Coq Require Import Reals Lra Lia.
From Verif Require Import Base JsonModel AnnotModel AnnotSpec.

Section Dict.
Context {A : Type}.
Implicit Types d : list (string * A).
Lemma aget_aset d k v k' : aget (aset d k v) k' = if decide (k = k') then Some v else aget d k'.
Proof.
  induction d as [|[a x] d IH]; cbn [aset aget]; [done|]. destruct (decide (a = k)) as [-> |Hk]; cbn [aget].
  - by destruct (decide (k = k')).
  - destruct (decide (a = k')) as [-> |]; [by rewrite decide_False by congruence|done].
Qed.
Lemma aget_none d k : aget d k = None <-> k ∉ d.*1.
Proof.
  induction d as [|[a x] d IH]; cbn [aget fmap list_fmap fst]; [split; [intros _; apply not_elem_of_nil|done]|].
  rewrite not_elem_of_cons. destruct (decide (a = k)) as [-> |]; [split; [done|tauto]|]. rewrite IH. intuition congruence.
Qed.
Lemma aget_some d k v : aget d k = Some v -> (k, v) ∈ d.
Proof. induction d as [|[a x] d IH]; cbn [aget]; [done|]. destruct (decide (a = k)) as [-> |]; [intros [= ->]; left|intros H; right; by apply IH]. Qed.
Lemma aget_elem d k v : NoDup d.*1 -> (k, v) ∈ d -> aget d k = Some v.
Proof.
  induction d as [|[a x] d IH]; cbn [aget fmap list_fmap fst]; [intros _ H; inversion H|]. intros [Hn Hd]%NoDup_cons [[= -> ->]|H]%elem_of_cons; [by rewrite decide_True|].
  rewrite decide_False; [by apply IH|]. intros ->. apply Hn. apply elem_of_list_fmap. by exists (k, v).
Qed.
Lemma aset_new d k v : aget d k = None -> aset d k v = d ++ [(k, v)].
Proof. induction d as [|[a x] d IH]; cbn [aset aget]; [done|]. destruct (decide (a = k)); [done|]. intros H. cbn [app]. by rewrite IH. Qed.
Lemma aset_keys d k v x : aget d k = Some x -> (aset d k v).*1 = d.*1.
Proof. induction d as [|[a y] d IH]; cbn [aset aget]; [done|]. destruct (decide (a = k)) as [-> |]; [done|]. intros H. cbn [fmap list_fmap]. by rewrite IH. Qed.
Lemma aset_nodup d k v : NoDup d.*1 -> NoDup (aset d k v).*1.
Proof.
  intros H. destruct (aget d k) as [x|] eqn:E; [by rewrite (aset_keys _ _ _ x)|]. rewrite aset_new by done. rewrite fmap_app. apply NoDup_app. split; [done|].
  apply aget_none in E. split; [|cbn; apply NoDup_singleton]. intros a Ha ->%elem_of_list_singleton. done.
Qed.
Lemma aset_in d k v k' v' : (k', v') ∈ aset d k v -> (k' = k /\ v' = v) \/ (k', v') ∈ d.
Proof.
  induction d as [|[a x] d IH]; cbn [aset]; [intros [= -> ->]%elem_of_list_singleton; by left|]. destruct (decide (a = k)) as [-> |].
  - intros [[= -> ->]|H]%elem_of_cons; [by left|right; by right].
  - intros [[= -> ->]|H]%elem_of_cons; [right; left|]. destruct (IH H); [by left|right; by right].
Qed.
Lemma adel_nodup d k : NoDup d.*1 -> NoDup (adel d k).*1.
Proof.
  intros H. unfold adel. induction d as [|[a x] d IH]; [done|]. cbn [fmap list_fmap fst] in H. apply NoDup_cons in H as [Hn Hd]. rewrite filter_cons. destruct (decide _); [|by apply IH].
  cbn [fmap list_fmap fst]. constructor; [|by apply IH]. intros ([? y] & -> & [_ Hy]%elem_of_list_filter)%elem_of_list_fmap. apply Hn. apply elem_of_list_fmap. eexists. split; [|exact Hy]. done.
Qed.
Lemma aget_adel d k k' : aget (adel d k) k' = if decide (k = k') then None else aget d k'.
Proof.
  unfold adel. induction d as [|[a x] d IH]; cbn [aget]; [by destruct (decide _)|]. rewrite filter_cons. cbn [fst]. destruct (decide (a <> k)) as [Ha|Ha]; cbn [aget].
  - destruct (decide (a = k')) as [-> |]; [by rewrite decide_False by congruence|done].
  - apply dec_stable in Ha as ->. rewrite IH. by destruct (decide (k = k')).
Qed.
End Dict.

(** ** Names *)
Lemma exists_iff m id : point_exists m id = true <-> id ∈ (points m).*1.
Proof.
  unfold point_exists. destruct (aget (points m) id) as [p|] eqn:E.
  - apply aget_some in E. split; [|done]. intros _. apply elem_of_list_fmap. by exists (id, p).
  - apply aget_none in E. split; [done|tauto].
Qed.
Lemma free_number_ok fuel m : forall n k, free_number fuel m n = Ok k -> (n <= k)%nat /\ pretty k ∉ (points m).*1 /\ forall j, (n <= j < k)%nat -> pretty j ∈ (points m).*1.
Proof.
  induction fuel as [|fuel IH]; intros n k; cbn [free_number]; [done|]. destruct (point_exists m (pretty n)) eqn:E.
  - intros H. destruct (IH _ _ H) as (H1 & H2 & H3). split; [lia|]. split; [done|]. intros j Hj. destruct (decide (j = n)) as [-> |]; [by apply exists_iff|apply H3; lia].
  - intros [= <-]. split; [lia|]. split; [|intros j; lia]. rewrite <- exists_iff. by rewrite E.
Qed.
Lemma free_number_err fuel m : forall n e, free_number fuel m n = Err e -> forall i, (n <= i < n + fuel)%nat -> pretty i ∈ (points m).*1.
Proof.
  induction fuel as [|fuel IH]; intros n e; cbn [free_number]; [intros _ i; lia|]. destruct (point_exists m (pretty n)) eqn:E; [|done].
  intros H i Hi. destruct (decide (i = n)) as [-> |]; [by apply exists_iff|]. apply (IH (S n) e H). lia.
Qed.
Lemma free_number_total m n : exists k, free_number (S (length (points m))) m n = Ok k.
Proof.
  destruct (free_number _ m n) as [k|e] eqn:E; [by exists k|]. exfalso.
  set (l := (fun i => pretty i : string) <$> seq n (S (length (points m)))).
  assert (NoDup l) as Hl by (apply NoDup_fmap_2; [intros x y; apply (inj pretty)|apply NoDup_seq]).
  assert (l ⊆ (points m).*1) as Hs. { intros x (i & -> & Hi%elem_of_seq)%elem_of_list_fmap. apply (free_number_err _ _ _ _ E). done. }
  pose proof (submseteq_length _ _ (NoDup_submseteq _ _ Hl Hs)) as H. unfold l in H. rewrite !fmap_length, seq_length in H. lia.
Qed.
Lemma add_point_ok m : exists k, add_point m = Ok (Manager (points m ++ [(pretty k, Point (pretty k) [] None)]) (S k) (gcp_reprojections m), pretty k) /\
  (next_number m <= k)%nat /\ (pretty k : string) ∉ (points m).*1 /\ forall j, (next_number m <= j < k)%nat -> pretty j ∈ (points m).*1.
Proof.
  destruct (free_number_total m (next_number m)) as [k Hk]. exists k. pose proof (free_number_ok _ _ _ _ Hk) as (H1 & H2 & H3). split; [|done].
  unfold add_point. rewrite Hk. cbn [res_bind]. by rewrite aset_new by (by apply aget_none).
Qed.
Lemma next_mono c m : (next_number m <= next_number (do_call m c))%nat.
Proof.
  destruct c as [f|e| |id shot c geo|id shot b|id]; cbn [do_call].
  - unfold load_from_file. destruct (res_bind _ _); [destruct (read_points _ _)|]; cbn; lia.
  - done.
  - destruct (add_point_ok m) as (k & -> & H & _). cbn. lia.
  - unfold add_point_observation. destruct (aget (points m) id); cbn [of_option res_bind]; [|done]. destruct (get_observation m id shot) as [[o|]|]; cbn [res_bind]; try done.
    destruct (match geo with [] => _ | _ => _ end); cbn [res_bind]; done.
  - unfold remove_point_observation. destruct (aget (points m) id); cbn [of_option res_bind]; done.
  - unfold remove_gcp. destruct (point_exists m id); done.
Qed.
Lemma names_bound cs : forall m x, x ∈ names_given m cs -> exists k, x = pretty k /\ (next_number m <= k)%nat.
Proof.
  induction cs as [|c cs IH]; intros m x; cbn [names_given]; [intros H; inversion H|]. intros [H|H]%elem_of_app.
  - destruct c; try (inversion H; fail). destruct (add_point_ok m) as (k & E & H1 & _). rewrite E in H. apply elem_of_list_singleton in H as ->. eauto.
  - destruct (IH _ _ H) as (k & -> & Hk). exists k. split; [done|]. pose proof (next_mono c m). lia.
Qed.
Lemma names_nodup cs : forall m, NoDup (names_given m cs).
Proof.
  induction cs as [|c cs IH]; intros m; cbn [names_given]; [constructor|]. destruct c; try apply IH.
  cbn [do_call]. destruct (add_point_ok m) as (k & -> & H1 & _). cbn [app]. constructor; [|apply IH].
  intros (k' & E & Hk)%names_bound. cbn in Hk. apply (inj pretty) in E. lia.
Qed.

(** ** Invariants *)
Lemma aset_consistent ps id p : NoDup ps.*1 -> (forall i q, (i, q) ∈ ps -> point_id q = i) -> point_id p = id -> NoDup (aset ps id p).*1 /\ forall i q, (i, q) ∈ aset ps id p -> point_id q = i.
Proof. intros H1 H2 H3. split; [by apply aset_nodup|]. intros i q [[-> ->]|H]%aset_in; [done|by apply H2]. Qed.
Lemma read_points_consistent l : forall ps, NoDup ps.*1 -> (forall i q, (i, q) ∈ ps -> point_id q = i) -> NoDup (read_points ps l).1.*1 /\ forall i q, (i, q) ∈ (read_points ps l).1 -> point_id q = i.
Proof.
  induction l as [|j l IH]; intros ps H1 H2; cbn [read_points]; [done|]. destruct (read_point j) as [p|e]; [|done].
  destruct (aset_consistent ps (point_id p) p H1 H2 eq_refl) as [H3 H4]. by apply IH.
Qed.
Lemma call_consistent c m : consistent m -> consistent (do_call m c).
Proof.
  intros [H1 H2]. destruct c as [f|e| |id shot c geo|id shot b|id]; cbn [do_call].
  - unfold load_from_file. destruct (res_bind _ _) as [l|e].
    + pose proof (read_points_consistent l [] (NoDup_nil_2) ltac:(intros ?? H; inversion H)) as [H3 H4]. destruct (read_points [] l). done.
    + split; [constructor|intros ?? H; inversion H].
  - done.
  - destruct (add_point_ok m) as (k & -> & _ & Hn & _). rewrite <- aset_new by (by apply aget_none). by apply aset_consistent.
  - unfold add_point_observation. destruct (aget (points m) id) as [p|] eqn:E; cbn [of_option res_bind]; [|done]. destruct (get_observation m id shot) as [[o|]|]; cbn [res_bind]; try done.
    destruct (match geo with [] => _ | _ => _ end); cbn [res_bind]; [|done]. apply aset_consistent; [done..|]. cbn. apply H2. by apply aget_some.
  - unfold remove_point_observation. destruct (aget (points m) id) eqn:E; cbn [of_option res_bind]; [|done]. apply aset_consistent; [done..|]. cbn. apply H2. by apply aget_some.
  - unfold remove_gcp. destruct (point_exists m id); [|done]. split; cbn [points with_points]; [by apply adel_nodup|]. intros i q [_ H]%elem_of_list_filter. by apply H2.
Qed.
Lemma session_ind (P : manager -> Prop) (Q : call -> Prop) : P (Manager [] 0 []) -> (forall c m, Q c -> P m -> P (do_call m c)) -> forall cs, Forall Q cs -> P (session cs).
Proof.
  intros H0 H cs. unfold session. generalize (Manager [] 0 []) H0. induction cs as [|c cs IH]; intros m Hm Hq; [done|]. apply Forall_cons in Hq as [Hc Hq]. cbn [foldl]. apply IH; [by apply H|done].
Qed.
Lemma session_consistent cs : consistent (session cs).
Proof.
  apply (session_ind consistent (fun _ => True)); [|intros; by apply call_consistent|by apply Forall_true]. split; [constructor|intros ?? H; inversion H].
Qed.
Lemma find_none m (l : list observation) : List.find (fun o => bool_decide (image_id o = m)) l = None <-> m ∉ (image_id <$> l).
Proof.
  split.
  - intros H (o & -> & Ho)%elem_of_list_fmap. apply elem_of_list_In in Ho. pose proof (List.find_none _ _ H o Ho) as H'. by apply bool_decide_eq_false in H'.
  - intros H. destruct (List.find _ l) as [o|] eqn:E; [|done]. apply List.find_some in E as [Ho Hb%bool_decide_eq_true]. exfalso. apply H. apply elem_of_list_fmap. exists o. split; [done|by apply elem_of_list_In].
Qed.
Lemma find_elem shot (l : list observation) c : NoDup (image_id <$> l) -> Observation shot c ∈ l -> List.find (fun o => bool_decide (image_id o = shot)) l = Some (Observation shot c).
Proof.
  induction l as [|o l IH]; cbn [fmap list_fmap List.find]; [intros _ H; inversion H|]. intros [Hn Hd]%NoDup_cons [<- |H]%elem_of_cons.
  - cbn [image_id]. by rewrite bool_decide_eq_true_2.
  - rewrite bool_decide_eq_false_2; [by apply IH|]. intros E. apply Hn. apply elem_of_list_fmap. exists (Observation shot c). by split.
Qed.
Lemma call_once_ok c m : call_once c -> observed_once m -> observed_once (do_call m c).
Proof.
  intros Hc H. destruct c as [f|e| |id shot c geo|id shot b|id]; cbn [do_call].
  - unfold load_from_file. destruct (res_bind _ _) as [l|e] eqn:E; [|intros ?? H'; inversion H'].
    destruct f as [j|]; [|done]. cbn [of_option res_bind] in E. destruct j as [| | | | |d]; try done. cbn [as_obj res_bind] in E. unfold jreq in E. destruct (jget d "points") as [ps|] eqn:Ep; [|done]. cbn [of_option res_bind] in E. destruct ps as [| | | |ps|]; try done. cbn in E. injection E as ->.
    assert (forall x p, x ∈ l -> read_point x = Ok p -> NoDup (image_id <$> observations p)) as Hr by (intros; eapply Hc; eauto). clear Hc Ep.
    assert (forall ps, (forall i q, (i, q) ∈ ps -> NoDup (image_id <$> observations q)) -> forall i q, (i, q) ∈ (read_points ps l).1 -> NoDup (image_id <$> observations q)) as Hall.
    { clear -Hr. induction l as [|x l IH]; intros ps Hps; cbn [read_points]; [done|]. destruct (read_point x) as [p|e] eqn:E; [|done].
      apply IH; [intros y q Hy; apply Hr; by right|]. intros i q [[-> ->]|Hq]%aset_in; [apply (Hr x); [left|done]|by apply (Hps i)]. }
    specialize (Hall []). destruct (read_points [] l) as [ps r]. intros i q Hq. apply (Hall ltac:(intros ?? H'; inversion H') i q Hq).
  - done.
  - destruct (add_point_ok m) as (k & -> & _). intros i q [Hq|[= -> ->]%elem_of_list_singleton]%elem_of_app; [by apply (H i)|constructor].
  - unfold add_point_observation. destruct (aget (points m) id) as [p|] eqn:E; cbn [of_option res_bind]; [|done]. destruct (get_observation m id shot) as [[o|]|] eqn:Eo; cbn [res_bind]; try done.
    destruct (match geo with [] => _ | _ => _ end); cbn [res_bind]; [|done]. intros i q [[-> ->]|Hq]%aset_in; [|by apply (H i)]. cbn [observations]. rewrite fmap_app. apply NoDup_app. split; [apply (H id); by apply aget_some|]. split; [|apply NoDup_singleton].
    intros x Hx ->%elem_of_list_singleton. cbn [image_id] in Hx. unfold get_observation in Eo. rewrite E in Eo. cbn [of_option res_bind] in Eo. injection Eo as Eo. by apply find_none in Eo.
  - unfold remove_point_observation. destruct (aget (points m) id) as [p|] eqn:E; cbn [of_option res_bind]; [|done]. intros i q [[-> ->]|Hq]%aset_in; [|by apply (H i)]. cbn [observations]. 
    assert (NoDup (image_id <$> observations p)) as Hp by (apply (H id); by apply aget_some). clear -Hp. induction (observations p) as [|o l IH]; [constructor|]. cbn [fmap list_fmap] in Hp. apply NoDup_cons in Hp as [Hn Hd]. rewrite filter_cons. destruct (decide _); [|by apply IH].
    cbn [fmap list_fmap]. constructor; [|by apply IH]. intros (o' & Ho & [_ Ho']%elem_of_list_filter)%elem_of_list_fmap. apply Hn. apply elem_of_list_fmap. eauto.
  - unfold remove_gcp. destruct (point_exists m id); [|done]. intros i q [_ Hq]%elem_of_list_filter. by apply (H i).
Qed.

(** ** Files *)
Definition sort_dict (d : jdict) : jdict := foldr (fun kv acc => insert_key kv.1 kv.2 acc) [] ((fun kv => (kv.1, sort_keys kv.2)) <$> d).
Lemma jget_insert k v d key : jget (insert_key k v d) key = if decide (k = key) then Some v else jget d key.
Proof.
  induction d as [|[k' v'] d IH]; cbn [insert_key jget]; [done|]. destruct (decide (String.compare k' k = Lt)) as [Hl|Hl]; cbn [jget].
  - rewrite IH. destruct (decide (k' = key)) as [-> |]; [|done]. rewrite decide_False; [done|]. intros ->. assert (String.compare key key = Eq) as E by (pose proof (String.compare_antisym key key) as E; destruct (String.compare key key); done). congruence.
  - done.
Qed.
Lemma jget_sort d key : jget (sort_dict d) key = sort_keys <$> jget d key.
Proof.
  unfold sort_dict. induction d as [|[k v] d IH]; [done|]. cbn [fmap list_fmap foldr fst snd]. rewrite jget_insert, IH. cbn [jget]. by destruct (decide (k = key)).
Qed.
Lemma sort_obj d : sort_keys (JObj d) = JObj (sort_dict d).
Proof. reflexivity. Qed.
Lemma sort_scalar j : scalar j -> sort_keys j = j.
Proof. by destruct j. Qed.
Lemma as_obj_sort d : as_obj (sort_keys (JObj d)) = Ok (sort_dict d).
Proof. reflexivity. Qed.
Lemma observation_roundtrip o : Forall scalar (coords_fields (measure o)) -> observation_from_json (sort_keys (observation_to_json o)) = Ok o.
Proof.
  destruct o as [s [x y p|x y z p]]; cbn [measure coords_fields]; intros H; rewrite !Forall_cons in H; unfold observation_to_json, observation_from_json; cbn [measure image_id]; rewrite as_obj_sort; cbn [res_bind]; unfold jreq; rewrite !jget_sort.
  - destruct H as (Hx & Hy & Hp & _).
    change (jget _ "projection") with (Some (JList [x; y])). change (jget _ "shot_id") with (Some (JStr s)). change (jget _ "precision") with (Some p). cbn [fmap option_fmap option_map of_option res_bind sort_keys as_list as_str].
    cbn. by rewrite !sort_scalar.
  - destruct H as (Hx & Hy & Hz & Hp & _).
    change (jget _ "projection") with (@None json). change (jget _ "shot_id") with (Some (JStr s)). change (jget _ "precision") with (Some p). change (jget _ "point") with (Some (JList [x; y; z])). cbn [fmap option_fmap option_map of_option res_bind sort_keys as_list as_str].
    cbn. by rewrite !sort_scalar.
Qed.
Lemma geodetic_roundtrip g : Forall scalar (geodetic_fields g) -> read_geodetic (sort_dict (geodetic_to_dict g)) = Ok g.
Proof.
  destruct g as [lon lat h t a v]. intros H. change (Forall scalar [lon; lat; h; t; a; v]) in H. rewrite !Forall_cons in H. destruct H as (H1 & H2 & H3 & H4 & H5 & H6 & _).
  unfold read_geodetic, jreq. rewrite !jget_sort. 
  assert (jget (geodetic_to_dict (Geodetic lon lat h t a v)) "longitude" = Some lon) as -> by (destruct a, v; reflexivity).
  assert (jget (geodetic_to_dict (Geodetic lon lat h t a v)) "latitude" = Some lat) as -> by (destruct a, v; reflexivity).
  assert (jget (geodetic_to_dict (Geodetic lon lat h t a v)) "horizontal_std" = Some h) as -> by (destruct a, v; reflexivity).
  assert (jget (geodetic_to_dict (Geodetic lon lat h t a v)) "measured_at" = Some t) as -> by (destruct a, v; reflexivity).
  assert (default JNull (sort_keys <$> jget (geodetic_to_dict (Geodetic lon lat h t a v)) "altitude") = a) as -> by (destruct a, v; try done; reflexivity).
  assert (default JNull (sort_keys <$> jget (geodetic_to_dict (Geodetic lon lat h t a v)) "vertical_std") = v) as -> by (destruct a, v; try done; reflexivity).
  cbn. by rewrite !sort_scalar.
Qed.
Lemma sort_geodetic_truthy g : truthy (JObj (sort_dict (geodetic_to_dict g))).
Proof.
  cbn. intros E. assert (jget (sort_dict (geodetic_to_dict g)) "latitude" = None) as H by (by rewrite E). rewrite jget_sort in H. destruct g as [lon lat h t a v]. 
  assert (jget (geodetic_to_dict (Geodetic lon lat h t a v)) "latitude" = Some lat) as E' by (destruct a, v; reflexivity). by rewrite E' in H.
Qed.
Lemma mapR_roundtrip (l : list observation) : Forall (fun o => Forall scalar (coords_fields (measure o))) l -> mapR observation_from_json (sort_keys <$> (observation_to_json <$> l)) = Ok l.
Proof.
  induction l as [|o l IH]; intros H; [done|]. apply Forall_cons in H as [Ho Hl].
  change (mapR observation_from_json (sort_keys <$> (observation_to_json <$> (o :: l)))) with (try b := observation_from_json (sort_keys (observation_to_json o)) in try bs := mapR observation_from_json (sort_keys <$> (observation_to_json <$> l)) in Ok (b :: bs)).
  rewrite observation_roundtrip by done. cbn [res_bind]. by rewrite IH.
Qed.
Lemma point_roundtrip p : Forall scalar (point_fields p) -> read_point (sort_keys (point_to_json p)) = Ok p.
Proof.
  intros [Ho Hg]%Forall_app. destruct p as [id l g]. cbn [observations geodetic_measurement] in Ho, Hg.
  assert (Forall (fun o => Forall scalar (coords_fields (measure o))) l) as Hl.
  { clear -Ho. induction l as [|o l IH]; [constructor|]. cbn [fmap list_fmap mjoin list_join] in Ho. apply Forall_app in Ho as [? ?]. constructor; [done|by apply IH]. }
  unfold read_point, point_to_json. cbn [point_id observations geodetic_measurement]. rewrite as_obj_sort. cbn [res_bind]. unfold jreq. rewrite !jget_sort.
  change (jget _ "id") with (Some (JStr id)). change (jget _ "observations") with (Some (JList (observation_to_json <$> l))).
  cbn [fmap option_fmap option_map of_option res_bind sort_keys as_str default from_option as_list]. change (list_fmap _ _ sort_keys (list_fmap _ _ observation_to_json l)) with (sort_keys <$> (observation_to_json <$> l)). 
  unfold Datatypes.id at 1. cbn [as_list res_bind]. rewrite mapR_roundtrip by done. cbn [res_bind]. destruct g as [g|].
  - change (jget _ "position") with (Some (JObj (geodetic_to_dict g))). cbn [fmap option_fmap option_map default from_option]. unfold Datatypes.id. rewrite sort_obj. rewrite decide_True by apply sort_geodetic_truthy. cbn [as_obj res_bind]. by rewrite geodetic_roundtrip.
  - change (jget _ "position") with (@None json). cbn [fmap option_fmap option_map default from_option]. rewrite decide_False; [done|]. exact (fun H => H).
Qed.
Lemma read_points_roundtrip (l : list (string * control_point)) : forall ps, NoDup (ps ++ l).*1 -> (forall i q, (i, q) ∈ l -> point_id q = i /\ Forall scalar (point_fields q)) ->
  read_points ps (sort_keys <$> (point_to_json <$> l.*2)) = (ps ++ l, Ok ()).
Proof.
  induction l as [|[i q] l IH]; intros ps Hn Hl; cbn [fmap list_fmap read_points snd]; [by rewrite app_nil_r|].
  destruct (Hl i q ltac:(left)) as [Hi Hf]. rewrite point_roundtrip by done. rewrite Hi. rewrite aset_new.
  - change (list_fmap _ _ sort_keys (list_fmap _ _ point_to_json (list_fmap _ _ snd l))) with (sort_keys <$> (point_to_json <$> l.*2)). rewrite IH; [by rewrite <- app_assoc|by rewrite <- app_assoc|]. intros i' q' H. apply Hl. by right.
  - apply aget_none. rewrite fmap_app in Hn. apply NoDup_app in Hn as (_ & Hn & _). intros H. apply (Hn _ H). left.
Qed.
Lemma save_load m m0 : consistent m -> plain m -> load_from_file m0 (Some (write_to_file m)) = (with_points m0 (points m), Ok ()).
Proof.
  intros [H1 H2] Hp. unfold load_from_file, write_to_file. cbn [of_option res_bind]. rewrite as_obj_sort. cbn [res_bind]. unfold jreq. rewrite jget_sort. change (jget _ "points") with (Some (JList (points_to_json m))). cbn [fmap option_fmap option_map of_option res_bind sort_keys]. cbn [as_list].
  change (list_fmap _ _ sort_keys (points_to_json m)) with (sort_keys <$> points_to_json m). unfold points_to_json. rewrite (read_points_roundtrip (points m) []); [done|done|]. intros i q H. split; [by apply H2|by eapply Hp].
Qed.

(** ** Errors *)
Section Best.
Local Open Scope R_scope.
Lemma inner_best (id : string) (l : list (string * R)) : forall e0 g0, let '(e, g) := foldl (fun acc (s : string * R) => if Rlt_dec acc.1 s.2 then (s.2, Some id) else acc) (e0, g0) l in
  e0 <= e /\ (forall s x, (s, x) ∈ l -> x <= e) /\ ((e = e0 /\ g = g0) \/ (e0 < e /\ g = Some id /\ exists s, (s, e) ∈ l)).
Proof.
  induction l as [|[s x] l IH]; intros e0 g0; cbn [foldl]; [split; [lra|]; split; [intros ?? H; inversion H|by left]|]. cbn [fst snd].
  destruct (Rlt_dec e0 x) as [Hx|Hx].
  - specialize (IH x (Some id)). destruct (foldl _ _ l) as [e g]. destruct IH as (H1 & H2 & H3). split; [lra|]. split; [intros s' x' [[= -> ->]|H]%elem_of_cons; [done|by eapply H2]|].
    right. split; [lra|]. destruct H3 as [[-> ->]|(? & -> & s' & Hs)]; (split; [done|]); [exists s; left|exists s'; by right].
  - specialize (IH e0 g0). destruct (foldl _ _ l) as [e g]. destruct IH as (H1 & H2 & H3). split; [lra|]. split; [intros s' x' [[= -> ->]|H]%elem_of_cons; [lra|by eapply H2]|].
    destruct H3 as [?|(? & ? & s' & Hs)]; [by left|right]. split; [done|]. split; [done|]. exists s'; by right.
Qed.
Lemma outer_best (m : manager) (l : list (string * list (string * R))) : forall e0 g0,
  let '(e, g) := foldl (fun acc (g : string * list (string * R)) => if point_exists m g.1 then foldl (fun acc s => if Rlt_dec acc.1 s.2 then (s.2, Some g.1) else acc) acc g.2 else acc) (e0, g0) l in
  e0 <= e /\ (forall id d s x, (id, d) ∈ l -> id ∈ (points m).*1 -> (s, x) ∈ d -> x <= e) /\
  ((e = e0 /\ g = g0) \/ (e0 < e /\ exists id d s, g = Some id /\ id ∈ (points m).*1 /\ (id, d) ∈ l /\ (s, e) ∈ d)).
Proof.
  induction l as [|[i d] l IH]; intros e0 g0; cbn [foldl]; [split; [lra|]; split; [intros ???? H; inversion H|by left]|]. cbn [fst snd].
  destruct (point_exists m i) eqn:E.
  - pose proof (inner_best i d e0 g0) as Hi. destruct (foldl _ (e0, g0) d) as [e1 g1]. destruct Hi as (I1 & I2 & I3). specialize (IH e1 g1). destruct (foldl _ (e1, g1) l) as [e g]. destruct IH as (H1 & H2 & H3).
    split; [lra|]. split. { intros id d' s x [[= -> ->]|H]%elem_of_cons Hid Hs; [pose proof (I2 _ _ Hs); lra|by eapply H2]. }
    destruct H3 as [[-> ->]|(Hlt & id & d' & s & H)].
    + destruct I3 as [?|(? & -> & s & Hs)]; [by left|right]. split; [done|]. exists i, d, s. split; [done|]. split; [by apply exists_iff|]. split; [left|done].
    + right. split; [lra|]. exists id, d', s. destruct H as (? & ? & ? & ?). repeat split; try done. by right.
  - specialize (IH e0 g0). destruct (foldl _ (e0, g0) l) as [e g]. destruct IH as (H1 & H2 & H3). split; [done|]. split. { intros id d' s x [[= -> ->]|H]%elem_of_cons Hid Hs; [apply exists_iff in Hid; congruence|by eapply H2]. }
    destruct H3 as [?|(Hlt & id & d' & s & ? & ? & ? & ?)]; [by left|right]. split; [done|]. exists id, d', s. repeat split; try done. by right.
Qed.
Lemma max_best (l : list (string * R)) : forall b, let r := foldl (fun best (s : string * R) => if Rlt_dec best.2 s.2 then s else best) b l in r ∈ b :: l /\ forall s, s ∈ b :: l -> s.2 <= r.2.
Proof.
  induction l as [|s l IH]; intros b; cbn [foldl]; [split; [left|intros ? ->%elem_of_list_singleton; lra]|].
  destruct (Rlt_dec b.2 s.2) as [Hb|Hb].
  - destruct (IH s) as [H1 H2]. split; [by right|]. intros x [-> |H]%elem_of_cons; [|by apply H2]. pose proof (H2 s ltac:(left)). lra.
  - destruct (IH b) as [H1 H2]. split; [apply elem_of_cons in H1 as [-> |H1]; [left|right; by right]|]. intros x [-> |[-> |H]%elem_of_cons]%elem_of_cons; [apply H2; left| |apply H2; by right]. pose proof (H2 b ltac:(left)). lra.
Qed.
End Best.

(** ** Visible points *)
Lemma visible_inner id img (l : list observation) : forall acc, NoDup (image_id <$> l) ->
  foldl (fun acc o => if decide (image_id o = img) then aset acc id (measure o) else acc) acc l = match List.find (fun o => bool_decide (image_id o = img)) l with Some o => aset acc id (measure o) | None => acc end.
Proof.
  induction l as [|o l IH]; intros acc Hn; cbn [foldl List.find]; [done|]. cbn [fmap list_fmap] in Hn. apply NoDup_cons in Hn as [Ho Hn]. rewrite IH by done. destruct (decide (image_id o = img)) as [E|E].
  - rewrite bool_decide_eq_true_2 by done. assert (List.find (fun o => bool_decide (image_id o = img)) l = None) as -> by (apply find_none; by rewrite <- E). done.
  - by rewrite bool_decide_eq_false_2.
Qed.
Definition seen (img : string) (p : string * control_point) : option (string * coords) := (fun o => (p.1, measure o)) <$> List.find (fun o => bool_decide (image_id o = img)) (observations p.2).
Lemma visible_outer img (ps : list (string * control_point)) : forall acc, NoDup (acc.*1 ++ ps.*1) -> (forall i p, (i, p) ∈ ps -> point_id p = i /\ NoDup (image_id <$> observations p)) ->
  foldl (fun acc p => foldl (fun acc o => if decide (image_id o = img) then aset acc (point_id p) (measure o) else acc) acc (observations p)) acc ps.*2 = acc ++ omap (seen img) ps.
Proof.
  induction ps as [|[i p] ps IH]; intros acc Hn Hp; cbn [fmap list_fmap foldl]; [by rewrite app_nil_r|]. cbn [snd]. destruct (Hp i p ltac:(left)) as [Hi Hd]. rewrite Hi.
  rewrite visible_inner by done. cbn [fmap list_fmap fst] in Hn. cbn [omap list_omap]. unfold seen at 1. cbn [fst snd].
  assert (forall i p, (i, p) ∈ ps -> point_id p = i /\ NoDup (image_id <$> observations p)) as Hp' by (intros; apply Hp; by right).
  destruct (List.find _ (observations p)) as [o|]; cbn [fmap option_fmap option_map].
  - rewrite aset_new. 
    + change (list_fmap _ _ snd ps) with ps.*2. rewrite IH; [by rewrite <- app_assoc| |done]. rewrite fmap_app, <- app_assoc. done.
    + apply aget_none. intros H. apply NoDup_app in Hn as (_ & Hn & _). apply (Hn _ H). left.
  - apply IH; [|done]. apply NoDup_app in Hn as (H1 & H2 & H3). apply NoDup_cons in H3 as [_ H3]. apply NoDup_app. split; [done|]. split; [|done]. intros x Hx Hx'. apply (H2 x Hx). by right.
Qed.
Lemma seen_keys img ps : (omap (seen img) ps).*1 `sublist_of` ps.*1.
Proof.
  induction ps as [|[i p] ps IH]; [constructor|]. cbn [omap list_omap]. unfold seen at 1. cbn [fst snd]. destruct (List.find _ _); cbn [fmap option_fmap option_map list_fmap fst]; by constructor.
Qed.
Lemma observed_get m id shot c : consistent m -> observed_once m -> observed m id shot c -> get_observation m id shot = Ok (Some (Observation shot c)).
Proof.
  intros [Hn _] Ho (p & Hp & Hc). unfold get_observation. rewrite (aget_elem _ _ p) by done. cbn [of_option res_bind]. by rewrite (find_elem shot _ c) by (try apply (Ho id); done).
Qed.
Lemma get_observed m id shot o : get_observation m id shot = Ok (Some o) -> image_id o = shot /\ observed m id shot (measure o).
Proof.
  unfold get_observation. destruct (aget (points m) id) as [p|] eqn:E; cbn [of_option res_bind]; [|done]. intros [= Hf]. apply List.find_some in Hf as [Ho Hb%bool_decide_eq_true]. split; [done|].
  exists p. split; [by apply aget_some|]. apply elem_of_list_In. by destruct o; cbn in *; subst.
Qed.
