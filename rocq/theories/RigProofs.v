From stdpp Require Import prelude list sorting gmap strings.
From Verif Require Import Base RigModel RigSpec.

Section Patterns.
Context (re_sub : string -> string -> string).

Lemma find_image_rig_some image ps c k : find_image_rig re_sub image ps = Some (c, k) <-> first_match re_sub ps image c k.
Proof.
  unfold first_match, pattern_matches. induction ps as [|[c' p'] ps IH]; cbn [find_image_rig].
  - split; [done|]. intros (b & p & a & H & _). by destruct b.
  - assert ((re_sub p' image <> "" /\ re_sub p' image <> image) \/ ~ (re_sub p' image <> "" /\ re_sub p' image <> image)) as [[H1 H2]|Hn] by (destruct (decide (re_sub p' image = "")), (decide (re_sub p' image = image)); tauto).
    + rewrite decide_False by done. rewrite decide_True by done. split.
      * intros [= <- <-]. exists [], p', ps. split_and!; try done. set_solver.
      * intros (b & p & a & Heq & [? ?] & <- & Hb). destruct b as [|q b]; [by simplify_eq/=|]. injection Heq as <- Heq.
        exfalso. apply (Hb (c', p')); [set_solver|done].
    + transitivity (find_image_rig re_sub image ps = Some (c, k)).
      { destruct (decide (re_sub p' image = "")); [done|]. destruct (decide (re_sub p' image <> image)); [tauto|done]. }
      rewrite IH. split.
      * intros (b & p & a & -> & Hm & Hk & Hb). exists ((c', p') :: b), p, a. split; [done|]. split; [done|]. split; [done|]. intros q [->|Hq]%elem_of_cons; [done|by apply Hb].
      * intros (b & p & a & Heq & ? & ? & Hb). destruct b as [|q b]; simplify_eq/=; [tauto|]. exists b, p, a. split; [done|]. split; [done|]. split; [done|]. intros q Hq. apply Hb. set_solver.
Qed.
Lemma first_match_functional ps im c k c' k' : first_match re_sub ps im c k -> first_match re_sub ps im c' k' -> c = c' /\ k = k'.
Proof. rewrite <- !find_image_rig_some. intros H1 H2. rewrite H1 in H2. by simplify_eq. Qed.

Lemma instance_of_spec ps im c k : k <> INCOMPLETE_INSTANCE_GROUP -> instance_of re_sub ps im = (c, k) <-> first_match re_sub ps im c k /\ c <> "".
Proof.
  intros Hk. unfold instance_of. rewrite <- find_image_rig_some. destruct (find_image_rig re_sub im ps) as [[c' k']|] eqn:E.
  - assert (k' <> "") as Hne. { apply find_image_rig_some in E as (b & p & a & _ & [? _] & <- & _). done. }
    destruct (decide (c' = "" \/ k' = "")) as [[->|?]|Hd]; [|done|].
    + split; [intros [= <- <-]; done|]. intros [[= <- <-] ?]. done.
    + split; [intros [= <- <-]; tauto|intros [[= <- <-] ?]; done].
  - split; [intros [= <- <-]; done|intros [? _]; done].
Qed.

Lemma add_images_lookup ps images : forall m k,
  foldl (add_image re_sub ps) m images !! k =
    (let new := map (fun im => (im, (instance_of re_sub ps im).1)) (filter (fun im => (instance_of re_sub ps im).2 = k) images) in
     if decide (new = []) then m !! k else Some (default [] (m !! k) ++ new)).
Proof.
  induction images as [|im images IH]; intros m k; cbn [foldl]; [done|]. rewrite IH. clear IH. cbn zeta. rewrite filter_cons.
  unfold add_image. destruct (instance_of re_sub ps im) as [c k'] eqn:E. cbn [snd fst].
  set (new := map _ (filter _ images)). destruct (decide (k' = k)) as [->|Hne].
  - rewrite lookup_insert. cbn [map]. rewrite E. cbn [fst]. fold new.
    rewrite (decide_False (P:=(im, c) :: new = [])) by done. destruct (decide (new = [])) as [->|]; [done|]. cbn. by rewrite <- (assoc app).
  - rewrite lookup_insert_ne by done. done.
Qed.

Lemma flat_insert {A} (m : gmap string (list A)) k x :
  mjoin (map snd (map_to_list (<[k := default [] (m !! k) ++ [x]]> m))) ≡ₚ mjoin (map snd (map_to_list m)) ++ [x].
Proof.
  rewrite <- insert_delete_insert. rewrite map_to_list_insert by apply lookup_delete. cbn [map mjoin list_join snd].
  destruct (m !! k) as [l|] eqn:E; cbn.
  - rewrite <- (map_to_list_delete m k l E). cbn [map mjoin list_join snd]. rewrite <- !(assoc app). f_equiv. apply Permutation_app_comm.
  - rewrite delete_notin by done. apply Permutation_cons_append.
Qed.
Lemma add_images_flat ps images : forall m,
  mjoin (map snd (map_to_list (foldl (add_image re_sub ps) m images))) ≡ₚ mjoin (map snd (map_to_list m)) ++ map (fun im => (im, (instance_of re_sub ps im).1)) images.
Proof.
  induction images as [|im images IH]; intros m; cbn [foldl map]; [by rewrite app_nil_r|]. rewrite IH. unfold add_image.
  destruct (instance_of re_sub ps im) as [c k] eqn:E. rewrite flat_insert, <- (assoc app). done.
Qed.
Lemma create_partition images ps : let '(inst, single) := create_instances_with_patterns re_sub images ps in
  images ≡ₚ single ++ map fst (mjoin (map snd (map_to_list inst))).
Proof.
  unfold create_instances_with_patterns. cbn zeta.
  pose proof (add_images_flat ps images ∅) as H. rewrite map_to_list_empty in H. cbn [map mjoin list_join app] in H.
  set (m := foldl _ ∅ images) in *. 
  assert (images ≡ₚ map fst (mjoin (map snd (map_to_list m)))) as Hi.
  { rewrite H. rewrite map_map. cbn. by rewrite map_id. }
  rewrite Hi at 1. rewrite <- map_app.
  apply Permutation_map. destruct (m !! INCOMPLETE_INSTANCE_GROUP) as [l|] eqn:E; cbn [default].
  - by rewrite <- (map_to_list_delete m _ l E).
  - by rewrite delete_notin.
Qed.
Lemma create_lookup images ps k l : (create_instances_with_patterns re_sub images ps).1 !! k = Some l <->
  k <> INCOMPLETE_INSTANCE_GROUP /\ l <> [] /\ l = map (fun im => (im, (instance_of re_sub ps im).1)) (filter (fun im => (instance_of re_sub ps im).2 = k) images).
Proof.
  unfold create_instances_with_patterns. cbn [fst]. rewrite lookup_delete_Some, add_images_lookup, lookup_empty. cbn zeta. cbn [default app].
  split.
  - intros [Hk H]. split; [done|]. case_decide as Hd; [done|]. by injection H as <-.
  - intros (Hk & Hl & ->). split; [done|]. by rewrite decide_False.
Qed.
End Patterns.

(** ** Assignments *)
Lemma assign_inner (instance : rig_instance) (f : string -> string * string * list string) : forall (acc : gmap string (string * string * list string)) im,
  NoDup (map fst instance) ->
  foldl (fun acc '(shot_id, rig_camera_id) => <[shot_id := f rig_camera_id]> acc) acc instance !! im =
    match (list_to_map instance : gmap string string) !! im with Some c => Some (f c) | None => acc !! im end.
Proof.
  induction instance as [|[s c] l IH]; intros acc im Hn; cbn [foldl]; [done|]. cbn [map] in Hn. apply NoDup_cons in Hn as [Hs Hn].
  rewrite IH by done. cbn [list_to_map foldr]. cbn [curry uncurry fst snd]. destruct (decide (s = im)) as [->|Hne].
  - rewrite !lookup_insert.
    assert ((list_to_map l : gmap string string) !! im = None) as ->; [|done]. apply not_elem_of_list_to_map_1. exact Hs.
  - by rewrite !lookup_insert_ne by done.
Qed.
Lemma assignments_spec (a : list (string * rig_instance)) : NoDup (map fst (mjoin (map snd a))) -> forall im k c shots,
  rig_assignments_per_image a !! im = Some (k, c, shots) <-> exists l, (k, l) ∈ a /\ (im, c) ∈ l /\ shots = map fst l.
Proof.
  unfold rig_assignments_per_image.
  assert (forall acc, NoDup (map fst (mjoin (map snd a))) -> (forall im, im ∈ map fst (mjoin (map snd a)) -> acc !! im = None) -> forall im k c shots,
    foldl (fun acc '(instance_id, instance) => foldl (fun acc '(shot_id, rig_camera_id) => <[shot_id := (instance_id, rig_camera_id, map fst instance)]> acc) acc instance) acc a !! im = Some (k, c, shots)
    <-> (acc : gmap string (string * string * list string)) !! im = Some (k, c, shots) \/ exists l, (k, l) ∈ a /\ (im, c) ∈ l /\ shots = map fst l) as H.
  { induction a as [|[k0 l0] a IH]; intros acc Hn Hacc im k c shots; cbn [foldl].
    - split; [by left|intros [?|(? & ? & _)]; [done|set_solver]].
    - cbn [map mjoin list_join snd] in Hn, Hacc. rewrite map_app in Hn, Hacc. apply NoDup_app in Hn as (Hn1 & Hd & Hn2).
      set (acc1 := foldl _ acc l0).
      assert (forall im, acc1 !! im = match (list_to_map l0 : gmap string string) !! im with Some c => Some (k0, c, map fst l0) | None => acc !! im end) as Hacc1.
      { intros x. unfold acc1. apply (assign_inner l0 (fun c => (k0, c, map fst l0))). done. }
      rewrite IH; [|done|]. 2:{ intros x Hx. rewrite Hacc1. assert ((list_to_map l0 : gmap string string) !! x = None) as ->; [|apply Hacc; set_solver].
        apply not_elem_of_list_to_map_1. intros Hx'. by eapply Hd. }
      rewrite Hacc1. assert (forall x y, (list_to_map l0 : gmap string string) !! x = Some y <-> (x, y) ∈ l0) as Hl0.
      { intros x y. symmetry. by apply elem_of_list_to_map. }
      destruct ((list_to_map l0 : gmap string string) !! im) as [c0|] eqn:E.
      + apply Hl0 in E. split.
        * intros [[= <- <- <-]|(l & Hl & ? & ?)]; right; [exists l0; split; [set_solver|done]|exists l; split; [set_solver|done]].
        * intros [H0|(l & Hl & Hc & ->)].
          -- rewrite Hacc in H0; [done|]. apply elem_of_app. left. by apply (elem_of_list_fmap_1 fst) in E.
          -- apply elem_of_cons in Hl as [[= -> ->]|Hl].
             ++ left. apply Hl0 in E, Hc. congruence.
             ++ right. by exists l.
      + split.
        * intros [?|(l & Hl & ? & ?)]; [by left|right]. exists l. split; [set_solver|done].
        * intros [?|(l & Hl & Hc & ->)]; [by left|]. apply elem_of_cons in Hl as [[= -> ->]|Hl].
          -- apply Hl0 in Hc. congruence.
          -- right. by exists l. }
  intros Hn im k c shots. rewrite H; [|done|done]. split; [intros [?|?]; [done|done]|by right].
Qed.

(** ** Groups *)
Lemma groups_lookup (l : list rig_instance) : forall (m : gmap string (list rig_instance)) k,
  foldl (fun acc i => <[group_key i := default [] (acc !! group_key i) ++ [i]]> acc) m l !! k =
    (if decide (filter (fun i => group_key i = k) l = []) then m !! k else Some (default [] (m !! k) ++ filter (fun i => group_key i = k) l)).
Proof.
  induction l as [|i l IH]; intros m k; cbn [foldl]; [done|]. rewrite IH, filter_cons. clear IH.
  set (new := filter _ l). destruct (decide (group_key i = k)) as [->|Hne].
  - rewrite lookup_insert. rewrite (decide_False (P:=i :: new = [])) by done. destruct (decide (new = [])) as [->|]; [done|]. cbn. by rewrite <- (assoc app).
  - by rewrite lookup_insert_ne.
Qed.
Lemma group_lookup l k g : group_instances l !! k = Some g <-> g <> [] /\ g = filter (fun i => group_key i = k) l.
Proof. unfold group_instances. rewrite groups_lookup, lookup_empty. cbn [default app]. case_decide as Hd; naive_solver. Qed.

(** ** Counting *)
Lemma mjoin_app {A} (l k : list (list A)) : mjoin (l ++ k) = mjoin l ++ mjoin k.
Proof. induction l as [|x l IH]; [done|]. cbn. rewrite <- (assoc app). f_equal. exact IH. Qed.
Lemma instances_map_gen (l : list rig_instance) (g : nat -> nat) : NoDup (map fst (mjoin l)) -> forall (acc : gmap string nat) s,
  foldl (fun acc '(i, instance) => foldl (fun acc '(shot_id, _) => <[shot_id := i]> acc) acc instance) acc (imap (fun i x => (g i, x)) l) !! s =
  match list_find (fun x => s ∈ map fst x) l with Some (i, _) => Some (g i) | None => acc !! s end.
Proof.
  assert (forall (x : rig_instance) (i : nat) (acc : gmap string nat) s, foldl (fun acc '(shot_id, _) => <[shot_id := i]> acc) acc x !! s = if decide (s ∈ map fst x) then Some i else acc !! s) as Hin.
  { intros x i. induction x as [|[s0 c] x IH]; intros acc s; cbn [foldl]; [rewrite decide_False; [done|set_solver]|]. rewrite IH. cbn [map fst].
    destruct (decide (s ∈ map fst x)); [rewrite decide_True; [done|set_solver]|]. destruct (decide (s0 = s)) as [->|].
    - rewrite lookup_insert, decide_True; [done|set_solver].
    - rewrite lookup_insert_ne by done. rewrite decide_False; [done|set_solver]. }
  revert g. induction l as [|x l IH]; intros g Hn acc s; [done|]. cbn [imap foldl]. cbn [mjoin list_join] in Hn. rewrite map_app in Hn. apply NoDup_app in Hn as (Hn1 & Hd & Hn2).
  change (imap ((fun i x0 => (g i, x0)) ∘ S) l) with (imap (fun i (x0 : rig_instance) => ((g ∘ S) i, x0)) l).
  rewrite (IH (g ∘ S)) by done. cbn [list_find]. rewrite Hin. destruct (decide (s ∈ map fst x)) as [Hs|Hs].
  - assert (list_find (fun x => s ∈ map fst x) l = None) as ->; [|done]. apply list_find_None, Forall_forall. intros y Hy Hsy. eapply Hd; [done|].
    apply elem_of_list_fmap in Hsy as (p & -> & Hp). apply elem_of_list_fmap. exists p. split; [done|]. apply elem_of_list_join. eauto.
  - destruct (list_find (fun x => s ∈ map fst x) l) as [[i y]|]; done.
Qed.
Lemma instances_map_lookup (l : list rig_instance) s i : NoDup (map fst (mjoin l)) -> instances_map l !! s = Some i <-> exists x, l !! i = Some x /\ s ∈ map fst x.
Proof.
  intros Hn. assert (instances_map l !! s = match list_find (fun x => s ∈ map fst x) l with Some (i, _) => Some i | None => None end) as -> by exact (instances_map_gen l id Hn ∅ s).
  destruct (list_find (fun x => s ∈ map fst x) l) as [[j y]|] eqn:E.
  - apply list_find_Some in E as (Hj & Hs & Hbefore). split; [intros [= <-]; eauto|].
    intros (x & Hx & Hsx). destruct (Nat.lt_trichotomy i j) as [Hlt|[->|Hlt]]; [|done|].
    + exfalso. by eapply Hbefore.
    + exfalso. rewrite <- (take_drop (S j) l) in Hn. rewrite mjoin_app in Hn.
      rewrite map_app in Hn. apply NoDup_app in Hn as (_ & Hd & _). apply (Hd s).
      * apply elem_of_list_fmap in Hs as (p & -> & Hp). apply elem_of_list_fmap. exists p. split; [done|]. apply elem_of_list_join. exists y. split; [done|].
        apply elem_of_list_lookup. exists j. by rewrite lookup_take by lia.
      * apply elem_of_list_fmap in Hsx as (p & -> & Hp). apply elem_of_list_fmap. exists p. split; [done|]. apply elem_of_list_join. exists x. split; [done|].
        apply elem_of_list_lookup. exists (i - S j). rewrite lookup_drop. by replace (S j + (i - S j)) with i by lia.
  - apply list_find_None in E. rewrite Forall_forall in E. split; [done|]. intros (x & Hx & Hsx). exfalso. eapply E; [|done]. by eapply elem_of_list_lookup_2.
Qed.

Section Count.
Context (instances : list rig_instance) (Hnd : NoDup (map fst (mjoin instances))).
Definition in_instance (i : nat) (s : string) : Prop := instances_map instances !! s = Some i.
Global Instance in_instance_dec i s : Decision (in_instance i s) := decide (instances_map instances !! s = Some i).
Definition count_step (r : res (gmap nat Z)) (s : string) : res (gmap nat Z) :=
  try c := r in try i := of_option KeyError (instances_map instances !! s) in try n := of_option KeyError (c !! i) in Ok (<[i := (n - 1)%Z]> c).
Lemma count_err e shots : foldl count_step (Err e) shots = Err e.
Proof. by induction shots. Qed.
Lemma count_fold shots : forall c, (forall i, i < length instances -> is_Some (c !! i)) -> (forall s, s ∈ shots -> s ∈ map fst (mjoin instances)) ->
  exists c', foldl count_step (Ok c) shots = Ok c' /\ forall i, c' !! i = (fun n => (n - Z.of_nat (length (filter (in_instance i) shots)))%Z) <$> c !! i.
Proof using Hnd.
  induction shots as [|s shots IH]; intros c Hc Hs; cbn [foldl].
  - exists c. split; [done|]. intros i. destruct (c !! i) as [n|]; [|done]. cbn. f_equal. lia.
  - assert (s ∈ map fst (mjoin instances)) as Hin by (apply Hs; set_solver).
    apply elem_of_list_fmap in Hin as ([s' cam] & -> & Hin). apply elem_of_list_join in Hin as (x & Hx & Hxi). cbn [fst] in *.
    apply elem_of_list_lookup in Hxi as [i Hi].
    assert (instances_map instances !! s' = Some i) as Him.
    { apply instances_map_lookup; [done|]. exists x. split; [done|]. by apply (elem_of_list_fmap_1 fst) in Hx. }
    destruct (Hc i) as [n Hn]; [by eapply lookup_lt_Some|].
    unfold count_step at 2. cbn [res_bind]. rewrite Him. cbn [of_option res_bind]. rewrite Hn. cbn [of_option res_bind].
    destruct (IH (<[i := (n - 1)%Z]> c)) as (c' & Hc' & HL).
    { intros j Hj. destruct (decide (i = j)) as [->|]; [rewrite lookup_insert; eauto|rewrite lookup_insert_ne by done; auto]. }
    { intros. apply Hs. set_solver. }
    exists c'. split; [done|]. intros j. rewrite HL, filter_cons. destruct (decide (in_instance j s')) as [Hj|Hj].
    + unfold in_instance in Hj. rewrite Him in Hj. injection Hj as <-. rewrite lookup_insert, Hn. cbn [fmap option_fmap option_map length]. f_equal. lia.
    + rewrite lookup_insert_ne; [done|]. intros ->. by apply Hj.
Qed.
Lemma count_key_error shots : ~ (forall s, s ∈ shots -> s ∈ map fst (mjoin instances)) -> forall c, (forall i, i < length instances -> is_Some (c !! i)) -> foldl count_step (Ok c) shots = Err KeyError.
Proof using Hnd.
  induction shots as [|s shots IH]; intros Hs c Hc; cbn [foldl]; [exfalso; apply Hs; set_solver|].
  unfold count_step at 2. cbn [res_bind]. destruct (instances_map instances !! s) as [i|] eqn:E; cbn [of_option res_bind]; [|apply count_err].
  assert (E2 := E). rewrite instances_map_lookup in E2 by done. destruct E2 as (x & Hx & Hsx). destruct (Hc i) as [n Hn]; [by eapply lookup_lt_Some|]. rewrite Hn. cbn [of_option res_bind].
  apply IH.
  - intros Hall. apply Hs. intros s' [->|Hs']%elem_of_cons; [|by apply Hall].
    apply elem_of_list_fmap in Hsx as (p & -> & Hp). apply elem_of_list_fmap. exists p. split; [done|]. apply elem_of_list_join. exists x. split; [done|]. by eapply elem_of_list_lookup_2.
  - intros j Hj. destruct (decide (i = j)) as [->|]; [rewrite lookup_insert; eauto|rewrite lookup_insert_ne by done; auto].
Qed.
(** the shots of an instance among the reconstructed ones *)
Lemma missing_shots shots i x : NoDup shots -> instances !! i = Some x ->
  (0 < Z.of_nat (length x) - Z.of_nat (length (filter (in_instance i) shots)))%Z <-> ~ fully_reconstructed shots x.
Proof using Hnd.
  intros Hs Hx.
  assert (NoDup (map fst x)) as Hndx.
  { apply take_drop_middle in Hx. rewrite <- Hx, mjoin_app, map_app in Hnd. apply NoDup_app in Hnd as (_ & _ & H). cbn [mjoin list_join] in H. rewrite map_app in H. by apply NoDup_app in H as (? & _ & _). }
  assert (forall s, in_instance i s <-> s ∈ map fst x) as Hin.
  { intros s. unfold in_instance. rewrite instances_map_lookup by done. split; [intros (y & Hy & ?); by simplify_eq|eauto]. }
  assert (length (filter (in_instance i) shots) <= length x) as Hle.
  { rewrite <- (map_length fst x). apply submseteq_length, NoDup_submseteq; [by apply NoDup_filter|]. intros s [H _]%elem_of_list_filter. by apply Hin. }
  assert (fully_reconstructed shots x <-> length x <= length (filter (in_instance i) shots)) as ->; [|lia].
  split.
  - intros Hf. rewrite <- (map_length fst x). apply submseteq_length, NoDup_submseteq; [done|]. intros s Hsx. apply elem_of_list_filter. split; [by apply Hin|].
    apply elem_of_list_fmap in Hsx as ([s' c] & -> & ?). by eapply Hf.
  - intros Hl im c Hc.
    assert (filter (in_instance i) shots ≡ₚ map fst x) as Hp.
    { apply submseteq_Permutation_length_le; [rewrite map_length; lia|]. apply NoDup_submseteq; [by apply NoDup_filter|]. intros s [H _]%elem_of_list_filter. by apply Hin. }
    assert (im ∈ map fst x) as Him by (by apply (elem_of_list_fmap_1 fst) in Hc). rewrite <- Hp in Him. by apply elem_of_list_filter in Him as [_ ?].
Qed.
End Count.
Lemma filter_imap_length {B} (P : B -> Prop) `{!forall x, Decision (P x)} (w : rig_instance -> B) (l : list rig_instance) (g : nat -> nat) :
  length (filter (fun p => P p.2) (imap (fun i x => (g i, w x)) l)) = length (filter (fun x => P (w x)) l).
Proof.
  revert g. induction l as [|x l IH]; intros g; [done|]. cbn [imap]. rewrite !filter_cons. cbn [snd].
  specialize (IH (g ∘ S)). destruct (decide (P (w x))); cbn [length]; [f_equal|]; exact IH.
Qed.
Lemma imap_NoDup_fst {B} (l : list rig_instance) (f : nat -> rig_instance -> B) : NoDup (imap (fun i x => (i, f i x)) l).*1.
Proof.
  assert ((imap (fun i x => (i, f i x)) l).*1 = seq 0 (length l)) as ->; [|apply NoDup_seq].
  apply list_eq. intros i. rewrite list_lookup_fmap, list_lookup_imap. destruct (l !! i) as [x|] eqn:E; cbn.
  - symmetry. apply lookup_seq. split; [lia|]. by eapply lookup_lt_Some.
  - symmetry. apply lookup_seq_ge. by apply lookup_ge_None in E.
Qed.
Global Instance fully_reconstructed_dec shots x : Decision (fully_reconstructed shots x).
Proof.
  refine (cast_if (decide (Forall (fun p => p.1 ∈ shots) x))); unfold fully_reconstructed; rewrite Forall_forall in *.
  - intros im c H. by apply (f (im, c)).
  - intros H. apply n. intros [im c] ?. by eapply H.
Defined.
Lemma count_spec instances shots : NoDup (map fst (mjoin instances)) -> NoDup shots ->
  count_reconstructed_instances instances shots =
    if decide (Forall (fun s => s ∈ map fst (mjoin instances)) shots) then Ok (Z.of_nat (length (filter (fun x => fully_reconstructed shots x) instances))) else Err KeyError.
Proof.
  intros Hnd Hs. unfold count_reconstructed_instances. set (c0 := list_to_map _).
  assert (forall i, c0 !! i = (fun x => Z.of_nat (length x)) <$> instances !! i) as Hc0.
  { intros i. apply option_eq. intros n. unfold c0. rewrite <- elem_of_list_to_map by apply imap_NoDup_fst. rewrite elem_of_list_lookup. setoid_rewrite list_lookup_imap. split.
    - intros (k & Hk). destruct (instances !! k) eqn:E; [|done]. cbn in Hk. injection Hk as -> <-. by rewrite E.
    - intros H. exists i. destruct (instances !! i); [|done]. cbn in *. congruence. }
  assert (forall i, i < length instances -> is_Some (c0 !! i)) as Hdom.
  { intros i Hi. rewrite Hc0. apply lookup_lt_is_Some in Hi as [x ->]. cbn. eauto. }
  change (foldl _ (Ok c0) shots) with (foldl (count_step instances) (Ok c0) shots).
  case_decide as Hall; rewrite Forall_forall in Hall.
  - destruct (count_fold instances Hnd shots c0 Hdom Hall) as (c' & -> & Hc'). cbn [res_bind]. f_equal.
    set (w (x : rig_instance) := (Z.of_nat (length x) - Z.of_nat (length (filter (fun s => s ∈ map fst x) shots)))%Z).
    assert (map_to_list c' ≡ₚ imap (fun i x => (i, w x)) instances) as Hp.
    { assert (c' = list_to_map (imap (fun i x => (i, w x)) instances)) as ->; [|apply map_to_list_to_map, imap_NoDup_fst].
      apply map_eq. intros i. apply option_eq. intros n. rewrite <- elem_of_list_to_map by apply imap_NoDup_fst. rewrite elem_of_list_lookup. setoid_rewrite list_lookup_imap.
      rewrite Hc', Hc0.
      assert (forall x, instances !! i = Some x -> filter (in_instance instances i) shots = filter (fun s => s ∈ map fst x) shots) as Hf.
      { intros x Hx. apply list_filter_iff. intros s. unfold in_instance. rewrite instances_map_lookup by done. split; [intros (y & Hy & ?); by simplify_eq|eauto]. }
      split.
      - intros Hn. exists i. destruct (instances !! i) as [x|] eqn:E; [|done]. cbn in *. injection Hn as <-. f_equal. f_equal. unfold w. by rewrite <- (Hf x).
      - intros (k & Hk). destruct (instances !! k) as [x|] eqn:E; [|done]. cbn in Hk. injection Hk as -> <-. rewrite E. cbn. unfold w. by rewrite <- (Hf x). }
    rewrite Hp.
    pose proof (filter_imap_length (fun z => (0 < z)%Z) w instances id) as Hlen. unfold id in Hlen. rewrite Hlen.
    assert (length (filter (fun x => (0 < w x)%Z) instances) + length (filter (fun x => fully_reconstructed shots x) instances) = length instances) as Hsum; [|lia].
    assert (Forall (fun x => (0 < w x)%Z <-> ~ fully_reconstructed shots x) instances) as HF.
    { apply Forall_lookup. intros i x Hx. rewrite <- (missing_shots instances Hnd shots i x Hs Hx). unfold w.
      assert (filter (in_instance instances i) shots = filter (fun s => s ∈ map fst x) shots) as ->; [|done].
      apply list_filter_iff. intros s. unfold in_instance. rewrite instances_map_lookup by done. split; [intros (y & Hy & ?); by simplify_eq|eauto]. }
    clear -HF. induction HF as [|x l Hx HF IH]; [done|]. rewrite !filter_cons. destruct (decide (0 < w x)%Z), (decide (fully_reconstructed shots x)); cbn [length]; try lia; tauto.
  - by rewrite count_key_error.
Qed.

(** ** Keys of groups *)
From Coq Require Import Ascii.
From Verif Require Import TextModel TextProofs.
Lemma sep_inj x y r r' : absent ","%char x -> absent ","%char y -> x +:+ String ","%char r = y +:+ String ","%char r' -> x = y /\ r = r'.
Proof.
  revert y. induction x as [|a x IH]; intros [|b y] Hx Hy H.
  - by injection H.
  - rewrite str_app_cons in H. injection H as <- _. apply absent_cons in Hy as [? _]. done.
  - rewrite str_app_cons in H. injection H as -> _. apply absent_cons in Hx as [? _]. done.
  - rewrite !str_app_cons in H. injection H as -> H. apply absent_cons in Hx as [_ Hx]. apply absent_cons in Hy as [_ Hy].
    by destruct (IH y Hx Hy H) as [-> ->].
Qed.
Lemma sep_present x r : ~ absent ","%char (x +:+ String ","%char r).
Proof. rewrite absent_app, absent_cons. tauto. Qed.
Lemma join_cons x y l : join (x :: y :: l) = x +:+ String ","%char (String " "%char (join (y :: l))).
Proof. done. Qed.
Lemma join_inj l k : l <> [] -> k <> [] -> Forall (absent ","%char) l -> Forall (absent ","%char) k -> join l = join k -> l = k.
Proof.
  revert k. induction l as [|x l IH]; intros [|y k] Hl Hk Fl Fk H; try done.
  apply Forall_cons in Fl as [Fx Fl]. apply Forall_cons in Fk as [Fy Fk].
  destruct l as [|x' l], k as [|y' k].
  - cbn in H. by subst.
  - rewrite join_cons in H. cbn in H. exfalso. eapply sep_present. by rewrite <- H.
  - rewrite join_cons in H. change (join [y]) with y in H. exfalso. eapply sep_present. by rewrite H.
  - rewrite !join_cons in H. apply sep_inj in H as [-> H]; [|done..]. injection H as H. f_equal. by apply IH.
Qed.
Global Instance string_le_total : Total string_le.
Proof. intros a b. unfold string_le. destruct (String.leb a b) eqn:E; [by left|right]. pose proof (String.leb_total a b). intuition congruence. Qed.
Lemma group_key_spec i j : i <> [] -> j <> [] -> Forall (fun p => absent ","%char p.2) i -> Forall (fun p => absent ","%char p.2) j ->
  group_key i = group_key j <-> (list_to_set (map snd i) : gset string) = list_to_set (map snd j).
Proof.
  intros Hi Hj Fi Fj. unfold group_key. split; [|by intros ->].
  assert (forall i : rig_instance, i <> [] -> Forall (fun p => absent ","%char p.2) i ->
    merge_sort string_le (elements (list_to_set (map snd i) : gset string)) <> [] /\ Forall (absent ","%char) (merge_sort string_le (elements (list_to_set (map snd i) : gset string)))) as H.
  { clear. intros i Hi Fi. split.
    - intros H. pose proof (merge_sort_Permutation string_le (elements (list_to_set (map snd i) : gset string))) as Hp. rewrite H in Hp. apply Permutation_nil in Hp.
      apply elements_empty_inv in Hp. destruct i as [|p i]; [done|]. cbn in Hp. set_solver.
    - apply Forall_forall. intros x Hx. rewrite merge_sort_Permutation, elem_of_elements, elem_of_list_to_set in Hx. apply elem_of_list_fmap in Hx as (p & -> & Hp). rewrite Forall_forall in Fi. by apply Fi. }
  intros Hjoin. destruct (H i Hi Fi), (H j Hj Fj). apply join_inj in Hjoin; [|done..].
  assert (elements (list_to_set (map snd i) : gset string) ≡ₚ elements (list_to_set (map snd j) : gset string)) as Hp.
  { rewrite <- (merge_sort_Permutation string_le (elements (list_to_set (map snd i) : gset string))). rewrite Hjoin. apply merge_sort_Permutation. }
  apply set_eq. intros x. rewrite <- !elem_of_elements. by rewrite Hp.
Qed.
