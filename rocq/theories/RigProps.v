(** C25, C37, C38: rig instances *)
From Coq Require Import Ascii.
From stdpp Require Import prelude list sorting gmap strings.
From Verif Require Import Base TextModel RigModel RigSpec RigProofs.

(** ** C25 *)
(** Every image is once in the single shots or once in one instance, whatever the patterns and the regex engine do. *)
Theorem C25_partition : forall re_sub images patterns instances single, create_instances_with_patterns re_sub images patterns = (instances, single) ->
  images ≡ₚ single ++ map fst (mjoin (map snd (map_to_list instances))).
Proof. intros re_sub images ps inst single H. pose proof (create_partition re_sub images ps) as Hp. by rewrite H in Hp. Qed.
Print Assumptions C25_partition.
(** The instance [k] holds exactly the images for which the first matching pattern leaves [k], with the rig camera of that
    pattern; the reserved group name and empty rig camera names never make an instance. *)
Theorem C25_members : forall re_sub images patterns instances single, create_instances_with_patterns re_sub images patterns = (instances, single) ->
  (forall k im c, (exists l, instances !! k = Some l /\ (im, c) ∈ l) <-> im ∈ images /\ first_match re_sub patterns im c k /\ c <> "" /\ k <> "INCOMPLETE_INSTANCE_GROUP") /\
  (forall k l, instances !! k = Some l -> l <> []) /\
  (forall im, im ∈ single <-> im ∈ images /\ ~ exists c k, first_match re_sub patterns im c k /\ c <> "" /\ k <> "INCOMPLETE_INSTANCE_GROUP").
Proof.
  intros re_sub images ps inst single H.
  assert (forall k l, inst !! k = Some l <-> k <> INCOMPLETE_INSTANCE_GROUP /\ l <> [] /\ l = map (fun im => (im, (instance_of re_sub ps im).1)) (filter (fun im => (instance_of re_sub ps im).2 = k) images)) as HL.
  { intros k l. rewrite <- create_lookup. by rewrite H. }
  assert (forall k im c, (exists l, inst !! k = Some l /\ (im, c) ∈ l) <-> im ∈ images /\ first_match re_sub ps im c k /\ c <> "" /\ k <> "INCOMPLETE_INSTANCE_GROUP") as Hm.
  { intros k im c. split.
    - intros (l & (Hk & Hne & ->)%HL & Hin). apply elem_of_list_fmap in Hin as (im' & [= -> ->] & Hin). apply elem_of_list_filter in Hin as [Hk' Hin].
      assert (instance_of re_sub ps im' = ((instance_of re_sub ps im').1, k)) as Hi by (rewrite <- Hk'; apply surjective_pairing).
      apply instance_of_spec in Hi; [|done]. tauto.
    - intros (Hin & Hf & Hc & Hk). assert (instance_of re_sub ps im = (c, k)) as Hi by (by apply instance_of_spec).
      assert ((im, c) ∈ map (fun im => (im, (instance_of re_sub ps im).1)) (filter (fun im => (instance_of re_sub ps im).2 = k) images)) as Hin'.
      { apply elem_of_list_fmap. exists im. rewrite Hi. split; [done|]. apply elem_of_list_filter. by rewrite Hi. }
      eexists. split; [|exact Hin']. apply HL. split; [done|]. split; [|done]. intros He. rewrite He in Hin'. set_solver. }
  split; [done|]. split; [by intros k l (_ & ? & _)%HL|].
  intros im. pose proof (C25_partition _ _ _ _ _ H) as Hp.
  unfold create_instances_with_patterns in H. injection H as _ Hs. rewrite add_images_lookup, lookup_empty in Hs. cbn zeta in Hs.
  assert (single = filter (fun im => (instance_of re_sub ps im).2 = INCOMPLETE_INSTANCE_GROUP) images) as ->.
  { rewrite <- Hs. case_decide as Hd; cbn.
    - apply map_eq_nil in Hd. by rewrite Hd.
    - rewrite map_map. cbn. apply map_id. }
  rewrite elem_of_list_filter. split.
  - intros [Hi Hin]. split; [done|]. intros (c & k & Hf & Hc & Hk). assert (instance_of re_sub ps im = (c, k)) as Hi' by (by apply instance_of_spec). rewrite Hi' in Hi. done.
  - intros [Hin Hno]. split; [|done]. destruct (instance_of re_sub ps im) as [c k] eqn:E. cbn. destruct (decide (k = INCOMPLETE_INSTANCE_GROUP)); [done|].
    exfalso. apply Hno. exists c, k. apply instance_of_spec in E; [|done]. tauto.
Qed.
Print Assumptions C25_members.
(** No image is in two instances, nor both in an instance and single; and a rig camera and instance is determined for each. *)
Theorem C25_disjoint : forall re_sub images patterns instances single, create_instances_with_patterns re_sub images patterns = (instances, single) ->
  forall im c k l, instances !! k = Some l -> (im, c) ∈ l -> im ∉ single /\ forall k' l' c', instances !! k' = Some l' -> (im, c') ∈ l' -> k = k' /\ c = c'.
Proof.
  intros re_sub images ps inst single H im c k l Hk Hin. destruct (C25_members _ _ _ _ _ H) as (Hm & _ & Hs).
  destruct (proj1 (Hm k im c) ltac:(eauto)) as (Hi & Hf & Hc & Hkk). split.
  - rewrite Hs. intros [_ Hno]. apply Hno. eauto.
  - intros k' l' c' Hk' Hin'. destruct (proj1 (Hm k' im c') ltac:(eauto)) as (_ & Hf' & _). destruct (first_match_functional _ _ _ _ _ _ _ Hf Hf'). auto.
Qed.
Print Assumptions C25_disjoint.
(** The per image view of the assignments: exactly the instance, the rig camera and the companions of each image. *)
Theorem C25_assignments : forall re_sub images patterns instances single items, NoDup images ->
  create_instances_with_patterns re_sub images patterns = (instances, single) -> items ≡ₚ map_to_list instances ->
  forall im k c shots, rig_assignments_per_image items !! im = Some (k, c, shots) <->
    exists l, instances !! k = Some l /\ (im, c) ∈ l /\ shots = map fst l.
Proof.
  intros re_sub images ps inst single items Hnd H Hit im k c shots. rewrite assignments_spec.
  - split; intros (l & Hl & ?); exists l; (split; [|done]); [|rewrite Hit; by apply elem_of_map_to_list]. rewrite Hit in Hl. by apply elem_of_map_to_list.
  - apply C25_partition in H. rewrite H in Hnd. apply NoDup_app in Hnd as (_ & _ & Hnd). by rewrite Hit.
Qed.
Print Assumptions C25_assignments.
(** a "regex engine" that removes one given prefix *)
Definition strip (pattern image : string) : string := if String.prefix pattern image then String.substring (String.length pattern) (String.length image) image else image.
Example C25_nonvacuous : let r := create_instances_with_patterns strip ["L1"; "R1"; "L2"; "x"; "R"] [("left", "L"); ("right", "R")] in
  r.1 !! "1" = Some [("L1", "left"); ("R1", "right")] /\ r.1 !! "2" = Some [("L2", "left")] /\ r.2 = ["x"; "R"].
Proof. by vm_compute. Qed.
(** An image whose name minus the pattern is the reserved word is not put in an instance. *)
Example C25_reserved : (create_instances_with_patterns strip ["LINCOMPLETE_INSTANCE_GROUP"] [("left", "L")]).2 = ["LINCOMPLETE_INSTANCE_GROUP"].
Proof. by vm_compute. Qed.

(** ** C37 *)
(** group_instances: every instance in exactly one group, in order; two instances (with comma-free rig camera names) are in
    the same group exactly when they have the same set of rig cameras. *)
Theorem C37_groups : forall instances, Forall (fun i => i <> [] /\ Forall (fun p => absent ","%char p.2) i) instances ->
  forall k g, group_instances instances !! k = Some g -> exists i, i ∈ g /\ forall j, j ∈ g <-> j ∈ instances /\ forall c, c ∈ map snd j <-> c ∈ map snd i.
Proof.
  intros instances HF k g [Hne ->]%group_lookup. destruct (filter _ instances) as [|i g'] eqn:E; [done|]. exists i. split; [set_solver|].
  assert (i ∈ filter (fun i => group_key i = k) instances) as Hi by (rewrite E; set_solver). apply elem_of_list_filter in Hi as [Hk Hi].
  intros j. rewrite <- E, elem_of_list_filter. rewrite Forall_forall in HF. destruct (HF i Hi) as [Hi1 Hi2].
  split; intros [H1 H2]; (assert (Hj : j ∈ instances) by done); destruct (HF j Hj) as [Hj1 Hj2].
  - split; [done|]. subst k. apply group_key_spec in H1; [|done..]. intros c. rewrite <- !(elem_of_list_to_set (C:=gset string)). by rewrite H1.
  - split; [|done]. rewrite <- Hk. apply group_key_spec; [done..|]. apply set_eq. intros c. rewrite !elem_of_list_to_set. apply H2.
Qed.
Print Assumptions C37_groups.
Theorem C37_partition : forall instances i, i ∈ instances -> exists k g, group_instances instances !! k = Some g /\ i ∈ g /\
  g = filter (fun j => group_key j = k) instances /\ forall k' g', group_instances instances !! k' = Some g' -> i ∈ g' -> k' = k.
Proof.
  intros instances i Hi. assert (i ∈ filter (fun j => group_key j = group_key i) instances) as Hin by (by apply elem_of_list_filter).
  exists (group_key i), (filter (fun j => group_key j = group_key i) instances). split_and!; [|done|done|].
  - apply group_lookup. split; [|done]. intros H. rewrite H in Hin. set_solver.
  - intros k' g' [_ ->]%group_lookup Hin'. by apply elem_of_list_filter in Hin' as [<- _].
Qed.
Print Assumptions C37_partition.
(** With a comma in a name different camera sets are taken for the same group. *)
Theorem C37_comma_refuted : exists i j, (list_to_set (map snd i) : gset string) <> list_to_set (map snd j) /\ group_instances [i; j] !! group_key i = Some [i; j].
Proof.
  exists [("im1", "a"); ("im2", "b")], [("im3", "a, b")]. split; [|by vm_compute].
  intros H. apply (f_equal (fun s => "a" ∈ s)) in H. cbn in H. assert ("a" ∈ ({["a, b"]} ∪ ∅ : gset string)) by (rewrite <- H; set_solver). set_solver.
Qed.
Print Assumptions C37_comma_refuted.
Example C37_nonvacuous : Forall (fun i : list (string * string) => i <> [] /\ Forall (fun p => absent ","%char p.2) i) [[("1", "b"); ("2", "a")]; [("3", "a"); ("4", "b")]; [("5", "a")]] /\
  group_instances [[("1", "b"); ("2", "a")]; [("3", "a"); ("4", "b")]; [("5", "a")]] !! "a, b" = Some [[("1", "b"); ("2", "a")]; [("3", "a"); ("4", "b")]].
Proof. split; [by apply (bool_decide_unpack _); vm_compute|by vm_compute]. Qed.

(** ** C38 *)
(** count_reconstructed_instances counts the instances all of whose shots are reconstructed, for disjoint instances; it raises
    KeyError exactly when some reconstructed shot is in no instance. *)
Theorem C38_count : forall instances shots, NoDup (map fst (mjoin instances)) -> NoDup shots ->
  ((forall s, s ∈ shots -> exists i c, i ∈ instances /\ (s, c) ∈ i) ->
     exists full, NoDup full /\ count_reconstructed_instances instances shots = Ok (Z.of_nat (length full)) /\
       forall k, k ∈ full <-> exists i, instances !! k = Some i /\ fully_reconstructed shots i) /\
  (~ (forall s, s ∈ shots -> exists i c, i ∈ instances /\ (s, c) ∈ i) -> count_reconstructed_instances instances shots = Err KeyError).
Proof.
  intros instances shots Hnd Hs. rewrite count_spec by done.
  assert (Forall (fun s => s ∈ map fst (mjoin instances)) shots <-> (forall s, s ∈ shots -> exists i c, i ∈ instances /\ (s, c) ∈ i)) as Hiff.
  { rewrite Forall_forall. split; intros H s Hin; specialize (H s Hin).
    - apply elem_of_list_fmap in H as ([s' c] & -> & H). apply elem_of_list_join in H as (x & ? & ?). eauto.
    - destruct H as (i & c & ? & ?). apply elem_of_list_fmap. exists (s, c). split; [done|]. apply elem_of_list_join. eauto. }
  split.
  - intros H. rewrite decide_True by (by apply Hiff).

    exists (omap (fun '(k, i) => if decide (fully_reconstructed shots i) then Some k else None) (imap pair instances)).
    assert (forall (g : nat -> nat) (l : list (list (string * string))), Inj (=) (=) g ->
      NoDup (omap (fun '(k, i) => if decide (fully_reconstructed shots i) then Some k else None) (imap (fun k i => (g k, i)) l)) /\
      length (omap (fun '(k, i) => if decide (fully_reconstructed shots i) then Some k else None) (imap (fun k i => (g k, i)) l)) = length (filter (fun x => fully_reconstructed shots x) l) /\
      forall n, n ∈ omap (fun '(k, i) => if decide (fully_reconstructed shots i) then Some k else None) (imap (fun k i => (g k, i)) l) <-> exists k i, n = g k /\ l !! k = Some i /\ fully_reconstructed shots i) as Hgen.
    { clear. intros g l. revert g. induction l as [|x l IH]; intros g Hg; [split_and!; [constructor|done|]; intros n; split; [set_solver|intros (k & i & _ & ? & _); done]|].
      cbn [imap omap list_omap]. destruct (IH (g ∘ S)) as (H1 & H2 & H3); [intros a b Hab; apply Hg in Hab; lia|].
      change (imap ((fun k i => (g k, i)) ∘ S) l) with (imap (fun k (i : list (string * string)) => ((g ∘ S) k, i)) l).
      rewrite filter_cons. destruct (decide (fully_reconstructed shots x)) as [Hx|Hx].
      - split_and!.
        + constructor; [|done]. rewrite H3. intros (k & i & Hk & _). apply Hg in Hk. lia.
        + cbn [length]. by rewrite H2.
        + intros n. rewrite elem_of_cons, H3. split.
          * intros [->|(k & i & -> & ? & ?)]; [by exists 0, x|by exists (S k), i].
          * intros ([|k] & i & -> & Hi & ?); [left; by injection Hi as <-|right; by exists k, i].
      - split_and!; [done|done|]. intros n. rewrite H3. split.
        + intros (k & i & -> & ? & ?). by exists (S k), i.
        + intros ([|k] & i & -> & Hi & ?); [by injection Hi as <-|by exists k, i]. }
    destruct (Hgen id instances _) as (H1 & H2 & H3). split; [exact H1|]. split; [f_equal; f_equal; symmetry; exact H2|].
    intros k. etrans; [apply H3|]. unfold id. split; [intros (k' & i & -> & ?); eauto|intros (i & ?); eauto].
  - intros H. rewrite decide_False; [done|]. by rewrite Hiff.
Qed.
Print Assumptions C38_count.
Example C38_nonvacuous : NoDup (map fst (mjoin [[("a", "l"); ("b", "r")]; [("c", "l"); ("d", "r")]])) /\
  count_reconstructed_instances [[("a", "l"); ("b", "r")]; [("c", "l"); ("d", "r")]] ["d"; "a"; "b"] = Ok 1%Z.
Proof. split; [by apply (bool_decide_unpack _); vm_compute|by vm_compute]. Qed.

(** ** C39 *)
(** The window of instances used for a calibration round: consecutive instances around the drawn one, at most [subset_size]. *)
Theorem C39_window : forall (A : Type) (l : list A) size idx i x, idx < length l ->
  calibration_subset l size idx !! i = Some x <->
    exists k, l !! k = Some x /\ k = idx - size / 2 + i /\ idx - size / 2 <= k /\ k < idx + size / 2 /\ S k < length l.
Proof.
  intros A l size idx i x Hidx. unfold calibration_subset. set (h := size / 2).
  destruct (decide (i < (idx + h) `min` (length l - 1) - (idx - h))) as [Hlt|Hge].
  - rewrite lookup_take by done. rewrite lookup_drop. split.
    + intros H. eexists. split; [exact H|]. apply lookup_lt_Some in H. lia.
    + intros (k & H & -> & _). done.
  - rewrite lookup_take_ge by lia. split; [done|]. intros (k & H & -> & H1 & H2 & H3). lia.
Qed.
Print Assumptions C39_window.
(** So the last instance is never used, and when the last index is drawn the drawn instance itself is not used; with a single
    instance nothing is. *)
Theorem C39_last_instance_refuted : forall (A : Type) (l : list A) size idx x i, idx < length l -> l !! (length l - 1) = Some x -> NoDup l ->
  calibration_subset l size idx !! i <> Some x.
Proof.
  intros A l size idx x i Hidx Hx Hnd H. apply C39_window in H as (k & Hk & _ & _ & _ & H3); [|done].
  assert (k = length l - 1) as -> by (by eapply NoDup_lookup). lia.
Qed.
Print Assumptions C39_last_instance_refuted.
Theorem C39_size : forall (A : Type) (l : list A) size idx, length (calibration_subset l size idx) <= size.
Proof. intros A l size idx. unfold calibration_subset. rewrite take_length, drop_length. pose proof (Nat.mul_div_le size 2). lia. Qed.
Print Assumptions C39_size.
Example C39_nonvacuous : calibration_subset [0; 1; 2; 3; 4] 3 2 = [1; 2] /\ calibration_subset [0; 1; 2; 3; 4] 2 4 = [3] /\ calibration_subset [0] 2 0 = [].
Proof. by vm_compute. Qed.
