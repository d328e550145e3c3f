(** C59: the split of a dataset into submodels. *)
From stdpp Require Import prelude gmap strings pretty sorting.
From Coq Require Import Ascii Reals Lra Lia.
From Coq Require String.
From Verif Require Import Base Lin TextModel TextProofs PyText GeoModel RigModel RigProofs BundleModel SplitModel SplitSpec SplitProofs.
Local Open Scope string_scope.
Local Open Scope list_scope.

Section Split.
Variable show : R -> string. Variable parse : string -> option R. Variable f32 : R -> R. Variable kmeans : list (R * R) -> nat -> list nat.
(** The latitudes and longitudes are written and read back exactly, as floats are *)
Definition float_text (exif : string -> option R * option R) : Prop := forall i x, (exif i).1 = Some x \/ (exif i).2 = Some x -> parse (show x) = Some x /\ absent TAB (show x) /\ absent NL (show x).

Lemma topocentrics_spec images exif : topocentrics (latlon f32 exif <$> filter (fun i => has_gps exif i) images) = east_north f32 images exif <$> filter (fun i => has_gps exif i) images.
Proof. unfold topocentrics. by rewrite <- list_fmap_compose. Qed.
Lemma distance_within p q d : (distance p q <= d)%R <-> within d p q.
Proof. unfold distance, within. replace ((p.1 - q.1) ^ 2)%R with ((p.1 - q.1) * (p.1 - q.1))%R by ring. replace ((p.2 - q.2) ^ 2)%R with ((p.2 - q.2) * (p.2 - q.2))%R by ring. done. Qed.
Lemma within_refl p d : (0 <= d)%R -> within d p p.
Proof. intros H. unfold within. rewrite !Rminus_diag_eq by done. replace (0 ^ 2 + 0 ^ 2)%R with 0%R by ring. by rewrite sqrt_0. Qed.
Lemma within_sym p q d : within d p q -> within d q p.
Proof. unfold within. intros H. eapply Rle_trans; [|exact H]. apply Req_le. f_equal. ring. Qed.

Lemma assemble images exif overlap (label : string -> nat) K : Forall plain images -> NoDup images -> (0 <= overlap)%R ->
  let imgs := filter (fun i => has_gps exif i) images in imgs <> [] ->
  (forall i, i ∈ imgs -> (label i < K)%nat) -> (forall k, (k < K)%nat -> exists i, i ∈ imgs /\ label i = k) ->
  exists clusters image_clusters, add_cluster_neighbors (latlon f32 exif <$> imgs) (label <$> imgs) K overlap = Ok clusters /\
    foldM (fun l c => try y := take_images imgs c in Ok (l ++ [y])) [] clusters = Ok image_clusters /\
    splits f32 images exif overlap label K (create_submodels image_clusters ∅).
Proof.
  intros Hplain Hnd Hov imgs Hne Hlt Hused. set (topo := topocentrics (latlon f32 exif <$> imgs)).
  set (cl := fun k => let idx := where_label (label <$> imgs) k in union1d idx (mjoin ((fun i => query_ball_point topo (nth i topo (0, 0)%R) overlap) <$> idx))).
  assert (forall i, topo !! i = east_north f32 images exif <$> imgs !! i) as Htopo. { intros i. unfold topo, imgs. rewrite topocentrics_spec. apply list_lookup_fmap. }
  assert (forall k i, i ∈ cl k <-> exists b a, imgs !! i = Some b /\ a ∈ imgs /\ label a = k /\ within overlap (east_north f32 images exif a) (east_north f32 images exif b)) as Hcl.
  { intros k i. unfold cl. cbn zeta. rewrite (proj2 (union1d_spec _ _)), elem_of_where, elem_of_list_join. split.
    - intros [Hi|(l & Hi & Hl)].
      + rewrite list_lookup_fmap in Hi. destruct (imgs !! i) as [b|] eqn:Eb; [|done]. injection Hi as Hi. exists b, b. split; [done|]. split; [by eapply elem_of_list_lookup_2|]. split; [done|by apply within_refl].
      + apply elem_of_list_fmap in Hl as (j & -> & Hj). apply elem_of_where in Hj. rewrite list_lookup_fmap in Hj. destruct (imgs !! j) as [a|] eqn:Ea; [|done]. injection Hj as Hj. apply elem_of_ball in Hi as (q & Hq & Hd). rewrite Htopo in Hq. destruct (imgs !! i) as [b|] eqn:Eb; [|done]. injection Hq as <-.
        exists b, a. split; [done|]. split; [by eapply elem_of_list_lookup_2|]. split; [done|]. apply distance_within. assert (topo !! j = Some (east_north f32 images exif a)) as Ej by (by rewrite Htopo, Ea). by rewrite (nth_lookup_Some _ _ _ _ Ej) in Hd.
    - intros (b & a & Eb & Ha & Hk & Hw). right. apply elem_of_list_lookup_1 in Ha as [j Ea]. assert (topo !! j = Some (east_north f32 images exif a)) as Ej by (by rewrite Htopo, Ea). eexists. split; [|apply elem_of_list_fmap; exists j; split; [reflexivity|]; apply elem_of_where; rewrite list_lookup_fmap, Ea; cbn; by f_equal].
      apply elem_of_ball. exists (east_north f32 images exif b). split; [by rewrite Htopo, Eb|]. apply distance_within. by rewrite (nth_lookup_Some _ _ _ _ Ej). }
  assert (forall k i, i ∈ cl k -> (i < length imgs)%nat) as Hbound. { intros k i (b & _ & Hb & _)%Hcl. by eapply lookup_lt_Some. }
  assert (Forall plain imgs) as Hpi. { apply Forall_forall. intros x Hx. apply elem_of_list_filter in Hx as [_ Hx]. rewrite Forall_forall in Hplain. auto. }
  exists (cl <$> seq 0 K), ((fun k => (fun i => nth i imgs "") <$> cl k) <$> seq 0 K). split; [|split].
  - unfold add_cluster_neighbors. rewrite decide_False; [done|]. by destruct imgs.
  - apply (collect_ok (take_images imgs) (cl <$> seq 0 K) _ []). apply Forall2_fmap_2, Forall_Forall2_diag, Forall_forall. intros j Hj. apply elem_of_seq in Hj as [_ Hk]. cbn in Hk.
    apply take_images_ok; [|by apply Hbound]. destruct (Hused j Hk) as (a & Ha & Hl). pose proof Ha as Ha'. apply elem_of_list_lookup_1 in Ha' as [i Hi]. assert (i ∈ cl j) as Hin by (apply Hcl; exists a, a; split; [done|split; [done|split; [done|by apply within_refl]]]).
    destruct (cl j); [by apply elem_of_nil in Hin|done].
  - split.
    + intros d. split.
      * intros [t Ht]. apply create_submodels_lookup in Ht as (k & c & Hk & -> & _). exists k. split; [|done]. rewrite list_lookup_fmap in Hk. destruct (seq 0 K !! k) eqn:E; [|done]. apply lookup_seq in E. lia.
      * intros (k & Hk & ->). exists (submodel_image_list ((fun i => nth i imgs "") <$> cl k)). apply create_submodels_lookup. eexists k, _. split; [|done]. rewrite list_lookup_fmap, lookup_seq_lt by done. done.
    + intros k Hk. exists (submodel_image_list ((fun i => nth i imgs "") <$> cl k)). split; [apply create_submodels_lookup; eexists k, _; split; [|done]; rewrite list_lookup_fmap, lookup_seq_lt by done; done|].
      assert (forall i, i ∈ cl k -> imgs !! i = Some (nth i imgs "")) as Hnth. { intros i Hi. pose proof (Hbound k i Hi) as Hb. apply lookup_lt_is_Some in Hb as [b Hb]. by rewrite (nth_lookup_Some _ _ _ _ Hb). }
      rewrite submodel_images_list. 2: { apply Forall_fmap, Forall_forall. intros i Hi. cbn. rewrite Forall_forall in Hpi. apply Hpi. apply elem_of_list_lookup. exists i. by apply Hnth. }
      split.
      * etransitivity; [apply sorted_sublist; [apply union1d_spec|by apply Hbound]|]. unfold imgs. clear. induction images as [|x l IH]; [constructor|]. rewrite filter_cons. case_decide; by constructor.
      * intros b. rewrite elem_of_list_fmap. split.
        -- intros (i & -> & Hi). pose proof (Hnth i Hi) as Hb. apply Hcl in Hi as (b & a & Hb' & Ha & Hl & Hw). rewrite Hb' in Hb. injection Hb as <-. split; [|exists a; split; [|done]].
           ++ apply elem_of_list_lookup_2, elem_of_list_filter in Hb' as [? ?]. done.
           ++ apply elem_of_list_filter in Ha as [? ?]. done.
        -- intros ([Hb1 Hb2] & a & [Ha1 Ha2] & Hl & Hw). assert (b ∈ imgs) as Hb by (by apply elem_of_list_filter). apply elem_of_list_lookup_1 in Hb as [i Hi]. assert (i ∈ cl k) as Hic by (apply Hcl; exists b, a; split; [done|]; split; [by apply elem_of_list_filter|done]).
           exists i. split; [|done]. pose proof (Hnth i Hic) as E. rewrite Hi in E. by injection E as ->.
Qed.
Lemma positions_spec images exif : (fun x : string * (R * R) => (f32 x.2.1, f32 x.2.2)) <$> images_list images exif = latlon f32 exif <$> filter (fun i => has_gps exif i) images.
Proof. rewrite images_list_filter, <- list_fmap_compose. done. Qed.
Lemma names_spec images exif : (images_list images exif).*1 = filter (fun i => has_gps exif i) images.
Proof. rewrite images_list_filter, <- list_fmap_compose. unfold compose; cbn. apply list_fmap_id. Qed.
Lemma list_plain images exif : Forall plain images -> Forall plain (images_list images exif).*1.
Proof. intros H. rewrite names_spec. apply Forall_forall. intros x Hx. apply elem_of_list_filter in Hx as [_ Hx]. rewrite Forall_forall in H. auto. Qed.
Lemma list_written images exif : float_text exif -> forall x, x ∈ images_list images exif -> written show parse x.2.1 /\ written show parse x.2.2.
Proof.
  intros Hf x Hx. rewrite images_list_filter in Hx. apply elem_of_list_fmap in Hx as (i & -> & Hi). apply elem_of_list_filter in Hi as [[[lat Hlat] [lon Hlon]] _]. cbn [fst snd]. rewrite Hlat, Hlon. cbn. split; eapply Hf; eauto.
Qed.
Notation run := (run_dataset show parse f32 kmeans).

(** Without image_groups.txt: the labels are those of k-means on the positions, with ⌈n / size⌉ clusters. *)
Theorem C59_kmeans : forall images exif size overlap dirs, float_text exif -> clusters_well kmeans -> Forall plain images -> NoDup images -> (0 <= overlap)%R -> (0 < size)%nat ->
  (exists i, located images exif i) -> exists out label K, run images exif None size overlap dirs = Ok out /\ splits f32 images exif overlap label K out /\
    let imgs := filter (fun i => has_gps exif i) images in
    label <$> imgs = kmeans (latlon f32 exif <$> imgs) K /\ (K * size < length imgs + size /\ length imgs <= K * size)%nat.
Proof.
  intros images exif size overlap dirs Hf Hk Hplain Hnd Hov Hsize (i0 & Hi0 & Hg0). set (imgs := filter (fun i => has_gps exif i) images). assert (i0 ∈ imgs) as Hin0 by (by apply elem_of_list_filter).
  assert (0 < length imgs)%nat as Hlen by (destruct imgs; [by apply elem_of_nil in Hin0|cbn; lia]). set (K := ((length imgs + size - 1) / size)%nat).
  assert (K * size < length imgs + size /\ length imgs <= K * size)%nat as HK. { unfold K. pose proof (Nat.div_mod (length imgs + size - 1) size ltac:(lia)). pose proof (Nat.mod_upper_bound (length imgs + size - 1) size ltac:(lia)). nia. }
  assert (0 < K <= length imgs)%nat as HK'. { destruct HK as [HK1 HK2]. split; [destruct K; lia|]. nia. }
  destruct (Hk (latlon f32 exif <$> imgs) K) as (L1 & L2 & L3); [by rewrite fmap_length|]. rewrite fmap_length in L1. set (labels := kmeans (latlon f32 exif <$> imgs) K) in *.
  set (label := fun i => default 0%nat (p ← list_find (fun x => x = i) imgs; labels !! p.1)).
  assert (NoDup imgs) as Hni by (by apply NoDup_filter).
  assert (label <$> imgs = labels) as Hlab.
  { apply list_eq. intros j. rewrite list_lookup_fmap. destruct (imgs !! j) as [b|] eqn:Eb; cbn.
    - unfold label. assert (list_find (fun x => x = b) imgs = Some (j, b)) as ->. { apply list_find_Some. split; [done|]. split; [done|]. intros j' y Hy Hlt ->. pose proof (NoDup_lookup _ _ _ _ Hni Hy Eb). lia. }
      cbn. assert (is_Some (labels !! j)) as [l El] by (apply lookup_lt_is_Some; rewrite L1; by eapply lookup_lt_Some). by rewrite El.
    - symmetry. apply lookup_ge_None. rewrite L1. by apply lookup_ge_None. }
  destruct (assemble images exif overlap label K Hplain Hnd Hov) as (clusters & ics & E1 & E2 & Hsp); fold imgs.
  - intros E. apply (f_equal length) in E. cbn in E. lia.
  - intros i Hi. apply L2. rewrite <- Hlab. apply elem_of_list_fmap. eauto.
  - intros k Hkk. apply L3 in Hkk. rewrite <- Hlab in Hkk. apply elem_of_list_fmap in Hkk as (i & -> & Hi). eauto.
  - fold imgs in E1, E2. exists (create_submodels ics ∅), label, K. split; [|done]. unfold run_dataset. rewrite remove_submodels_empty, (image_list_roundtrip show parse) by (by apply list_plain || by apply list_written). cbn [res_bind]. unfold cluster_images.
    rewrite !decide_False by (lia || (intros E; apply (f_equal length) in E; rewrite images_list_filter, fmap_length in E; fold imgs in E; cbn in E; lia)). cbn [res_bind fst snd]. rewrite positions_spec, names_spec. fold imgs.
    assert (length (images_list images exif) = length imgs) as -> by (rewrite images_list_filter; apply fmap_length). fold K. fold labels. rewrite <- Hlab, E1. cbn [res_bind]. rewrite E2. done.
Qed.

(** ** image_groups.txt *)
Definition good_lines (text : string) : Prop := forall line, line ∈ getlines NL text -> is_Some (line_of line).
Lemma group_lines_ok lines : forall st, Forall (fun line => is_Some (line_of line)) lines ->
  exists st', foldM group_line st lines = Ok st' /\
    (forall i, st'.1 !! i = match snd <$> last (filter (fun x => x.1 = i) (omap line_of lines)) with Some g => Some g | None => st.1 !! i end) /\
    (forall g, g ∈ st'.2 <-> g ∈ st.2 \/ exists i, (i, g) ∈ omap line_of lines).
Proof.
  induction lines as [|line lines IH]; intros st H.
  - exists st. split; [done|]. split; [done|]. intros g. cbn. split; [by left|]. intros [?|[? ?%elem_of_nil]]; done.
  - apply Forall_cons in H as [[[i0 g0] Hl] H]. cbn [foldM]. unfold group_line at 1. unfold line_of in Hl. destruct (py_words line) as [|a [|b [|]]] eqn:Ew; try done. injection Hl as -> ->. cbn [res_bind].
    destruct (IH (<[i0 := g0]> st.1, {[g0]} ∪ st.2) H) as (st' & E & H1 & H2). exists st'. split; [done|]. cbn [fst snd] in *. cbn [omap list_omap]. assert (line_of line = Some (i0, g0)) as -> by (unfold line_of; by rewrite Ew). split.
    + intros i. rewrite H1, filter_cons. cbn [fst]. destruct (decide (i0 = i)) as [->|Hne].
      * rewrite lookup_insert. rewrite last_cons. by destruct (last (filter _ (omap line_of lines))).
      * rewrite lookup_insert_ne by done. done.
    + intros g. rewrite H2, elem_of_union, elem_of_singleton. setoid_rewrite elem_of_cons. split.
      * intros [[->|?]|[i ?]]; [right; exists i0; by left|by left|right; exists i; by right].
      * intros [?|[i [[= -> ->]|?]]]; [tauto|tauto|eauto].
Qed.
Lemma string_leb_trans a b c : String.leb a b = true -> String.leb b c = true -> String.leb a c = true.
Proof.
  unfold String.leb. revert b c. induction a as [|x a IH]; intros b c; [by destruct b, c|]. destruct b as [|y b]; [done|]. destruct c as [|z c]; [done|]. cbn. specialize (IH b c). unfold Ascii.compare.
  destruct (N.compare_spec (N_of_ascii x) (N_of_ascii y)) as [E1|E1|E1]; destruct (N.compare_spec (N_of_ascii y) (N_of_ascii z)) as [E2|E2|E2]; destruct (N.compare_spec (N_of_ascii x) (N_of_ascii z)) as [E3|E3|E3]; try lia; try done.
Qed.
Lemma sorted_groups (s : gset string) : StronglySorted string_le (merge_sort string_le (elements s)) /\ NoDup (merge_sort string_le (elements s)) /\ forall g, g ∈ merge_sort string_le (elements s) <-> g ∈ s.
Proof.
  assert (Transitive string_le) by (intros x y z; unfold string_le; apply string_leb_trans).
  split; [apply StronglySorted_merge_sort; apply _|]. split; [rewrite merge_sort_Permutation; apply NoDup_elements|]. intros g. by rewrite merge_sort_Permutation, elem_of_elements.
Qed.

(** With image_groups.txt (each line an image and a group), each group is a submodel, in the order of their names; the group of an image is on
    its last line. Every image with GPS must have a group and every group such an image. *)
Theorem C59_groups : forall images exif text size overlap dirs, float_text exif -> Forall plain images -> NoDup images -> (0 <= overlap)%R -> (exists i, located images exif i) ->
  good_lines text -> (forall i, located images exif i -> is_Some (group_of text i)) -> (forall g, is_group text g -> exists i, located images exif i /\ group_of text i = Some g) ->
  exists out label groups, run images exif (Some text) size overlap dirs = Ok out /\ splits f32 images exif overlap label (length groups) out /\
    NoDup groups /\ StronglySorted (fun a b => String.leb a b = true) groups /\ (forall g, g ∈ groups <-> is_group text g) /\
    (forall i, located images exif i -> groups !! label i = group_of text i).
Proof.
  intros images exif text size overlap dirs Hf Hplain Hnd Hov (i0 & Hi0 & Hg0) Hlines Hall Hused. set (imgs := filter (fun i => has_gps exif i) images). assert (i0 ∈ imgs) as Hin0 by (by apply elem_of_list_filter).
  destruct (group_lines_ok (getlines NL text) (∅, ∅)) as (st & E & H1 & H2); [by apply Forall_forall|]. cbn [fst snd] in *.
  assert (forall i, st.1 !! i = group_of text i) as Hst. { intros i. rewrite H1. unfold group_of. destruct (snd <$> _); [done|]. apply lookup_empty. } clear H1.
  destruct (sorted_groups st.2) as (G1 & G2 & G3). set (groups := merge_sort string_le (elements st.2)) in *.
  assert (forall g, g ∈ groups <-> is_group text g) as G4. { intros g. rewrite G3, H2. unfold is_group. split; [intros [?%elem_of_empty|?]; done|by right]. }
  assert (forall i, located images exif i -> exists g k, group_of text i = Some g /\ list_find (fun x => x = g) groups = Some (k, g) /\ groups !! k = Some g) as Hfind.
  { intros i Hi. destruct (Hall i Hi) as [g Hg]. assert (g ∈ groups) as Hgin. { apply G4. unfold group_of in Hg. destruct (last _) as [[i' g']|] eqn:El; [|done]. injection Hg as ->. apply last_Some_elem_of in El. apply elem_of_list_filter in El as [_ El]. by exists i'. }
    destruct (list_find_elem_of (fun x => x = g) groups g Hgin eq_refl) as [[k g'] Hk]. pose proof Hk as Hk'. apply list_find_Some in Hk' as (Hk1 & -> & _). eauto. }
  set (label := fun i => default 0%nat (g ← group_of text i; fst <$> list_find (fun x => x = g) groups)).
  assert (forall i, located images exif i -> groups !! label i = group_of text i) as Hlab. { intros i Hi. destruct (Hfind i Hi) as (g & k & Hg & Hk & Hk'). unfold label. rewrite Hg. cbn. rewrite Hk. done. }
  assert (forall i, i ∈ imgs <-> located images exif i) as Himgs by (intros i; unfold imgs, located; rewrite elem_of_list_filter; tauto).
  destruct (assemble images exif overlap label (length groups) Hplain Hnd Hov) as (clusters & ics & E1 & E2 & Hsp); fold imgs.
  - intros En. rewrite En in Hin0. by apply elem_of_nil in Hin0.
  - intros i Hi. apply Himgs in Hi. destruct (Hfind i Hi) as (g & k & Hg & _). pose proof (Hlab i Hi) as Hl. rewrite Hg in Hl. by eapply lookup_lt_Some.
  - intros k Hk. apply lookup_lt_is_Some in Hk as [g Hg]. destruct (Hused g) as (i & Hi & Hgi); [apply G4; by eapply elem_of_list_lookup_2|]. exists i. split; [by apply Himgs|]. pose proof (Hlab i Hi) as Hl. rewrite Hgi in Hl. by eapply NoDup_lookup.
  - fold imgs in E1, E2. exists (create_submodels ics ∅), label, groups. split; [|split; [done|split; [done|split; [done|split; [done|done]]]]].
    unfold run_dataset. rewrite remove_submodels_empty, (image_list_roundtrip show parse) by (by apply list_plain || by apply list_written). cbn [res_bind]. unfold read_image_groups. rewrite E. cbn [res_bind]. fold groups.
    assert (foldM (fun l '(image, _) => try cluster := of_option KeyError (st.1 !! image) in try label := of_option KeyError (fst <$> list_find (fun g => g = cluster) groups) in Ok (l ++ [label])) [] (images_list images exif) = Ok (label <$> imgs)) as ->.
    { rewrite images_list_filter. fold imgs. assert (forall l acc, (forall i, i ∈ l -> located images exif i) -> foldM (fun l '((image, _) : string * (R * R)) => try cluster := of_option KeyError (st.1 !! image) in try label := of_option KeyError (fst <$> list_find (fun g => g = cluster) groups) in Ok (l ++ [label])) acc ((fun i => (i, (default 0%R (exif i).1, default 0%R (exif i).2))) <$> l) = Ok (acc ++ (label <$> l))) as Hfold.
      - induction l as [|i l IH]; intros acc Hl; cbn [fmap list_fmap foldM]; [by rewrite app_nil_r|]. destruct (Hfind i) as (g & k & Hg & Hk & Hk'); [apply Hl; by left|]. rewrite Hst, Hg. cbn [of_option res_bind]. rewrite Hk. cbn [of_option res_bind fmap option_fmap option_map fst]. rewrite IH by (intros j Hj; apply Hl; by right). rewrite <- app_assoc. cbn. do 3 f_equal. unfold label. rewrite Hg. cbn. by rewrite Hk.
      - apply (Hfold imgs []). intros i Hi. by apply Himgs. }
    cbn [res_bind fst snd]. rewrite positions_spec, names_spec. fold imgs. rewrite E1. cbn [res_bind]. rewrite E2. done.
Qed.
End Split.

(** What a split gives: every image with GPS is in a submodel, the one of its label; the others are in none; and images within the overlap of
    each other are together in the submodel of either. *)
Theorem C59_covered : forall f32 images exif overlap label K out, splits f32 images exif overlap label K out -> (0 <= overlap)%R -> (forall i, located images exif i -> (label i < K)%nat) ->
  (forall i, located images exif i -> exists text, out !! submodel_name (label i) = Some text /\ i ∈ submodel_images text) /\
  (forall i, ~ has_gps exif i -> forall d text, out !! d = Some text -> i ∉ submodel_images text) /\
  (forall a b, located images exif a -> located images exif b -> within overlap (east_north f32 images exif a) (east_north f32 images exif b) ->
     exists text, out !! submodel_name (label a) = Some text /\ a ∈ submodel_images text /\ b ∈ submodel_images text).
Proof.
  intros f32 images exif overlap label K out [H1 H2] Hov Hlab. split; [|split].
  - intros i Hi. destruct (H2 (label i) (Hlab i Hi)) as (text & E & _ & Hm). exists text. split; [done|]. apply Hm. split; [done|]. exists i. split; [done|]. split; [done|by apply within_refl].
  - intros i Hi d text Hd Hin. destruct (proj1 (H1 d)) as (k & Hk & ->); [by eexists|]. destruct (H2 k Hk) as (text' & E & _ & Hm). rewrite E in Hd. injection Hd as ->. apply Hm in Hin as [[_ Hg] _]. done.
  - intros a b Ha Hb Hw. destruct (H2 (label a) (Hlab a Ha)) as (text & E & _ & Hm). exists text. split; [done|]. split; apply Hm; (split; [done|]); exists a; (split; [done|]); (split; [done|]); [by apply within_refl|done].
Qed.

(** The next commands find the submodels, all of them, whatever directories were there before. *)
Theorem C59_paths : forall f32 images exif overlap label K out, splits f32 images exif overlap label K out -> (K <= N.to_nat 999999)%nat -> get_submodel_paths out = submodel_name <$> seq 0 K.
Proof.
  intros f32 images exif overlap label K out [H _] HK. unfold get_submodel_paths. assert (forall fuel i, (i <= K)%nat -> (K <= i + fuel)%nat -> paths_from fuel i out = submodel_name <$> seq i (K - i)) as Hp.
  { induction fuel as [|fuel IH]; intros i Hi HKi; [replace (K - i)%nat with 0%nat by lia; done|]. cbn [paths_from]. destruct (decide (i = K)) as [->|Hne].
    - destruct (out !! submodel_name K) eqn:E; [|by rewrite Nat.sub_diag]. destruct (proj1 (H (submodel_name K))) as (k & Hk & Ek); [by eexists|]. apply submodel_name_inj in Ek. lia.
    - destruct (proj2 (H (submodel_name i))) as [t Et]; [exists i; split; [lia|done]|]. rewrite Et, IH by lia. replace (K - i)%nat with (S (K - S i)) by lia. done. }
  rewrite Hp by lia. by rewrite Nat.sub_0_r.
Qed.

Section Errors.
Variable show : R -> string. Variable parse : string -> option R. Variable f32 : R -> R. Variable kmeans : list (R * R) -> nat -> list nat.
Notation run := (run_dataset show parse f32 kmeans).
(** The ways it fails: a line that is not two words, an image with GPS that is on no line, a group without any. *)
Theorem C59_group_errors : forall images exif text size overlap dirs, float_text show parse exif -> Forall plain images ->
  (~ good_lines text -> run images exif (Some text) size overlap dirs = Err ValueError) /\
  (good_lines text -> (exists i, located images exif i /\ group_of text i = None) -> run images exif (Some text) size overlap dirs = Err KeyError).
Proof.
  intros images exif text size overlap dirs Hf Hplain. unfold run_dataset. rewrite (image_list_roundtrip show parse) by (by apply list_plain || by apply list_written). cbn [res_bind]. split.
  - intros Hbad. assert (forall lines st, ~ Forall (fun line => is_Some (line_of line)) lines -> foldM group_line st lines = Err ValueError) as H.
    { induction lines as [|line lines IH]; intros st Hb; [destruct Hb; constructor|]. cbn [foldM]. unfold group_line at 1. destruct (line_of line) as [[i g]|] eqn:El; unfold line_of in El.
      - destruct (py_words line) as [|a [|b [|]]] eqn:Ew; try done. cbn [res_bind]. apply IH. intros Ha. apply Hb. constructor; [|done]. unfold line_of. rewrite Ew. by eexists.
      - destruct (py_words line) as [|a [|b [|]]]; done. }
    unfold read_image_groups. rewrite H; [done|]. intros Ha. apply Hbad. intros line Hl. rewrite Forall_forall in Ha. by apply Ha.
  - intros Hgood (i & [Hi Hg] & Hnone). destruct (group_lines_ok parse (getlines NL text) (∅, ∅)) as (st & E & H1 & H2); [by apply Forall_forall|]. unfold read_image_groups. rewrite E. cbn [res_bind].
    assert (st.1 !! i = None) as Hst. { rewrite H1. unfold group_of in Hnone. rewrite Hnone. apply lookup_empty. }
    assert (i ∈ (images_list images exif).*1) as Hin by (rewrite names_spec; by apply elem_of_list_filter). revert Hin. generalize (images_list images exif). intros l Hin.
    assert (forall acc, foldM (fun l '((image, _) : string * (R * R)) => try cluster := of_option KeyError (st.1 !! image) in try label := of_option KeyError (fst <$> list_find (fun g => g = cluster) (merge_sort string_le (elements st.2))) in Ok (l ++ [label])) acc l = Err KeyError) as ->; [|done].
    induction l as [|[j p] l IH]; intros acc; [by apply elem_of_nil in Hin|]. cbn [foldM]. cbn [fmap list_fmap fst] in Hin. apply elem_of_cons in Hin as [<-|Hin]; [by rewrite Hst|]. destruct (st.1 !! j) as [g|]; [|done]. cbn [of_option res_bind]. destruct (list_find _ _) as [x|]; [|done]. cbn. by apply IH.
Qed.
Lemma collect_err_some {A Y} (g : A -> res Y) (l : list A) e (acc : list Y) : (forall x, x ∈ l -> (exists y, g x = Ok y) \/ g x = Err e) -> (exists x, x ∈ l /\ g x = Err e) ->
  foldM (fun l x => try y := g x in Ok (l ++ [y])) acc l = Err e.
Proof.
  revert acc. induction l as [|x l IH]; intros acc H (z & Hz & Ez); [by apply elem_of_nil in Hz|]. cbn [foldM]. destruct (H x ltac:(by left)) as [[y Ey]|Ex].
  - rewrite Ey. cbn [res_bind]. apply IH; [intros w Hw; apply H; by right|]. exists z. split; [|done]. apply elem_of_cons in Hz as [->|Hz]; [congruence|done].
  - by rewrite Ex.
Qed.
Theorem C59_empty_group_refuted : forall images exif text size overlap dirs g, float_text show parse exif -> Forall plain images -> (exists i, located images exif i) ->
  good_lines text -> (forall i, located images exif i -> is_Some (group_of text i)) -> is_group text g -> (forall i, located images exif i -> group_of text i <> Some g) ->
  run images exif (Some text) size overlap dirs = Err TypeError.
Proof.
  intros images exif text size overlap dirs g0 Hf Hplain (i0 & Hi0 & Hg0) Hlines Hall Hg Hempty. set (imgs := filter (fun i => has_gps exif i) images). assert (i0 ∈ imgs) as Hin0 by (by apply elem_of_list_filter).
  destruct (group_lines_ok parse (getlines NL text) (∅, ∅)) as (st & E & H1 & H2); [by apply Forall_forall|]. cbn [fst snd] in *.
  assert (forall i, st.1 !! i = group_of text i) as Hst. { intros i. rewrite H1. unfold group_of. destruct (snd <$> _); [done|]. apply lookup_empty. } clear H1.
  destruct (sorted_groups st.2) as (G1 & G2 & G3). set (groups := merge_sort string_le (elements st.2)) in *.
  assert (forall g, g ∈ groups <-> is_group text g) as G4. { intros g. rewrite G3, H2. unfold is_group. split; [intros [?%elem_of_empty|?]; done|by right]. }
  assert (forall i, located images exif i -> exists g k, group_of text i = Some g /\ list_find (fun x => x = g) groups = Some (k, g) /\ groups !! k = Some g) as Hfind.
  { intros i Hi. destruct (Hall i Hi) as [g Hgi]. assert (g ∈ groups) as Hgin. { apply G4. unfold group_of in Hgi. destruct (last _) as [[i' g']|] eqn:El; [|done]. injection Hgi as ->. apply last_Some_elem_of in El. apply elem_of_list_filter in El as [_ El]. by exists i'. }
    destruct (list_find_elem_of (fun x => x = g) groups g Hgin eq_refl) as [[k g'] Hk]. pose proof Hk as Hk'. apply list_find_Some in Hk' as (Hk1 & -> & _). eauto. }
  set (label := fun i => default 0%nat (g ← group_of text i; fst <$> list_find (fun x => x = g) groups)).
  assert (forall i, located images exif i -> groups !! label i = group_of text i) as Hlab. { intros i Hi. destruct (Hfind i Hi) as (g & k & Hgi & Hk & Hk'). unfold label. rewrite Hgi. cbn. rewrite Hk. done. }
  assert (forall i, i ∈ imgs <-> located images exif i) as Himgs by (intros i; unfold imgs, located; rewrite elem_of_list_filter; tauto).
  unfold run_dataset. rewrite (image_list_roundtrip show parse) by (by apply list_plain || by apply list_written). cbn [res_bind]. unfold read_image_groups. rewrite E. cbn [res_bind]. fold groups.
  assert (foldM (fun l '(image, _) => try cluster := of_option KeyError (st.1 !! image) in try label := of_option KeyError (fst <$> list_find (fun g => g = cluster) groups) in Ok (l ++ [label])) [] (images_list images exif) = Ok (label <$> imgs)) as ->.
  { rewrite images_list_filter. fold imgs. assert (forall l acc, (forall i, i ∈ l -> located images exif i) -> foldM (fun l '((image, _) : string * (R * R)) => try cluster := of_option KeyError (st.1 !! image) in try label := of_option KeyError (fst <$> list_find (fun g => g = cluster) groups) in Ok (l ++ [label])) acc ((fun i => (i, (default 0%R (exif i).1, default 0%R (exif i).2))) <$> l) = Ok (acc ++ (label <$> l))) as Hfold.
    - induction l as [|i l IH]; intros acc Hl; cbn [fmap list_fmap foldM]; [by rewrite app_nil_r|]. destruct (Hfind i) as (g & k & Hgi & Hk & Hk'); [apply Hl; by left|]. rewrite Hst, Hgi. cbn [of_option res_bind]. rewrite Hk. cbn [of_option res_bind fmap option_fmap option_map fst]. rewrite IH by (intros j Hj; apply Hl; by right). rewrite <- app_assoc. cbn. do 3 f_equal. unfold label. rewrite Hgi. cbn. by rewrite Hk.
    - apply (Hfold imgs []). intros i Hi. by apply Himgs. }
  cbn [res_bind fst snd]. rewrite positions_spec, names_spec. fold imgs. unfold add_cluster_neighbors. rewrite decide_False. 2: { destruct imgs; [by apply elem_of_nil in Hin0|done]. } cbn [res_bind].
  match goal with |- context [foldM _ [] (?f <$> _)] => set (cl := f) end. rewrite (collect_err_some (take_images imgs) (cl <$> seq 0 (length groups)) TypeError []); [done| |].
  - intros c Hc. apply elem_of_list_fmap in Hc as (k & -> & _). destruct (decide (cl k = [])) as [E0|Hne]; [right; unfold take_images; by rewrite decide_True|]. left. eexists. apply take_images_ok; [done|].
    intros i Hi. unfold cl in Hi. cbn zeta in Hi. apply (proj2 (union1d_spec _ _)) in Hi as [Hi|Hi].
    + apply elem_of_where in Hi. apply lookup_lt_Some in Hi. by rewrite fmap_length in Hi.
    + apply elem_of_list_join in Hi as (l & Hi & Hl). apply elem_of_list_fmap in Hl as (j & -> & _). apply elem_of_ball in Hi as (q & Hq & _). apply lookup_lt_Some in Hq. unfold topocentrics in Hq. by rewrite !fmap_length in Hq.
  - apply G4 in Hg. apply elem_of_list_lookup_1 in Hg as [k Hk]. exists (cl k). split; [apply elem_of_list_fmap; exists k; split; [done|]; apply elem_of_seq; apply lookup_lt_Some in Hk; lia|].
    assert (where_label (label <$> imgs) k = []) as Ew.
    { destruct (where_label (label <$> imgs) k) as [|j w] eqn:Ew; [done|]. assert (j ∈ where_label (label <$> imgs) k) as Hj by (rewrite Ew; by left). apply elem_of_where in Hj. rewrite list_lookup_fmap in Hj. destruct (imgs !! j) as [a|] eqn:Ea; [|done]. injection Hj as Hj.
      apply elem_of_list_lookup_2, Himgs in Ea. destruct (Hempty a Ea). rewrite <- (Hlab a Ea), Hj. done. }
    unfold cl. cbn zeta. rewrite Ew. done.
Qed.
End Errors.

(** Three images, the second without longitude; the third is named twice *)
Section Example.
Local Open Scope R_scope.
Definition ex_exif (i : string) : option R * option R := if decide (i = "b.jpg") then (Some 0, None) else (Some 0, Some 0).
Definition ex_images : list string := ["a.jpg"; "b.jpg"; "c.jpg"].
Definition ex_groups : string := "c.jpg north" +:+ String NL ("a.jpg north" +:+ String NL ("c.jpg  south" +:+ String NL "")).
Example C59_example : exists i, located ex_images ex_exif i /\ Forall plain ex_images /\ NoDup ex_images /\ good_lines ex_groups /\
  (forall i, located ex_images ex_exif i -> is_Some (group_of ex_groups i)) /\ (forall g, is_group ex_groups g -> exists i, located ex_images ex_exif i /\ group_of ex_groups i = Some g) /\
  group_of ex_groups "a.jpg" = Some "north" /\ group_of ex_groups "c.jpg" = Some "south".
Proof.
  assert (located ex_images ex_exif "a.jpg") as Ha. { split; [by left|]. unfold has_gps, ex_exif. rewrite decide_False by done. split; by eexists. }
  assert (located ex_images ex_exif "c.jpg") as Hc. { split; [by right; right; left|]. unfold has_gps, ex_exif. rewrite decide_False by done. split; by eexists. }
  assert (group_of ex_groups "a.jpg" = Some "north") as Ga by (vm_compute; reflexivity). assert (group_of ex_groups "c.jpg" = Some "south") as Gc by (vm_compute; reflexivity).
  exists "a.jpg". split; [done|]. split; [|split; [|split; [|split; [|split]]]].
  - repeat constructor; try done; intros H; cbn in H; repeat (apply elem_of_cons in H as [H|H]; [done|]); by apply elem_of_nil in H.
  - repeat constructor; set_solver.
  - intros line Hl. vm_compute in Hl. repeat (apply elem_of_cons in Hl as [->|Hl]; [by eexists|]). by apply elem_of_nil in Hl.
  - intros i [Hi Hg]. unfold ex_images in Hi. apply elem_of_cons in Hi as [->|Hi]; [rewrite Ga; by eexists|]. apply elem_of_cons in Hi as [->|Hi]; [destruct Hg as [_ [x Hx]]; unfold ex_exif in Hx; by rewrite decide_True in Hx|]. apply elem_of_list_singleton in Hi as ->. rewrite Gc. by eexists.
  - intros g [i Hi]. vm_compute in Hi. repeat (apply elem_of_cons in Hi as [Hi|Hi]; [injection Hi as -> ->; eauto|]). by apply elem_of_nil in Hi.
  - done.
Qed.
Example C59_example_text : float_text (fun x => if Req_EM_T x 0 then "0.0" else "") (fun s => if decide (s = "0.0") then Some 0 else None) ex_exif.
Proof.
  intros i x H. assert (x = 0) as ->. { unfold ex_exif in H. case_decide; cbn in H; intuition congruence. } destruct (Req_EM_T 0 0) as [_|]; [|done]. rewrite decide_True by done.
  split; [done|]. split; intros H'; cbn in H'; repeat (apply elem_of_cons in H' as [H'|H']; [done|]); by apply elem_of_nil in H'.
Qed.
(** a grouping by k-means that keeps everything together, up to K *)
Example C59_example_kmeans : clusters_well (fun ps K => imap (fun i _ => Nat.min i (K - 1)) ps).
Proof.
  intros ps K [HK1 HK2]. split; [apply imap_length|]. split.
  - intros l Hl. apply elem_of_lookup_imap in Hl as (i & x & -> & _). lia.
  - intros k Hk. apply elem_of_lookup_imap. assert (k < length ps)%nat as Hlt by lia. apply lookup_lt_is_Some in Hlt as [x Hx]. exists k, x. split; [lia|done].
Qed.
Example C59_example_names : submodel_name 7 = "submodel_0007" /\ submodel_name 12345 = "submodel_12345" /\ submodel_images (submodel_image_list ["x.jpg"; "y.jpg"]) = ["x.jpg"; "y.jpg"].
Proof. split; [vm_compute; reflexivity|]. split; vm_compute; reflexivity. Qed.
End Example.
Print Assumptions C59_kmeans.
Print Assumptions C59_groups.
Print Assumptions C59_covered.
Print Assumptions C59_empty_group_refuted.
