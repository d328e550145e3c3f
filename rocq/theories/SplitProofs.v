(** Proofs about the split of a dataset into submodels. *)
From stdpp Require Import prelude gmap strings pretty sorting.
From Coq Require Import Ascii Reals Lra Lia.
From Coq Require String.
From Verif Require Import Base Lin TextModel TextProofs PyText GeoModel RigModel RigProofs BundleModel SplitModel SplitSpec.
Local Open Scope string_scope.
Local Open Scope list_scope.

(** ** Collecting results *)
Lemma collect_ok {A Y} (g : A -> res Y) (l : list A) (ys acc : list Y) : Forall2 (fun x y => g x = Ok y) l ys ->
  foldM (fun l x => try y := g x in Ok (l ++ [y])) acc l = Ok (acc ++ ys).
Proof.
  intros H. revert acc. induction H as [|x y l ys Hx _ IH]; intros acc; cbn [foldM]; [by rewrite app_nil_r|]. rewrite Hx. cbn [res_bind]. rewrite IH. by rewrite <- app_assoc.
Qed.
Lemma collect_err {A Y} (g : A -> res Y) (l1 l2 : list A) x e (acc : list Y) : Forall (fun x => exists y, g x = Ok y) l1 -> g x = Err e ->
  foldM (fun l x => try y := g x in Ok (l ++ [y])) acc (l1 ++ x :: l2) = Err e.
Proof.
  intros H Hx. revert acc. induction H as [|z l1 [y Hz] _ IH]; intros acc; cbn [foldM app]; [by rewrite Hx|]. rewrite Hz. cbn [res_bind]. apply IH.
Qed.

(** ** Text *)
Lemma split_on_cons sep w rest : absent sep w -> split_on sep (w +:+ String sep rest) = w :: split_on sep rest.
Proof.
  induction w as [|a w IH]; intros H.
  - change ("" +:+ String sep rest) with (String sep rest). cbn. by rewrite decide_True.
  - apply absent_cons in H as [Ha H]. rewrite str_app_cons. cbn. rewrite decide_False by congruence. by rewrite IH.
Qed.
Lemma split_on_one sep w : absent sep w -> split_on sep w = [w].
Proof. induction w as [|a w IH]; intros H; [done|]. apply absent_cons in H as [Ha H]. cbn. rewrite decide_False by congruence. by rewrite IH. Qed.
Lemma split_on_nonempty sep w : split_on sep w <> [].
Proof. destruct w as [|a w]; [done|]. cbn. case_decide; [done|]. by destruct (split_on sep w). Qed.
Lemma split_on_slash w : absent "/" w -> basename ("images/" +:+ w) = w.
Proof.
  intros H. unfold basename. change ("images/" +:+ w) with ("images" +:+ String "/" w). rewrite split_on_cons; [by rewrite split_on_one|]. intros Hin. cbn in Hin. set_solver.
Qed.
Lemma submodel_images_list names : Forall plain names -> submodel_images (submodel_image_list names) = names.
Proof.
  intros H. unfold submodel_images. induction H as [|n names (H1 & H2 & H3 & H4) _ IH]; [done|]. cbn [submodel_image_list].
  replace ("images/" +:+ n +:+ String NL (submodel_image_list names)) with (("images/" +:+ n) +:+ String NL (submodel_image_list names)) by apply str_app_assoc. rewrite getlines_cons.
  - rewrite fmap_cons, IH, split_on_slash by done. done.
  - apply absent_app. split; [intros Hin; cbn in Hin; set_solver|done].
Qed.
Lemma zeros_digits n s a t : s = String a t -> is_Some (is_nat a) -> read_digits None (zeros n +:+ s) = read_digits None s.
Proof.
  intros -> [d Hd]. assert (forall acc, default 0%Z acc = 0%Z -> read_digits acc (zeros n +:+ String a t) = read_digits None (String a t)) as H; [|by apply H].
  induction n as [|n IH]; intros acc Hacc.
  - change (zeros 0 +:+ String a t) with (String a t). cbn [read_digits]. rewrite Hd, Hacc. done.
  - cbn [zeros]. rewrite str_app_cons. cbn [read_digits]. change (is_nat "0") with (Some 0%nat). cbv iota. apply IH. rewrite Hacc. done.
Qed.
Lemma submodel_name_inj i j : submodel_name i = submodel_name j -> i = j.
Proof.
  unfold submodel_name. intros E. change ("submodel_" +:+ ?x) with ("submodel_" +:+ x) in E.
  assert (forall p s t, p +:+ s = p +:+ t -> s = t) as Hp. { intros p s t. induction p as [|a p IH]; [done|]. rewrite !str_app_cons. intros [= E']. auto. }
  apply Hp in E. apply (f_equal (read_digits None)) in E.
  assert (forall k : nat, read_digits None (zeros (4 - String.length (pretty k)) +:+ pretty k) = Some (Z.of_nat k)) as Hr.
  { intros k. change (pretty k) with (pretty (N.of_nat k)). destruct (pretty_N_nonempty (N.of_nat k)) as (a & s & Es). rewrite (zeros_digits _ _ a s Es).
    - rewrite read_digits_pretty_N. f_equal. lia.
    - pose proof (pretty_N_digits (N.of_nat k)) as Hd. rewrite Es in Hd. cbn in Hd. inversion Hd as [|? ? Ha _]; subst. repeat (apply elem_of_cons in Ha as [->|Ha]; [by eexists|]). by apply elem_of_nil in Ha. }
  rewrite !Hr in E. injection E as E. lia.
Qed.

(** ** The image list *)
Section Codec.
Variable show : R -> string. Variable parse : string -> option R. Variable f32 : R -> R.
Definition written (x : R) : Prop := parse (show x) = Some x /\ absent TAB (show x) /\ absent NL (show x).
Lemma create_lines ills : Forall plain ills.*1 -> (forall x, x ∈ ills -> written x.2.1 /\ written x.2.2) -> getlines NL (create_image_list show ills) = (fun '(image, (lat, lon)) => image +:+ String TAB (show lat +:+ String TAB (show lon))) <$> ills.
Proof.
  induction ills as [|[image [lat lon]] ills IH]; intros H Hc; [done|]. cbn [fmap list_fmap fst] in *. apply Forall_cons in H as [(H1 & H2 & H3 & H4) H]. cbn [create_image_list]. destruct (Hc (image, (lat, lon)) ltac:(by left)) as [(_ & _ & Ha) (_ & _ & Hb)].
  replace (image +:+ String TAB (show lat +:+ String TAB (show lon +:+ String NL (create_image_list show ills)))) with ((image +:+ String TAB (show lat +:+ String TAB (show lon))) +:+ String NL (create_image_list show ills)).
  2: { rewrite !str_app_assoc, str_app_cons, !str_app_assoc, str_app_cons. done. }
  rewrite getlines_cons; [rewrite IH; [done|done|intros x Hx; apply Hc; by right]|]. rewrite absent_app, absent_cons, absent_app, absent_cons. done.
Qed.
Lemma image_list_roundtrip ills : Forall plain ills.*1 -> (forall x, x ∈ ills -> written x.2.1 /\ written x.2.2) -> images_with_gps parse (create_image_list show ills) = Ok ills.
Proof.
  intros H Hc. unfold images_with_gps. rewrite create_lines by done. apply (collect_ok (image_with_gps parse) _ ills []). induction ills as [|[image [lat lon]] ills IH]; [constructor|]. cbn [fmap list_fmap fst] in *. apply Forall_cons in H as [(H1 & H2 & H3 & H4) H].
  constructor; [|apply IH; [done|intros x Hx; apply Hc; by right]]. unfold image_with_gps. destruct (Hc (image, (lat, lon)) ltac:(by left)) as [(Ea & Ha & _) (Eb & Hb & _)]. cbn [fst snd] in *. rewrite !split_on_cons, split_on_one by done. by rewrite Ea, Eb.
Qed.
Lemma images_list_filter images exif : images_list images exif = (fun i => (i, (default 0%R (exif i).1, default 0%R (exif i).2))) <$> filter (fun i => has_gps exif i) images.
Proof.
  unfold images_list. induction images as [|i images IH]; [done|]. rewrite filter_cons. cbn [omap list_omap]. case_decide as Hd.
  - destruct Hd as [[lat Hlat] [lon Hlon]]. rewrite fmap_cons, Hlat, Hlon. destruct (exif i) as [? ?]. cbn in Hlat, Hlon. subst. cbn. by f_equal.
  - destruct (exif i) as [[lat|] [lon|]] eqn:E; try exact IH. destruct Hd. unfold has_gps. rewrite E. split; eauto.
Qed.
End Codec.

(** ** Clusters *)
Lemma elem_of_imap_pair {A} (l : list A) i x : (i, x) ∈ imap pair l <-> l !! i = Some x.
Proof. rewrite elem_of_lookup_imap. split; [intros (j & y & [= -> ->] & H); done|]. intros H. eauto. Qed.
Lemma elem_of_where labels k i : i ∈ where_label labels k <-> labels !! i = Some k.
Proof.
  unfold where_label. rewrite elem_of_list_omap. split.
  - intros ([j l] & H & E). apply elem_of_imap_pair in H. case_decide; [|done]. injection E as <-. by subst.
  - intros H. exists (i, k). rewrite elem_of_imap_pair. split; [done|]. by rewrite decide_True.
Qed.
Lemma elem_of_ball points p d i : i ∈ query_ball_point points p d <-> exists q, points !! i = Some q /\ (distance p q <= d)%R.
Proof.
  unfold query_ball_point. rewrite elem_of_list_omap. split.
  - intros ([j q] & H & E). apply elem_of_imap_pair in H. destruct (Rle_dec (distance p q) d); [|done]. injection E as <-. eauto.
  - intros (q & H & Hd). exists (i, q). rewrite elem_of_imap_pair. split; [done|]. by destruct (Rle_dec (distance p q) d).
Qed.
Lemma union1d_spec a b : StronglySorted lt (union1d a b) /\ forall i, i ∈ union1d a b <-> i ∈ a \/ i ∈ b.
Proof.
  unfold union1d. assert (forall i, i ∈ merge_sort le (remove_dups (a ++ b)) <-> i ∈ a \/ i ∈ b) as Hin.
  { intros i. rewrite merge_sort_Permutation, elem_of_remove_dups, elem_of_app. done. }
  split; [|done]. pose proof (StronglySorted_merge_sort le (remove_dups (a ++ b))) as Hs. assert (NoDup (merge_sort le (remove_dups (a ++ b)))) as Hn by (rewrite merge_sort_Permutation; apply NoDup_remove_dups).
  clear Hin. induction Hs as [|x l Hs IH Hx]; [constructor|]. apply NoDup_cons in Hn as [Hx' Hn]. constructor; [by apply IH|]. rewrite Forall_forall in Hx |- *. intros y Hy. pose proof (Hx y Hy). assert (x <> y) by (by intros ->). lia.
Qed.
Lemma sorted_sublist {A} (d : A) (l : list A) idx : StronglySorted lt idx -> (forall i, i ∈ idx -> (i < length l)%nat) -> sublist ((fun i => nth i l d) <$> idx) l.
Proof.
  intros Hs Hb. assert (forall off pre, length pre = off -> (forall i, i ∈ idx -> (off <= i < off + length l)%nat) -> sublist ((fun i => nth i (pre ++ l) d) <$> idx) l) as H.
  2: { apply (H 0%nat []); [done|]. intros i Hi. cbn. split; [lia|by apply Hb]. }
  clear Hb. revert idx Hs. induction l as [|x l IH]; intros idx Hs off pre Hlen Hb.
  - destruct idx as [|i idx]; [constructor|]. pose proof (Hb i ltac:(by left)) as Hi. cbn in Hi. lia.
  - assert (forall idx', (forall i, i ∈ idx' -> (S off <= i < S off + length l)%nat) -> StronglySorted lt idx' -> sublist ((fun i => nth i (pre ++ x :: l) d) <$> idx') l) as Hrec.
    { intros idx' Hb' Hs'. replace (pre ++ x :: l) with ((pre ++ [x]) ++ l) by (by rewrite <- app_assoc). apply (IH idx' Hs' (S off)); [rewrite app_length; cbn; lia|done]. }
    destruct Hs as [|i idx Hs Hi]; [apply sublist_nil_l|]. rewrite Forall_forall in Hi. pose proof (Hb i ltac:(by left)) as Hbi. cbn in Hbi. destruct (decide (i = off)) as [->|Hne].
    + rewrite fmap_cons. rewrite app_nth2, <- Hlen, Nat.sub_diag by lia. cbn. apply sublist_skip. apply Hrec; [|done]. intros j Hj. pose proof (Hb j ltac:(by right)) as Hbj. cbn in Hbj. pose proof (Hi j Hj). lia.
    + apply sublist_cons, Hrec.
      * intros j Hj. pose proof (Hb j Hj) as Hbj. cbn in Hbj. apply elem_of_cons in Hj as [->|Hj]; [lia|]. pose proof (Hi j Hj). lia.
      * constructor; [done|]. by apply Forall_forall.
Qed.
Lemma take_images_ok images cluster : cluster <> [] -> (forall i, i ∈ cluster -> (i < length images)%nat) -> take_images images cluster = Ok ((fun i => nth i images "") <$> cluster).
Proof.
  intros Hne Hb. unfold take_images. rewrite decide_False by done. apply (collect_ok (fun i => of_option IndexError (images !! i)) cluster _ []). clear Hne. induction cluster as [|i l IH]; [constructor|]. constructor.
  - destruct (images !! i) as [x|] eqn:E; [cbn; by rewrite (nth_lookup_Some _ _ _ _ E)|]. apply lookup_ge_None in E. pose proof (Hb i ltac:(by left)). lia.
  - apply IH. intros j Hj. apply Hb. by right.
Qed.
Lemma remove_submodels_empty dirs : remove_submodels dirs = ∅.
Proof.
  unfold remove_submodels. apply map_eq. intros d. rewrite lookup_empty. assert (forall l m, foldl (fun (m : gmap string string) p => delete p m) m l !! d = if decide (d ∈ l) then None else m !! d) as H.
  { induction l as [|x l IH]; intros m; cbn [foldl]; [by rewrite decide_False by apply not_elem_of_nil|]. rewrite IH. destruct (decide (d = x)) as [->|Hne].
    - rewrite lookup_delete. rewrite (decide_True (P := x ∈ x :: l)) by (by left). by case_decide.
    - rewrite lookup_delete_ne by done. apply decide_ext. rewrite elem_of_cons. tauto. }
  rewrite H. case_decide as Hd; [done|]. destruct (dirs !! d) as [t|] eqn:E; [|done]. destruct Hd. apply elem_of_list_fmap. exists (d, t). split; [done|]. by apply elem_of_map_to_list.
Qed.
Lemma create_submodels_lookup clusters : forall d t, create_submodels clusters ∅ !! d = Some t <-> exists k c, clusters !! k = Some c /\ d = submodel_name k /\ t = submodel_image_list c.
Proof.
  induction clusters as [|c clusters IH] using rev_ind; intros d t; [split; [done|by intros (k & c & ? & _)]|]. unfold create_submodels in *. rewrite imap_app, foldl_app. cbn [imap foldl]. rewrite Nat.add_0_r. destruct (decide (d = submodel_name (length clusters))) as [->|Hne].
  - rewrite lookup_insert. split.
    + intros [= <-]. exists (length clusters), c. split; [by rewrite list_lookup_middle|done].
    + intros (k & c' & Hk & Ek & ->). apply submodel_name_inj in Ek as <-. rewrite list_lookup_middle in Hk by done. by injection Hk as ->.
  - rewrite lookup_insert_ne, IH by done. split.
    + intros (k & c' & Hk & -> & ->). exists k, c'. split; [by apply lookup_app_l_Some|done].
    + intros (k & c' & Hk & -> & ->). exists k, c'. split; [|done]. apply lookup_app_Some in Hk as [?|[? Hk]]; [done|]. apply list_lookup_singleton_Some in Hk as [Hk _]. replace k with (length clusters) in Hne by lia. done.
Qed.
