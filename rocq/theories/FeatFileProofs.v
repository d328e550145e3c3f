From stdpp Require Import prelude strings.
From Coq Require Import Reals Lra Lia.
From Verif Require Import Base PyText GpxProofs FeatFileModel FeatFileSpec.
Local Open Scope R_scope.

Lemma truncate_IZR z : truncate (IZR z) = z.
Proof. unfold truncate. destruct (Rle_dec _ _); [apply int_part_IZR|]. rewrite <- opp_IZR, int_part_IZR. lia. Qed.
Lemma map_id_in {A} (f : A -> A) (l : list A) : (forall x, x ∈ l -> f x = x) -> map f l = l.
Proof. induction l as [|a l IH]; intros H; cbn; [done|]. rewrite H by left. f_equal. apply IH. intros x Hx. apply H. by right. Qed.
Lemma astype_same single d a : every (fun x => as_type single d x = x) a -> same_values a (astype single d a).
Proof. intros H. unfold same_values, astype. cbn [a_rows]. symmetry. apply map_id_in. intros row Hr. apply map_id_in. intros x Hx. by apply (H row). Qed.
Lemma every_weaken (P Q : R -> Prop) a : (forall x, P x -> Q x) -> every P a -> every Q a.
Proof. intros H Ha row x Hr Hx. apply H. by apply (Ha row). Qed.
Lemma byte_exact single x : whole 0 255 x -> as_type single U8 x = x.
Proof. intros [[z ->] [H1 H2]]. apply le_IZR in H1, H2. cbn [as_type]. rewrite truncate_IZR. f_equal. apply Z.mod_small. lia. Qed.
Lemma short_exact single x : whole (-32768) 32767 x -> as_type single I16 x = x.
Proof. intros [[z ->] [H1 H2]]. apply le_IZR in H1, H2. cbn [as_type]. rewrite truncate_IZR. f_equal. rewrite Z.mod_small; lia. Qed.
Lemma byte_whole single x : whole 0 255 (as_type single U8 x).
Proof. cbn [as_type]. pose proof (Z.mod_pos_bound (truncate x) 256). split; [by eexists|]. split; apply IZR_le; lia. Qed.
Lemma short_whole single x : whole (-32768) 32767 (as_type single I16 x).
Proof. cbn [as_type]. pose proof (Z.mod_pos_bound (truncate x + 32768) 65536). split; [by eexists|]. split; apply IZR_le; lia. Qed.
Lemma every_astype single d (P : R -> Prop) a : (forall x, P (as_type single d x)) -> every P (astype single d a).
Proof.
  intros H row x Hr Hx. unfold astype in Hr. cbn [a_rows] in Hr. apply elem_of_list_fmap in Hr as (r & -> & _). apply elem_of_list_fmap in Hx as (y & -> & _). apply H.
Qed.
Lemma f64_rows single a : a_rows (astype single F64 a) = a_rows a.
Proof. apply map_id_in. intros row _. by apply map_id_in. Qed.
Lemma astype_length single d a : length (a_rows (astype single d a)) = length (a_rows a).
Proof. apply map_length. Qed.
Lemma data_type_spec c : (feature_data_type c = U8 /\ byte_features c) \/ (feature_data_type c = F32 /\ ~ byte_features c).
Proof.
  unfold feature_data_type, byte_features. cbn zeta. destruct (decide _) as [H|H]; [left|right]; (split; [done|]).
  - destruct H as [[H1 H2]|[H|H]]; [right; right|right; left|left]; auto. split; [done|]. apply elem_of_cons in H2 as [H2|H2]; [by right|]. apply elem_of_cons in H2 as [H2|H2]; [by left|]. by apply elem_of_nil in H2.
  - intros [Ho|[Hh|[Ha1 Ha2]]]; apply H; [by right; right|by right; left|left]. split; [done|]. rewrite !elem_of_cons. destruct Ha2; auto.
Qed.

(** The shape of what is loaded *)
Lemma load_saved single f c d n : descriptors f = Some d -> rectangular n f -> exists file g, save single f c = Ok file /\ from_file single file c = Ok g /\
  points g = astype single F32 (points f) /\
  descriptors g = Some (if decide (feature_type c = "HAHOG"%string /\ hahog_normalize_to_uchar c = true) then astype single F32 (astype single (feature_data_type c) d) else astype single (feature_data_type c) d) /\
  colors g = astype single F64 (colors f) /\ depths g = None /\
  semantic g = match n, semantic f with 0%nat, _ | _, None => None | _, Some s => Some (SemanticData (astype single U8 <$> segmentation s) (astype single I16 <$> instances s) (labels s)) end.
Proof.
  intros Hd (_ & _ & _ & _ & Hs). unfold save. rewrite Hd. destruct (semantic f) as [s|] eqn:Es.
  - destruct (Hs s eq_refl) as ((seg & Hseg & Hn) & Hi). rewrite Hseg. cbn [of_option res_bind]. exists (FeaturesFile (Some 3%nat) (astype single F32 (points f)) (astype single (feature_data_type c) d) (colors f) (Some (Plain (astype single U8 seg))) (Some (Plain (match instances s with Some i => astype single I16 i | None => Array F64 [] end))) (Some (labels s))).
    unfold from_file. cbn [f_version default from_option Datatypes.id]. unfold from_file_v3. cbn [f_segmentations f_instances f_labels read_entry res_bind].
    rewrite astype_length, Hn. destruct n as [|n].
    + assert (length (a_rows (match instances s with Some i => astype single I16 i | None => Array F64 [] end)) = 0%nat) as ->. { destruct (instances s); [rewrite astype_length; apply Hi|done]. }
      cbn [of_option res_bind]. rewrite !bool_decide_eq_false_2 by lia. cbn [orb res_bind]. eexists. split; [done|]. split; [reflexivity|]. done.
    + rewrite bool_decide_eq_true_2 by lia. cbn [orb of_option res_bind]. eexists. split; [done|]. split; [reflexivity|]. cbn [points descriptors colors semantic depths]. split_and!; try done. cbn. do 2 f_equal.
      destruct (instances s) as [i|]; cbn; [|done]. cbn in Hi. rewrite map_length, Hi. done.
  - exists (FeaturesFile (Some 3%nat) (astype single F32 (points f)) (astype single (feature_data_type c) d) (colors f) (Some (Plain (Array F64 []))) (Some (Plain (Array F64 []))) (Some [])). unfold from_file. cbn [f_version default from_option Datatypes.id]. unfold from_file_v3. cbn [f_segmentations f_instances f_labels read_entry res_bind a_rows length]. cbn [orb res_bind]. eexists. split; [done|].
    split; [reflexivity|]. split_and!; try done. cbn. by destruct n.
Qed.

(** Masks *)
Fixpoint kept (start : nat) (mask : list bool) : list nat :=
  match mask with true :: m => start :: kept (S start) m | false :: m => kept (S start) m | [] => [] end.
Lemma kept_ge start mask i : i ∈ kept start mask -> (start <= i)%nat.
Proof.
  revert start. induction mask as [|b mask IH]; intros start; cbn [kept]; [by rewrite elem_of_nil|]. destruct b; [rewrite elem_of_cons; intros [-> |H]; [lia|]|intros H]; apply IH in H; lia.
Qed.
Lemma kept_elem start mask i : i ∈ kept start mask <-> (start <= i)%nat /\ mask !! (i - start)%nat = Some true.
Proof.
  revert start. induction mask as [|b mask IH]; intros start; cbn [kept]. { rewrite elem_of_nil. by split; [|intros [_ ?]]. }
  assert ((start = i /\ b = true) \/ ((S start <= i)%nat /\ mask !! (i - S start)%nat = Some true) <-> (start <= i)%nat /\ (b :: mask) !! (i - start)%nat = Some true) as <-.
  { split.
    - intros [[-> ->]|[H1 H2]]; [by rewrite Nat.sub_diag|]. split; [lia|]. by replace (i - start)%nat with (S (i - S start)) by lia.
    - intros [H1 H2]. destruct (decide (start = i)) as [-> |]; [left; rewrite Nat.sub_diag in H2; by injection H2 as ->|]. right. split; [lia|]. by replace (i - start)%nat with (S (i - S start)) in H2 by lia. }
  destruct b; rewrite ?elem_of_cons, IH; naive_solver.
Qed.
Lemma kept_sorted start mask k l i j : (k < l)%nat -> kept start mask !! k = Some i -> kept start mask !! l = Some j -> (i < j)%nat.
Proof.
  revert start k l. induction mask as [|b mask IH]; intros start k l Hkl; cbn [kept]; [done|]. destruct b; [|by apply IH].
  destruct l as [|l]; [lia|]. destruct k as [|k]; cbn.
  - intros [= <-] Hj. apply elem_of_list_lookup_2, kept_ge in Hj. lia.
  - apply IH. lia.
Qed.
Lemma kept_places mask : places mask (kept 0 mask).
Proof. split; [|apply kept_sorted]. intros i. rewrite kept_elem, Nat.sub_0_r. intuition lia. Qed.
Lemma masked_kept {A} mask (l : list A) start : length mask = length l -> length (masked mask l) = length (kept start mask) /\ forall k i, kept start mask !! k = Some i -> exists a, l !! (i - start)%nat = Some a /\ masked mask l !! k = Some a.
Proof.
  revert start l. induction mask as [|b mask IH]; intros start [|a l]; cbn [masked kept length]; try done. intros [= Hl]. destruct (IH (S start) l Hl) as [H1 H2].
  assert (forall i, (S start <= i)%nat -> (a :: l) !! (i - start)%nat = l !! (i - S start)%nat) as Hs. { intros i Hi. by replace (i - start)%nat with (S (i - S start)) by lia. }
  destruct b; cbn [length].
  - split; [by rewrite H1|]. intros [|k] i; cbn [lookup list_lookup]; [intros [= <-]; rewrite Nat.sub_diag; by exists a|]. intros Hk. destruct (H2 k i Hk) as (x & E1 & E2). exists x. split; [|done]. fold (@lookup nat A (list A) _). rewrite Hs; [done|]. by eapply kept_ge, elem_of_list_lookup_2.
  - split; [done|]. intros k i Hk. destruct (H2 k i Hk) as (x & E1 & E2). exists x. split; [|done]. rewrite Hs; [done|]. by eapply kept_ge, elem_of_list_lookup_2.
Qed.
Lemma masked_picks mask a : length (a_rows a) = length mask -> exists b, masked_array mask a = Ok b /\ picks (kept 0 mask) a b.
Proof.
  intros H. unfold masked_array. rewrite decide_True by done. eexists. split; [done|]. destruct (masked_kept mask (a_rows a) 0 (eq_sym H)) as [H1 H2]. split; [done|]. split; [done|]. intros k i Hk. destruct (H2 k i Hk) as (row & E & E'). rewrite Nat.sub_0_r in E. by exists row.
Qed.
Lemma masked_option_picks mask a : rows_option (length mask) a -> exists b, masked_option mask a = Ok b /\ picks_option (kept 0 mask) a b.
Proof. destruct a as [a|]; cbn; [|by exists None]. intros H. destruct (masked_picks mask a H) as (b & -> & Hb). by exists (Some b). Qed.
