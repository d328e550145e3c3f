(** Proofs about the server of the viewer. *)
From stdpp Require Import prelude strings.
From Coq Require Import Lia Sorting.Sorted.
From Verif Require Import Base ViewerModel ViewerSpec.

Section Ind.
Variable P : tree -> Prop.
Hypothesis Hf : forall c, P (File c).
Hypothesis Hd : forall es, (forall n t, (n, t) ∈ es -> P t) -> P (Dir es).
Fixpoint tree_induction (t : tree) : P t.
Proof.
  destruct t as [c|es]; [apply Hf|]. apply Hd. induction es as [|[k x] es IH]; intros n t H; [inversion H|].
  apply elem_of_cons in H as [H|H]; [|by apply (IH n)]. injection H as -> ->. apply tree_induction.
Qed.
End Ind.

Lemma prefix_text sub s : String.prefix sub s = true <-> exists b, s = (sub ++ b)%string.
Proof.
  revert s. induction sub as [|a sub IH]; intros s; cbn [String.prefix]; [split; [intros _; exists s; reflexivity|destruct s; reflexivity]|].
  destruct s as [|b s]; [split; [done|intros [? ?]; done]|]. assert (String.prefix (String a sub) (String b s) = if Ascii.ascii_dec a b then String.prefix sub s else false) as -> by reflexivity. destruct (Ascii.ascii_dec a b) as [-> |Hab].
  - rewrite IH. split; intros [x E]; exists x; [by rewrite E|by injection E].
  - split; [done|]. intros [x E]. injection E as E _. by symmetry in E.
Qed.
Lemma contains_iff sub s : contains sub s = true <-> contains_text sub s.
Proof.
  induction s as [|a s IH]; cbn [contains]; rewrite orb_true_iff, prefix_text.
  - split; [intros [[b E]|?]; [exists "", b; done|done]|]. intros (x & b & E). left. destruct x; [by exists b|done].
  - rewrite IH. split.
    + intros [[b E]|(x & b & ->)]; [by exists "", b|by exists (String a x), b].
    + intros (x & b & E). destruct x as [|c x]; [left; by exists b|right]. injection E as -> ->. by exists x, b.
Qed.
Lemma ends_iff sub s : ends_with sub s = true <-> ends_with_text sub s.
Proof.
  induction s as [|a s IH]; cbn [ends_with]; rewrite orb_true_iff, bool_decide_eq_true.
  - split; [intros [E|?]; [by exists ""|done]|]. intros (x & E). left. destruct x; [done|done].
  - rewrite IH. split.
    + intros [E|(x & ->)]; [by exists ""|by exists (String a x)].
    + intros (x & E). destruct x as [|c x]; [by left|right]. injection E as -> ->. by exists x.
Qed.

(** ** The walk *)
Lemma plain_files_elem es n : n ∈ plain_files es <-> exists c, (n, File c) ∈ es.
Proof.
  unfold plain_files. rewrite elem_of_list_omap. split.
  - intros ([k t] & H & E). destruct t as [c|]; [|done]. injection E as ->. by exists c.
  - intros [c H]. exists (n, File c). done.
Qed.
Definition subs (root : list string) := fix subs (l : list (string * tree)) := match l with [] => [] | (n, t') :: l' => json_files (root ++ [n]) t' ++ subs l' end.
Lemma json_files_dir root es : json_files root (Dir es) = ((fun f => root ++ [f]) <$> filter (fun f => contains ".json" f = true) (plain_files es)) ++ subs root es.
Proof. reflexivity. Qed.
Lemma subs_elem root es p : p ∈ subs root es <-> exists n t, (n, t) ∈ es /\ p ∈ json_files (root ++ [n]) t.
Proof.
  induction es as [|[k x] es IH]; cbn [subs]; [split; [intros H; inversion H|intros (? & ? & H & _); inversion H]|]. rewrite elem_of_app. change ((fix subs l := match l with [] => [] | (n, t') :: l' => json_files (root ++ [n]) t' ++ subs l' end) es) with (subs root es). rewrite IH. split.
  - intros [H|(n & t & H1 & H2)]; [exists k, x; split; [left|done]|exists n, t; split; [by right|done]].
  - intros (n & t & [[= -> ->]|H1]%elem_of_cons & H2); [by left|right; by exists n, t].
Qed.
Definition last_name (p : list string) : string := List.last p "".
Lemma json_files_iff t : forall root p, p ∈ json_files root t <-> exists q c, p = root ++ q /\ file_at t q c /\ contains ".json" (last_name q) = true.
Proof.
  induction t as [c|es IH] using tree_induction; intros root p.
  - split; [intros H; inversion H|]. intros (q & c' & _ & H & _). inversion H.
  - rewrite json_files_dir, elem_of_app, elem_of_list_fmap, subs_elem. split.
    + intros [(f & -> & [Hj [c Hf]%plain_files_elem]%elem_of_list_filter)|(n & t & Hn & Hp)].
      * exists [f], c. split; [done|]. split; [by constructor|done].
      * apply (IH n t Hn) in Hp as (q & c & -> & Hq & Hj). exists (n :: q), c. split; [by rewrite <- app_assoc|]. split; [by econstructor|]. destruct q; [inversion Hq|done].
    + intros (q & c & -> & Hq & Hj). inversion Hq; subst.
      * left. exists n. split; [done|]. apply elem_of_list_filter. split; [done|]. apply plain_files_elem. by exists c.
      * right. exists n, t. split; [done|]. apply (IH n t); [done|]. exists path, c. split; [by rewrite <- app_assoc|]. split; [done|]. destruct path; [|done]. match goal with H : file_at _ [] _ |- _ => inversion H end.
Qed.
Lemma file_at_nonempty t p c : file_at t p c -> p <> [].
Proof. by inversion 1. Qed.
Lemma json_files_nodup t : well_named t -> forall root, NoDup (json_files root t).
Proof.
  induction t as [c|es IH] using tree_induction; intros Hw root; [constructor|]. inversion Hw as [|? Hn Ht]; subst.
  rewrite json_files_dir. apply NoDup_app. split; [|split].
  - apply NoDup_fmap_2; [intros x y E; by apply app_inj_tail in E as [_ E]|]. apply NoDup_filter. clear -Hn. unfold plain_files. induction es as [|[k x] es IH]; [constructor|]. cbn [fmap list_fmap fst] in Hn. apply NoDup_cons in Hn as [Hk Hn]. cbn [omap list_omap snd fst].
    destruct x; [|by apply IH]. constructor; [|by apply IH]. intros [c' H]%plain_files_elem. apply Hk. apply elem_of_list_fmap. by exists (k, File c').
  - intros p (f & -> & [_ [c Hf]%plain_files_elem]%elem_of_list_filter)%elem_of_list_fmap (n & t & Hnt & Hp)%subs_elem. apply json_files_iff in Hp as (q & c' & E & Hq & _). rewrite <- app_assoc in E. apply app_inv_head in E. injection E as <- <-. by apply file_at_nonempty in Hq.
  - clear Hw. induction es as [|[k x] es IHes]; [constructor|]. cbn [subs]. apply NoDup_app. cbn [fmap list_fmap fst] in Hn. apply NoDup_cons in Hn as [Hk Hn]. split; [|split].
    + apply (IH k x); [left|]. apply (Ht k x). left.
    + intros p Hp (n & t & Hnt & Hp')%subs_elem. apply json_files_iff in Hp as (q & c & -> & _). apply json_files_iff in Hp' as (q' & c' & E & _). rewrite <- !app_assoc in E. apply app_inv_head in E. injection E as -> _. apply Hk. apply elem_of_list_fmap. by exists (n, t).
    + apply IHes; [intros n t H; apply (IH n t); by right|done|intros n t H; apply (Ht n t); by right].
Qed.

(** ** Sorting *)
Lemma insert_perm p l : insert_path p l ≡ₚ p :: l.
Proof. induction l as [|q l IH]; cbn [insert_path]; [done|]. destruct (String.leb _ _); [done|]. rewrite IH. apply Permutation_swap. Qed.
Lemma sort_perm l : sort_paths l ≡ₚ l.
Proof. induction l as [|p l IH]; [done|]. cbn [sort_paths foldr]. rewrite insert_perm. by constructor. Qed.
Lemma leb_total s t : String.leb s t = false -> String.leb t s = true.
Proof. unfold String.leb. rewrite (String.compare_antisym t s). destruct (String.compare s t); done. Qed.
Lemma insert_sorted p l : Sorted in_order l -> Sorted in_order (insert_path p l).
Proof.
  induction l as [|q l IH]; intros H; cbn [insert_path]; [by repeat constructor|]. destruct (String.leb (join p) (join q)) eqn:E; [constructor; [exact H|constructor; exact E]|].
  inversion H as [|? ? H1 H2]; subst. constructor; [by apply IH|]. destruct l as [|r l]; cbn [insert_path]; [constructor; by apply leb_total|]. destruct (String.leb (join p) (join r)); constructor; [by apply leb_total|]. inversion H2; subst; assumption.
Qed.
Lemma sort_sorted l : Sorted in_order (sort_paths l).
Proof. induction l as [|p l IH]; [constructor|]. by apply insert_sorted. Qed.

(** ** Paths *)
Lemma find_entry_elem es n t : NoDup es.*1 -> find_entry es n = Some t <-> (n, t) ∈ es.
Proof.
  induction es as [|[k x] es IH]; cbn [find_entry]; intros Hn; [split; [done|intros H; inversion H]|]. cbn [fmap list_fmap fst] in Hn. apply NoDup_cons in Hn as [Hk Hn]. rewrite elem_of_cons. destruct (decide (k = n)) as [-> |Hd].
  - split; [intros [= ->]; by left|]. intros [[= ->]|H]; [done|]. destruct Hk. apply elem_of_list_fmap. by exists (n, t).
  - rewrite IH by done. split; [by right|]. intros [[= -> ->]|H]; done.
Qed.
Lemma node_app t a b : node t (a ++ b) = node t a ≫= fun x => node x b.
Proof. revert t. induction a as [|n a IH]; intros t; [done|]. cbn [app node]. destruct t as [|es]; [done|]. destruct (find_entry es n); [apply IH|done]. Qed.
Lemma resolve_file root : forall path cur t c, node root cur = Some t -> well_named t -> file_at t path c -> resolve root cur path = Some (File c).
Proof.
  induction path as [|n path IH]; intros cur t c Hc Hw H; [inversion H|]. assert (exists es t', t = Dir es /\ (n, t') ∈ es /\ ((path = [] /\ t' = File c) \/ file_at t' path c)) as (es & t' & -> & Hn & Hp).
  { inversion H; subst; [exists es, (File c); eauto|exists es, t0; eauto]. }
  inversion Hw as [|? Hnd Hnames]; subst. destruct (Hnames n t' Hn) as (N1 & N2 & N3 & Hw'). cbn [resolve]. rewrite Hc. rewrite decide_False by (intros [?|?]; done). rewrite decide_False by done.
  apply find_entry_elem in Hn; [|done]. rewrite Hn. assert (node root (cur ++ [n]) = Some t') as Hc' by (rewrite node_app, Hc; cbn [mbind option_bind node]; by rewrite Hn).
  destruct Hp as [[-> ->]|Hp]; [cbn [resolve]; done|]. by apply (IH _ t').
Qed.
Lemma node_file t : forall path c, node t path = Some (File c) -> (path = [] /\ t = File c) \/ file_at t path c.
Proof.
  intros path. revert t. induction path as [|n path IH]; intros t c H; cbn [node] in H; [left; by injection H as ->|]. destruct t as [|es]; [done|]. destruct (find_entry es n) as [t'|] eqn:E; [|done]. cbn [mbind option_bind] in H.
  assert ((n, t') ∈ es) as Hn. { clear -E. induction es as [|[k x] es IH]; cbn [find_entry] in E; [done|]. destruct (decide (k = n)) as [-> |]; [injection E as ->; left|right; by apply IH]. }
  right. destruct (IH _ _ H) as [[-> ->]|Hf]; [by constructor|by econstructor].
Qed.
Lemma resolve_inside root : forall path cur c, ".." ∉ path -> resolve root cur path = Some (File c) -> exists q, node root (cur ++ q) = Some (File c).
Proof.
  induction path as [|n path IH]; intros cur c Hd H; cbn [resolve] in H; [exists []; by rewrite app_nil_r|]. rewrite not_elem_of_cons in Hd. destruct Hd as [Hn Hd]. destruct (node root cur) as [[|es]|]; try done.
  destruct (decide _); [by apply (IH cur)|]. rewrite decide_False in H by congruence. destruct (find_entry es n); [|done]. destruct (IH _ _ Hd H) as [q Hq]. exists (n :: q). by rewrite <- app_assoc in Hq.
Qed.
