(** Proofs about the union-find model: invariant, refinement to the closure of the unions. *)
From stdpp Require Import prelude gmap fin_map_dom.
From Verif Require Import Base UnionFindModel UnionFindSpec.

Section Proofs.
Context {K : Type} `{Countable K}.
Implicit Types (par : gmap K K) (u : uf K).

(** [Root par x r n]: following the parents [n] times from [x] leads to the root [r]. *)
Inductive Root par : K -> K -> nat -> Prop :=
  | Root_here x : par !! x = Some x -> Root par x x 0
  | Root_up x p r n : par !! x = Some p -> p <> x -> Root par p r n -> Root par x r (S n).

Lemma Root_det par x r1 n1 r2 n2 : Root par x r1 n1 -> Root par x r2 n2 -> r1 = r2 /\ n1 = n2.
Proof.
  intros H1; revert r2 n2; induction H1 as [x Hx|x p r n Hx Hne HR IH]; intros r2 n2 H2; inversion H2; simplify_eq; auto.
  match goal with HR' : Root par _ _ _ |- _ => destruct (IH _ _ HR') end; by subst.
Qed.

Lemma Root_root par x r n : Root par x r n -> par !! r = Some r.
Proof. induction 1; auto. Qed.

Lemma Root_dom par x r n : Root par x r n -> is_Some (par !! x).
Proof. destruct 1; eauto. Qed.

Lemma Root_chain par x r n : Root par x r n ->
  exists l, length l = S n /\ NoDup l /\ forall y, y ∈ l -> exists m, m <= n /\ Root par y r m.
Proof.
  induction 1 as [x Hx|x p r n Hx Hne HR (l & Hlen & Hnd & Hl)].
  - exists [x]. split; [done|]. split; [apply NoDup_singleton|].
    intros y ->%elem_of_list_singleton. exists 0. split; [done|]. by constructor.
  - exists (x :: l). split; [simpl; lia|]. split.
    + constructor; [|done]. intros Hin. destruct (Hl _ Hin) as (m & Hm & HRm).
      assert (HRx : Root par x r (S n)) by (eapply Root_up; eauto).
      destruct (Root_det _ _ _ _ _ _ HRm HRx). lia.
    + intros y [->|Hy]%elem_of_cons.
      * exists (S n). split; [done|]. by eapply Root_up.
      * destruct (Hl _ Hy) as (m & Hm & HRm). exists m. split; [lia|done].
Qed.

Lemma Root_bound par x r n : Root par x r n -> n < size par.
Proof.
  intros HR. destruct (Root_chain _ _ _ _ HR) as (l & Hlen & Hnd & Hl).
  assert (Hsub : list_to_set l ⊆ dom par).
  { intros y Hy. apply elem_of_list_to_set in Hy. destruct (Hl _ Hy) as (m & _ & HRm).
    apply elem_of_dom. by eapply Root_dom. }
  apply subseteq_size in Hsub. rewrite size_list_to_set in Hsub by done.
  rewrite size_dom in Hsub. lia.
Qed.

(** Two parent maps with the same roots. *)
Definition same_roots par par' : Prop := forall x r, (exists n, Root par x r n) <-> (exists n, Root par' x r n).

Lemma uf_walk_ok fuel par last rest root r n :
  par !! last = Some root -> Root par last r n -> n <= fuel ->
  exists path, uf_walk fuel par last rest root = Ok (path, r) /\
    (forall y, y ∈ path -> y ∈ rest \/ exists m, Root par y r m) /\ last ∈ path.
Proof.
  revert last rest root n. induction fuel as [|fuel IH]; intros last rest root n Hpar HR Hn; cbn [uf_walk].
  - assert (n = 0) as -> by lia. inversion HR; simplify_eq.
    rewrite decide_True by done. eexists; split; [done|]. split; [|set_solver].
    intros y [->|?]%elem_of_cons; [right; eauto|by left].
  - destruct (decide (root = last)) as [->|Hne].
    + inversion HR; simplify_eq. eexists; split; [done|]. split; [|set_solver].
      intros y [->|?]%elem_of_cons; [right; eauto|by left].
    + inversion HR as [|? p ? m Hp Hpne HRp]; simplify_eq.
      destruct (Root_dom _ _ _ _ HRp) as [root' Hroot']. rewrite Hroot'.
      destruct (IH root (last :: rest) root' m Hroot' HRp ltac:(lia)) as (path & Heq & Hpath & _).
      exists path. split; [done|].
      assert (Hin : forall fuel par last rest root path r, uf_walk fuel par last rest root = Ok (path, r) ->
                forall y, y ∈ last :: rest -> y ∈ path).
      { clear. induction fuel as [|fuel IH]; intros par last rest root path r Hw y Hy; cbn [uf_walk] in Hw;
          case_decide; simplify_eq; try done.
        destruct (par !! root) as [root'|]; [|done].
        eapply IH; [exact Hw|]. by apply elem_of_cons; right. }
      split.
      * intros y Hy. destruct (Hpath y Hy) as [[->|?]%elem_of_cons|?]; [right; eauto|by left|by right].
      * eapply Hin; [exact Heq|]. set_solver.
Qed.

Lemma lookup_compress par path root y :
  uf_compress par path root !! y = if decide (y ∈ path) then Some root else par !! y.
Proof.
  unfold uf_compress. induction path as [|a path IH]; cbn [foldr].
  - by rewrite decide_False by set_solver.
  - destruct (decide (y = a)) as [->|Hne].
    + rewrite lookup_insert. by rewrite decide_True by set_solver.
    + rewrite lookup_insert_ne by done. rewrite IH. by repeat case_decide; set_solver.
Qed.

Lemma compress_same_roots par path root :
  (forall y, y ∈ path -> exists m, Root par y root m) -> par !! root = Some root ->
  same_roots par (uf_compress par path root).
Proof.
  intros Hpath Hroot.
  assert (Hr' : uf_compress par path root !! root = Some root).
  { rewrite lookup_compress. by case_decide. }
  assert (Hup : forall x n r, Root par x r n -> exists m, Root (uf_compress par path root) x r m).
  { intros x n r HR. induction HR as [x Hx|x p r n Hx Hne HR (m & IH)].
    - exists 0. constructor. rewrite lookup_compress. case_decide as Hin; [|done].
      destruct (Hpath _ Hin) as [m HRm].
      destruct (Root_det _ _ _ _ _ _ HRm (Root_here _ _ Hx)). by subst.
    - destruct (decide (x ∈ path)) as [Hin|Hnin].
      + destruct (Hpath _ Hin) as [k HRk].
        destruct (Root_det _ _ _ _ _ _ HRk (Root_up _ _ _ _ _ Hx Hne HR)) as [-> _].
        destruct (decide (r = x)) as [->|Hrx].
        * exfalso. apply Root_root in HR. congruence.
        * exists 1. eapply (Root_up _ x r); [|done|by constructor].
          rewrite lookup_compress. by rewrite decide_True.
      + exists (S m). eapply (Root_up _ x p); [|done|done].
        rewrite lookup_compress. by rewrite decide_False. }
  intros x r. split.
  - intros [n HR]. eauto.
  - assert (Htot : forall x r n, Root (uf_compress par path root) x r n -> exists r' n', Root par x r' n').
    { intros y r0 n0 HR0. induction HR0 as [y Hy|y p r0 n0 Hy Hne HR0 (r' & n' & IH)].
      - rewrite lookup_compress in Hy. case_decide as Hin; [destruct (Hpath _ Hin); eauto|].
        eexists _, _. by constructor.
      - rewrite lookup_compress in Hy. case_decide as Hin; [destruct (Hpath _ Hin); eauto|].
        eexists _, _. by eapply Root_up. }
    intros [n HR]. destruct (Htot _ _ _ HR) as (r' & n' & HR').
    destruct (Hup _ _ _ HR') as [m HRm]. destruct (Root_det _ _ _ _ _ _ HR HRm) as [-> _]. eauto.
Qed.

(** Well-formed structure: three views of the same key set, every key has a root. *)
Record wf u : Prop := {
  wf_nodup : NoDup (uf_keys u);
  wf_keys x : x ∈ uf_keys u <-> is_Some (uf_parents u !! x);
  wf_weights x : is_Some (uf_weights u !! x) <-> is_Some (uf_parents u !! x);
  wf_root x : is_Some (uf_parents u !! x) -> exists r n, Root (uf_parents u) x r n }.

Definition hasroot u x r : Prop := exists n, Root (uf_parents u) x r n.

Lemma hasroot_det u x r r' : hasroot u x r -> hasroot u x r' -> r = r'.
Proof. intros [n Hn] [m Hm]. by destruct (Root_det _ _ _ _ _ _ Hn Hm). Qed.

Lemma hasroot_known u x r : wf u -> hasroot u x r -> x ∈ uf_keys u /\ r ∈ uf_keys u /\ hasroot u r r.
Proof.
  intros Hwf [n Hn]. rewrite !(wf_keys _ Hwf). split; [by eapply Root_dom|].
  pose proof (Root_root _ _ _ _ Hn) as Hr. split; [eauto|]. exists 0. by constructor.
Qed.

Lemma wf_empty : wf uf_empty.
Proof.
  split; simpl; intros; rewrite ?lookup_empty; try (split; [set_solver|intros [? ?]; done]).
  - apply NoDup_nil_2.
  - by split; intros [? ?].
  - match goal with H : is_Some _ |- _ => destruct H; done end.
Qed.

(** [__getitem__] on a known item: returns its root, changes nothing observable. *)
Lemma uf_find_known u x : wf u -> x ∈ uf_keys u ->
  exists u' r, uf_find u x = Ok (u', r) /\ wf u' /\ hasroot u x r /\ uf_keys u' = uf_keys u /\
    uf_weights u' = uf_weights u /\ same_roots (uf_parents u) (uf_parents u').
Proof.
  intros Hwf Hx. apply (wf_keys _ Hwf) in Hx as Hsome.
  destruct Hsome as [p Hp]. destruct (wf_root _ Hwf x ltac:(eauto)) as (r & n & HR).
  unfold uf_find. rewrite Hp.
  pose proof (Root_bound _ _ _ _ HR) as Hb.
  destruct (uf_walk_ok (size (uf_parents u)) (uf_parents u) x [] p r n Hp HR ltac:(lia)) as (path & Heq & Hpath & Hin).
  rewrite Heq. simpl. eexists _, r. split; [done|].
  assert (Hpath' : forall y, y ∈ path -> exists m, Root (uf_parents u) y r m).
  { intros y Hy. destruct (Hpath y Hy) as [?|?]; [set_solver|done]. }
  pose proof (compress_same_roots _ _ _ Hpath' (Root_root _ _ _ _ HR)) as Hsame.
  assert (Hdom : forall y, is_Some (uf_compress (uf_parents u) path r !! y) <-> is_Some (uf_parents u !! y)).
  { intros y. rewrite lookup_compress. case_decide as Hy; [|done].
    destruct (Hpath' _ Hy) as [m Hm]. apply Root_dom in Hm. split; eauto. }
  split_and!; simpl; try done; [|by exists n].
  destruct Hwf as [Hnd Hk Hw Hr]. split; simpl.
  - done.
  - intros y. by rewrite Hdom.
  - intros y. by rewrite Hdom.
  - intros y Hy%Hdom. destruct (Hr y Hy) as (r' & n' & HR'). exists r'. apply Hsame. eauto.
Qed.

Lemma uf_find_new u x : wf u -> x ∉ uf_keys u ->
  exists u', uf_find u x = Ok (u', x) /\ wf u' /\ uf_keys u' = uf_keys u ++ [x] /\
    (forall y r, hasroot u' y r <-> hasroot u y r \/ (y = x /\ r = x)).
Proof.
  intros Hwf Hx. unfold uf_find.
  assert (Hn : uf_parents u !! x = None).
  { apply eq_None_not_Some. by rewrite <- (wf_keys _ Hwf). }
  rewrite Hn. eexists. split; [done|]. simpl.
  assert (Hroots : forall y r, (exists n, Root (<[x:=x]> (uf_parents u)) y r n) <-> hasroot u y r \/ (y = x /\ r = x)).
  { intros y r. split.
    - intros [n HR]. induction HR as [y Hy|y p r n Hy Hne HR IH].
      + apply lookup_insert_Some in Hy as [[-> _]|[Hne Hy]]; [by right|]. left. exists 0. by constructor.
      + apply lookup_insert_Some in Hy as [[-> ->]|[Hyx Hy]]; [done|].
        destruct IH as [[m Hm]|[-> ->]].
        * left. exists (S m). by eapply Root_up.
        * exfalso. destruct (wf_root _ Hwf y ltac:(eauto)) as (r' & n' & HR').
          inversion HR'; simplify_eq. match goal with HR2 : Root _ x _ _ |- _ => apply Root_dom in HR2 as [? HR2]; congruence end.
    - intros [[n HR]|[-> ->]].
      + exists n. induction HR as [y Hy|y p r n Hy Hne HR IH].
        * constructor. rewrite lookup_insert_ne; [done|]. intros ->. congruence.
        * eapply Root_up; [|done|done]. rewrite lookup_insert_ne; [done|]. intros ->. congruence.
      + exists 0. constructor. apply lookup_insert. }
  split_and!; [|done|done].
  destruct Hwf as [Hnd Hk Hw Hr]. split; simpl.
  - apply NoDup_app. split; [done|]. split; [|apply NoDup_singleton]. set_solver.
  - intros y. rewrite elem_of_app, elem_of_list_singleton, Hk. rewrite lookup_insert_is_Some. naive_solver.
  - intros y. rewrite !lookup_insert_is_Some, Hw. done.
  - intros y Hy. destruct (decide (y = x)) as [->|Hne].
    + exists x. apply Hroots. by right.
    + rewrite lookup_insert_ne in Hy by done. destruct (Hr y Hy) as (r & n & HR).
      exists r. apply Hroots. left. by exists n.
Qed.

Definition keys_after (keys : list K) (x : K) : list K := if decide (x ∈ keys) then keys else keys ++ [x].

(** Both cases together. *)
Lemma uf_find_spec u x : wf u ->
  exists u' r, uf_find u x = Ok (u', r) /\ wf u' /\ hasroot u' x r /\ uf_keys u' = keys_after (uf_keys u) x /\
    (forall y s, hasroot u' y s <-> hasroot u y s \/ (x ∉ uf_keys u /\ y = x /\ s = x)).
Proof.
  intros Hwf. unfold keys_after. case_decide as Hx.
  - destruct (uf_find_known u x Hwf Hx) as (u' & r & Hf & Hwf' & Hr & Hk & _ & Hs).
    exists u', r. split_and!; try done.
    + destruct Hr as [n Hr]. apply Hs. by exists n.
    + intros y s. split; [intros Hy; left; by apply Hs|]. intros [Hy|[? _]]; [by apply Hs|done].
  - destruct (uf_find_new u x Hwf Hx) as (u' & Hf & Hwf' & Hk & Hs).
    exists u', x. split_and!; try done.
    + apply Hs. by right.
    + intros y s. rewrite Hs. naive_solver.
Qed.

Lemma uf_finds_spec u xs : wf u ->
  exists u' rs, uf_finds u xs = Ok (u', rs) /\ wf u' /\ Forall2 (hasroot u') xs rs /\
    uf_keys u' = foldl keys_after (uf_keys u) xs /\
    (forall y s, hasroot u' y s <-> hasroot u y s \/ (y ∉ uf_keys u /\ y ∈ xs /\ s = y)).
Proof.
  revert u. induction xs as [|x xs IH]; intros u Hwf; simpl.
  - exists u, []. split_and!; try done. intros; set_solver.
  - destruct (uf_find_spec u x Hwf) as (u1 & r & Hf & Hwf1 & Hr & Hk & Hs). rewrite Hf. simpl.
    destruct (IH u1 Hwf1) as (u2 & rs & Hfs & Hwf2 & Hrs & Hks & Hss). rewrite Hfs. simpl.
    exists u2, (r :: rs). split_and!; try done.
    + constructor; [|done]. apply Hss. by left.
    + rewrite Hks, Hk. done.
    + intros y s. rewrite Hss, Hs, Hk. unfold keys_after.
      rewrite elem_of_cons. destruct (decide (x ∈ uf_keys u)) as [Hx|Hx].
      * split; [tauto|]. intros [?|(? & [->|?] & ->)]; tauto.
      * rewrite elem_of_app, elem_of_list_singleton. split; [naive_solver|].
        intros [?|(? & [->|?] & ->)]; [tauto|tauto|]. destruct (decide (y = x)) as [->|]; tauto.
Qed.

Lemma uf_weights_of_spec u rs : wf u -> (forall r, r ∈ rs -> r ∈ uf_keys u) ->
  exists l, uf_weights_of u rs = Ok l /\ l.*2 = rs.
Proof.
  intros Hwf. induction rs as [|r rs IH]; intros Hin; simpl; [by exists []|].
  destruct IH as (l & Hl & Hl2); [set_solver|].
  assert (Hw : is_Some (uf_weights u !! r)).
  { apply (wf_weights _ Hwf), (wf_keys _ Hwf). set_solver. }
  destruct Hw as [w Hw]. rewrite Hw. simpl. rewrite Hl. simpl.
  eexists. split; [done|]. by rewrite <- Hl2.
Qed.

Lemma link_roots par r h : par !! h = Some h -> (par !! r = Some r \/ par !! r = Some h) -> r <> h ->
  (forall x, is_Some (par !! x) -> exists q n, Root par x q n) ->
  forall x s, (exists n, Root (<[r:=h]> par) x s n) <->
    (exists q, (exists n, Root par x q n) /\ s = if decide (q = r) then h else q).
Proof.
  intros Hh Hr Hne Htot.
  assert (Hh' : <[r:=h]> par !! h = Some h) by (by rewrite lookup_insert_ne).
  assert (Hup : forall x q n, Root par x q n -> exists m, Root (<[r:=h]> par) x (if decide (q = r) then h else q) m).
  { intros x q n HR. induction HR as [x Hx|x p q n Hx Hpx HR (m & IH)].
    - case_decide as Hxr.
      + subst x. exists 1. eapply (Root_up _ r h); [apply lookup_insert|done|by constructor].
      + exists 0. constructor. by rewrite lookup_insert_ne.
    - destruct (decide (x = r)) as [->|Hxr].
      + destruct Hr as [Hr|Hr]; [congruence|]. assert (p = h) as -> by congruence.
        destruct (Root_det _ _ _ _ _ _ HR (Root_here _ _ Hh)) as [-> _].
        rewrite decide_False by done. exists 1.
        eapply (Root_up _ r h); [apply lookup_insert|done|by constructor].
      + exists (S m). eapply (Root_up _ x p); [by rewrite lookup_insert_ne|done|done]. }
  intros x s. split.
  - intros [n HR].
    assert (Hx : is_Some (par !! x)).
    { apply Root_dom in HR. destruct (decide (x = r)) as [->|Hxr]; [destruct Hr; eauto|].
      by rewrite lookup_insert_ne in HR. }
    destruct (Htot x Hx) as (q & k & HRq). exists q. split; [eauto|].
    destruct (Hup _ _ _ HRq) as [m Hm]. by destruct (Root_det _ _ _ _ _ _ HR Hm).
  - intros (q & [n HR] & ->). eauto.
Qed.

Lemma uf_link_spec u h rs : wf u -> hasroot u h h ->
  (forall r, r ∈ rs -> hasroot u r r \/ hasroot u r h) ->
  (forall r, r ∈ rs -> uf_parents u !! r = Some r \/ uf_parents u !! r = Some h) ->
  exists u', uf_link u h rs = Ok u' /\ wf u' /\ uf_keys u' = uf_keys u /\
    (forall x s, hasroot u' x s <-> exists q, hasroot u x q /\ s = if decide (q ∈ rs) then h else q).
Proof.
  revert u. induction rs as [|r rs IH]; intros u Hwf Hh Hrs Hpar; cbn [uf_link].
  { exists u. split_and!; try done. intros x s. split; [intros ?; exists s; by rewrite decide_False by set_solver|].
    intros (q & Hq & ->). by rewrite decide_False by set_solver. }
  assert (Hhp : uf_parents u !! h = Some h) by (destruct Hh as [? Hh]; by apply Root_root in Hh).
  case_decide as Hrh.
  - subst r. destruct (IH u Hwf Hh) as (u' & Hl & Hwf' & Hk & Hs); [set_solver..|].
    exists u'. split_and!; try done. intros x s. rewrite Hs.
    split; intros (q & Hq & ->); exists q; (split; [done|]); repeat case_decide; set_solver.
  - assert (Hwh : is_Some (uf_weights u !! h)) by (apply (wf_weights _ Hwf); eauto).
    assert (Hpr : uf_parents u !! r = Some r \/ uf_parents u !! r = Some h) by set_solver.
    assert (Hwr : is_Some (uf_weights u !! r)) by (apply (wf_weights _ Hwf); destruct Hpr; eauto).
    destruct Hwh as [wh Hwh], Hwr as [wr Hwr]. rewrite Hwh, Hwr. cbn [of_option res_bind].
    set (u1 := UF (uf_keys u) (<[r:=h]> (uf_parents u)) (<[h:=wh + wr]> (uf_weights u))).
    pose proof (link_roots (uf_parents u) r h Hhp Hpr Hrh (wf_root _ Hwf)) as Hlink.
    assert (Hlink' : forall x s, hasroot u1 x s <-> exists q, hasroot u x q /\ s = if decide (q = r) then h else q) by exact Hlink.
    assert (Hwf1 : wf u1).
    { destruct Hwf as [Hnd Hk Hw Hr]. split; simpl.
      - done.
      - intros y. rewrite lookup_insert_is_Some, Hk. destruct (decide (r = y)) as [->|]; naive_solver.
      - intros y. rewrite !lookup_insert_is_Some, Hw.
        destruct (decide (r = y)) as [->|], (decide (h = y)) as [->|]; naive_solver.
      - intros y Hy. assert (is_Some (uf_parents u !! y)) as (q & n & HR)%Hr.
        { apply lookup_insert_is_Some in Hy. destruct (decide (r = y)) as [->|]; naive_solver. }
        eexists. apply Hlink. eexists. split; [by exists n|done]. }
    destruct (IH u1 Hwf1) as (u' & Hl & Hwf' & Hk & Hs).
    + apply Hlink. exists h. split; [done|]. by rewrite decide_False.
    + intros r' Hr'. rewrite !Hlink'.
      destruct (decide (r' = r)) as [->|Hr'r].
      * right. destruct (Hrs r ltac:(set_solver)) as [Hrr|Hrr].
        -- exists r. split; [done|]. by rewrite decide_True.
        -- exists h. split; [done|]. by rewrite decide_False.
      * destruct (Hrs r' ltac:(set_solver)) as [Hrr|Hrr].
        -- left. exists r'. split; [done|]. by rewrite decide_False.
        -- right. exists h. split; [done|]. by rewrite decide_False.
    + intros r' Hr'. simpl. destruct (decide (r' = r)) as [->|Hr'r]; [right; apply lookup_insert|].
      rewrite lookup_insert_ne by done. set_solver.
    + exists u'. split_and!; try done. intros x s. rewrite Hs. setoid_rewrite Hlink'. split.
      * intros (q & (q' & Hq' & ->) & ->). exists q'. split; [done|].
        destruct (decide (q' = r)) as [->|Hq'r].
        -- rewrite (decide_True (P := r ∈ r :: rs)) by set_solver. by case_decide.
        -- repeat case_decide; set_solver.
      * intros (q & Hq & ->). eexists. split; [exists q; split; [done|reflexivity]|].
        destruct (decide (q = r)) as [->|Hqr].
        -- rewrite (decide_True (P := r ∈ r :: rs)) by set_solver. by case_decide.
        -- repeat case_decide; set_solver.
Qed.

(** ** The closure of the unions *)
Implicit Types h : list (uf_op K).

Lemma linked_trans h a b c : linked h a b -> linked h b c -> linked h a c.
Proof. induction 1; intros; [done|]. econstructor; eauto. Qed.
Lemma united_sym h a b : united h a b -> united h b a.
Proof. intros (xs & ? & ? & ?). by exists xs. Qed.
Lemma linked_sym h a b : linked h a b -> linked h b a.
Proof.
  induction 1 as [|a b c Hu Hl IH]; [constructor|].
  eapply linked_trans; [done|]. econstructor; [by apply united_sym|constructor].
Qed.
Lemma united_app_l h h2 a b : united h a b -> united (h ++ h2) a b.
Proof. intros (xs & ? & ? & ?). exists xs. set_solver. Qed.
Lemma linked_app_l h h2 a b : linked h a b -> linked (h ++ h2) a b.
Proof. induction 1; [constructor|]. econstructor; eauto using united_app_l. Qed.
Lemma linked_mentioned h a b : linked h a b -> a = b \/ (mentioned h a /\ mentioned h b).
Proof.
  assert (Hm : forall x y, united h x y -> mentioned h x /\ mentioned h y).
  { intros x y (xs & ? & ? & ?). split; exists (OpUnion xs); done. }
  induction 1 as [|a b c Hu Hl IH]; [by left|]. right.
  destruct (Hm _ _ Hu). destruct IH as [->|[? ?]]; done.
Qed.

Lemma linked_find h x a b : linked (h ++ [OpFind x]) a b <-> linked h a b.
Proof.
  split; [|apply linked_app_l]. induction 1 as [|a b c (xs & Hin & ? & ?) _ IH]; [constructor|].
  econstructor; [|done]. exists xs. split; [set_solver|done].
Qed.

(** Adding a union call merges the classes of its arguments and nothing else. *)
Lemma linked_union h xs a b : linked (h ++ [OpUnion xs]) a b <->
  linked h a b \/ (exists x y, x ∈ xs /\ y ∈ xs /\ linked h a x /\ linked h y b).
Proof.
  split.
  - induction 1 as [a|a b c (zs & Hin & Ha & Hb) _ IH]; [left; constructor|].
    apply elem_of_app in Hin as [Hin|Hin%elem_of_list_singleton].
    + assert (Hl : linked h a b) by (econstructor; [by exists zs|constructor]).
      destruct IH as [IH|(x & y & ? & ? & ? & ?)]; [left; by eapply linked_trans|].
      right. exists x, y. split_and!; try done. by eapply linked_trans.
    + simplify_eq. right. destruct IH as [IH|(x & y & ? & ? & ? & ?)].
      * exists a, b. split_and!; try done. constructor.
      * exists a, y. split_and!; try done. constructor.
  - intros [Hl|(x & y & Hx & Hy & Hax & Hyb)]; [by apply linked_app_l|].
    eapply linked_trans; [by apply linked_app_l|]. econstructor; [|by apply linked_app_l].
    exists xs. set_solver.
Qed.

(** Refinement invariant: the structure represents exactly the history. *)
Record rep h u : Prop := {
  rep_wf : wf u;
  rep_keys x : x ∈ uf_keys u <-> mentioned h x;
  rep_linked a b ra rb : hasroot u a ra -> hasroot u b rb -> (ra = rb <-> linked h a b) }.

Lemma mentioned_snoc h o x : mentioned (h ++ [o]) x <->
  mentioned h x \/ match o with OpFind y => y = x | OpUnion xs => x ∈ xs end.
Proof. unfold mentioned. setoid_rewrite elem_of_app. setoid_rewrite elem_of_list_singleton. naive_solver. Qed.

Lemma rep_empty : rep [] uf_empty.
Proof.
  split; [apply wf_empty| |].
  - intros x; split; [set_solver|]. intros (o & Ho & _). set_solver.
  - intros a b ra rb [n HR]. apply Root_dom in HR as [? HR]. done.
Qed.

Lemma keys_after_elem keys x y : y ∈ keys_after keys x <-> y ∈ keys \/ y = x.
Proof. unfold keys_after. case_decide; set_solver. Qed.
Lemma keys_after_fold keys xs y : y ∈ foldl keys_after keys xs <-> y ∈ keys \/ y ∈ xs.
Proof.
  revert keys. induction xs as [|x xs IH]; intros keys; simpl; [set_solver|].
  rewrite IH, keys_after_elem. set_solver.
Qed.

(** Looking items up represents the same equivalence. *)
Lemma rep_extended h u u' (ys : list K) : rep h u -> wf u' ->
  (forall y, y ∈ uf_keys u' <-> y ∈ uf_keys u \/ y ∈ ys) ->
  (forall y s, hasroot u' y s <-> hasroot u y s \/ (y ∉ uf_keys u /\ y ∈ ys /\ s = y)) ->
  forall a b ra rb, hasroot u' a ra -> hasroot u' b rb -> (ra = rb <-> linked h a b).
Proof.
  intros Hrep Hwf' Hk Hs a b ra rb Ha Hb. pose proof (rep_wf _ _ Hrep) as Hwf.
  apply Hs in Ha as [Ha|(Han & Hay & ->)]; apply Hs in Hb as [Hb|(Hbn & Hby & ->)].
  - by apply (rep_linked _ _ Hrep).
  - destruct (hasroot_known _ _ _ Hwf Ha) as (Hak & Hrak & _). split.
    + intros ->. done.
    + intros Hl. exfalso. destruct (linked_mentioned _ _ _ Hl) as [->|[_ Hm]]; [done|].
      by apply (rep_keys _ _ Hrep) in Hm.
  - destruct (hasroot_known _ _ _ Hwf Hb) as (Hbk & Hrbk & _). split.
    + intros ->. done.
    + intros Hl. exfalso. destruct (linked_mentioned _ _ _ Hl) as [->|[Hm _]]; [done|].
      by apply (rep_keys _ _ Hrep) in Hm.
  - split; [intros ->; constructor|]. intros Hl.
    destruct (linked_mentioned _ _ _ Hl) as [->|[Hm _]]; [done|].
    by apply (rep_keys _ _ Hrep) in Hm.
Qed.

Lemma rep_find h u x : rep h u ->
  exists u' r, uf_find u x = Ok (u', r) /\ rep (h ++ [OpFind x]) u' /\ hasroot u' x r /\
    uf_keys u' = keys_after (uf_keys u) x /\
    (forall y s, hasroot u y s -> hasroot u' y s).
Proof.
  intros Hrep. pose proof (rep_wf _ _ Hrep) as Hwf.
  destruct (uf_find_spec u x Hwf) as (u' & r & Hf & Hwf' & Hr & Hk & Hs).
  exists u', r. split_and!; try done; [|intros; apply Hs; by left]. split; [done| |].
  - intros y. rewrite Hk, keys_after_elem, mentioned_snoc, (rep_keys _ _ Hrep). naive_solver.
  - intros a b ra rb Ha Hb. rewrite linked_find.
    eapply (rep_extended h u u' [x]); try done.
    + intros y. rewrite Hk, keys_after_elem. set_solver.
    + intros y s. rewrite Hs. set_solver.
Qed.

Variable gtk : K -> K -> bool.
Lemma uf_max_in c l : (uf_max gtk c l) ∈ c :: l.
Proof.
  revert c. induction l as [|[w r] l IH]; intros [bw br]; simpl; [set_solver|].
  pose proof (IH (w, r)). pose proof (IH (bw, br)). repeat case_match; set_solver.
Qed.

(** Meaning of one [union] call: the classes of its arguments become one class, the rest is untouched. *)
Lemma uf_union_spec u xs : wf u -> xs <> [] ->
  exists u' (h : K), uf_union gtk u xs = Ok u' /\ wf u' /\ uf_keys u' = foldl keys_after (uf_keys u) xs /\
    (exists u1 rs, uf_finds u xs = Ok (u1, rs) /\ wf u1 /\ Forall2 (hasroot u1) xs rs /\ h ∈ rs /\
      (forall y s, hasroot u1 y s <-> hasroot u y s \/ (y ∉ uf_keys u /\ y ∈ xs /\ s = y)) /\
      (forall x s, hasroot u' x s <-> exists q, hasroot u1 x q /\ s = if decide (q ∈ rs) then h else q)).
Proof.
  intros Hwf Hne. destruct (uf_finds_spec u xs Hwf) as (u1 & rs & Hf & Hwf1 & Hrs & Hk & Hs).
  unfold uf_union. rewrite Hf. simpl.
  assert (Hroots : forall r, r ∈ rs -> hasroot u1 r r).
  { intros r Hr. apply elem_of_list_lookup in Hr as [i Hi].
    destruct (Forall2_lookup_r _ _ _ _ _ Hrs Hi) as (x & Hx & [n HR]).
    exists 0. constructor. by eapply Root_root. }
  destruct (uf_weights_of_spec u1 rs Hwf1) as (l & Hl & Hl2).
  { intros r Hr. destruct (Hroots r Hr) as [n HR]. apply (wf_keys _ Hwf1). by eapply Root_dom. }
  rewrite Hl. simpl. destruct l as [|c l].
  { simpl in Hl2. subst rs. inversion Hrs. congruence. }
  assert (Hh : (uf_max gtk c l).2 ∈ rs).
  { rewrite <- Hl2. apply elem_of_list_fmap. eexists; split; [done|]. apply uf_max_in. }
  destruct (uf_link_spec u1 (uf_max gtk c l).2 rs Hwf1) as (u' & Hu' & Hwf' & Hk' & Hs').
  - by apply Hroots.
  - intros r Hr. left. by apply Hroots.
  - intros r Hr. left. destruct (Hroots r Hr) as [n HR]. by apply Root_root in HR.
  - exists u', (uf_max gtk c l).2. split_and!; try done; [by rewrite Hk', Hk|].
    exists u1, rs. split_and!; done.
Qed.

Lemma rep_union h u xs : rep h u -> xs <> [] ->
  exists u', uf_union gtk u xs = Ok u' /\ rep (h ++ [OpUnion xs]) u' /\
    uf_keys u' = foldl keys_after (uf_keys u) xs /\
    (forall y s, hasroot u y s -> (forall x, x ∈ xs -> ~ linked h y x) -> hasroot u' y s).
Proof.
  intros Hrep Hne. pose proof (rep_wf _ _ Hrep) as Hwf.
  destruct (uf_union_spec u xs Hwf Hne) as (u' & top & Hu & Hwf' & Hk & u1 & rs & Hf & Hwf1 & Hrs & Htop & Hs1 & Hs').
  exists u'. split; [done|].
  assert (Hlink1 : forall a b ra rb, hasroot u1 a ra -> hasroot u1 b rb -> (ra = rb <-> linked h a b)).
  { eapply (rep_extended h u u1 xs); try done.
    destruct (uf_finds_spec u xs Hwf) as (u1' & rs' & Hf' & _ & _ & Hk1 & _). rewrite Hf in Hf'. simplify_eq.
    intros y. by rewrite Hk1, keys_after_fold. }
  assert (Hin : forall a q, hasroot u1 a q -> (q ∈ rs <-> exists x, x ∈ xs /\ linked h a x)).
  { intros a q Ha. split.
    - intros [i Hi]%elem_of_list_lookup. destruct (Forall2_lookup_r _ _ _ _ _ Hrs Hi) as (x & Hx & Hxr).
      exists x. split; [by eapply elem_of_list_lookup_2|]. by eapply Hlink1.
    - intros (x & [i Hi]%elem_of_list_lookup & Hl). destruct (Forall2_lookup_l _ _ _ _ _ Hrs Hi) as (r & Hr & Hxr).
      assert (q = r) as -> by (by apply (Hlink1 _ _ _ _ Ha Hxr)). by eapply elem_of_list_lookup_2. }
  split.
  { split; [done| |].
    - intros y. rewrite Hk, keys_after_fold, mentioned_snoc, (rep_keys _ _ Hrep). done.
    - intros a b ra rb Ha Hb. apply Hs' in Ha as (qa & Ha & ->). apply Hs' in Hb as (qb & Hb & ->).
      rewrite linked_union. pose proof (Hlink1 _ _ _ _ Ha Hb) as Hab.
      pose proof (Hin _ _ Ha) as HIa. pose proof (Hin _ _ Hb) as HIb.
      destruct (decide (qa ∈ rs)) as [Hqa|Hqa], (decide (qb ∈ rs)) as [Hqb|Hqb].
      + split; [|done]. intros _. right. apply HIa in Hqa as (x & Hx & Hax). apply HIb in Hqb as (y & Hy & Hby).
        exists x, y. split_and!; try done. by apply linked_sym.
      + split.
        * intros <-. done.
        * intros [Hl|(x & y & Hx & Hy & Hax & Hyb)].
          -- apply Hab in Hl. congruence.
          -- exfalso. apply Hqb, HIb. exists y. split; [done|]. by apply linked_sym.
      + split.
        * intros ->. done.
        * intros [Hl|(x & y & Hx & Hy & Hax & Hyb)].
          -- apply Hab in Hl. congruence.
          -- exfalso. apply Hqa, HIa. by exists x.
      + rewrite Hab. split; [by left|]. intros [Hl|(x & y & Hx & Hy & Hax & Hyb)]; [done|].
        exfalso. apply Hqa, HIa. by exists x. }
  split; [done|]. intros y s Hy Hnl. apply Hs'. exists s. split; [apply Hs1; by left|].
  rewrite decide_False; [done|]. intros Hin'. apply (Hin y) in Hin'; [|apply Hs1; by left].
  destruct Hin' as (x & Hx & Hl). by eapply Hnl.
Qed.

Lemma linked_union_nil h a b : linked (h ++ [OpUnion []]) a b <-> linked h a b.
Proof. rewrite linked_union. split; [|by left]. intros [?|(x & y & Hx & _)]; [done|set_solver]. Qed.

Lemma rep_step h u o : rep h u ->
  rep (h ++ [o]) (uf_step gtk u o).1 /\
  (uf_step gtk u o).2 <> Err KeyError /\ (uf_step gtk u o).2 <> Err Diverges.
Proof.
  intros Hrep. destruct o as [x|xs]; simpl.
  - destruct (rep_find h u x Hrep) as (u' & r & Hf & Hr & _). rewrite Hf. done.
  - destruct xs as [|x xs].
    + simpl. split; [|done]. destruct Hrep as [Hwf Hk Hl]. split; [done| |].
      * intros y. rewrite Hk, mentioned_snoc. set_solver.
      * intros a b ra rb Ha Hb. rewrite linked_union_nil. by apply Hl.
    + destruct (rep_union h u (x :: xs) Hrep) as (u' & Hf & Hr & _); [done|]. rewrite Hf. done.
Qed.

Lemma rep_run h0 h u : rep h0 u -> rep (h0 ++ h) (uf_run gtk h u).
Proof.
  revert h0 u. induction h as [|o h IH]; intros h0 u Hrep; [by rewrite app_nil_r|].
  rewrite cons_middle, app_assoc. apply IH. by apply rep_step.
Qed.

Lemma rep_run_empty h : rep h (uf_run gtk h uf_empty).
Proof. apply (rep_run [] h), rep_empty. Qed.

Lemma rep_member h u x r : rep h u -> hasroot u x r -> linked h x r.
Proof.
  intros Hrep Hr. destruct (hasroot_known _ _ _ (rep_wf _ _ Hrep) Hr) as (_ & _ & Hrr).
  by apply (rep_linked _ _ Hrep x r r r Hr Hrr).
Qed.

(** Main statements *)
Lemma uf_equivalence h a b :
  let u := uf_run gtk h uf_empty in
  exists u1 ra u2 rb, uf_find u a = Ok (u1, ra) /\ uf_find u1 b = Ok (u2, rb) /\
    (ra = rb <-> linked h a b) /\ linked h a ra /\ (mentioned h ra \/ ra = a).
Proof.
  intros u. pose proof (rep_run_empty h) as Hrep. fold u in Hrep.
  destruct (rep_find h u a Hrep) as (u1 & ra & Hf1 & Hrep1 & Hr1 & Hk1 & _).
  destruct (rep_find _ u1 b Hrep1) as (u2 & rb & Hf2 & Hrep2 & Hr2 & _ & Hmono).
  exists u1, ra, u2, rb. split_and!; try done.
  - rewrite (rep_linked _ _ Hrep2 a b ra rb (Hmono _ _ Hr1) Hr2). by rewrite !linked_find.
  - eapply linked_find, rep_member; done.
  - destruct (hasroot_known _ _ _ (rep_wf _ _ Hrep1) Hr1) as (_ & Hin & _).
    rewrite Hk1, keys_after_elem in Hin. destruct Hin as [Hin|Hin]; [left|by right].
    by apply (rep_keys _ _ Hrep).
Qed.

Lemma uf_never_stuck h o : let u := uf_run gtk h uf_empty in
  match (uf_step gtk u o).2 with
  | Ok _ => o <> OpUnion []
  | Err e => o = OpUnion [] /\ e = ValueError /\ (uf_step gtk u o).1 = u
  end.
Proof.
  intros u. pose proof (rep_run_empty h) as Hrep. fold u in Hrep.
  destruct o as [x|[|x xs]]; simpl.
  - destruct (rep_find h u x Hrep) as (u' & r & Hf & Hr & _). by rewrite Hf.
  - done.
  - destruct (rep_union h u (x :: xs) Hrep) as (u' & Hf & Hr & _); [done|]. by rewrite Hf.
Qed.

(** Names are stable: an operation that does not merge [a]'s set keeps [a]'s name. *)
Lemma uf_name_stable h o a u1 r : mentioned h a ->
  (forall xs x, o = OpUnion xs -> x ∈ xs -> ~ linked h a x) ->
  uf_find (uf_run gtk h uf_empty) a = Ok (u1, r) ->
  exists u2, uf_find (uf_run gtk (h ++ [o]) uf_empty) a = Ok (u2, r).
Proof.
  intros Ha Hno Hfind. pose proof (rep_run_empty h) as Hrep. set (u := uf_run gtk h uf_empty) in *.
  assert (Hr : hasroot u a r).
  { destruct (uf_find_known u a (rep_wf _ _ Hrep)) as (u' & r' & Hf & _ & Hr & _);
      [by apply (rep_keys _ _ Hrep)|]. congruence. }
  assert (Hrun : uf_run gtk (h ++ [o]) uf_empty = (uf_step gtk u o).1).
  { unfold u, uf_run. by rewrite foldl_app. }
  rewrite Hrun. destruct (rep_step h u o Hrep) as [Hrep' _].
  assert (Hr' : hasroot (uf_step gtk u o).1 a r).
  { destruct o as [x|[|x xs]]; simpl.
    - destruct (rep_find h u x Hrep) as (u' & r' & Hf & _ & _ & _ & Hm). rewrite Hf. simpl. by apply Hm.
    - done.
    - destruct (rep_union h u (x :: xs) Hrep) as (u' & Hf & _ & _ & Hm); [done|]. rewrite Hf. simpl.
      apply Hm; [done|]. intros y Hy. by eapply Hno. }
  destruct (hasroot_known _ _ _ (rep_wf _ _ Hrep') Hr') as (Hk & _ & _).
  destruct (uf_find_known _ a (rep_wf _ _ Hrep') Hk) as (u' & r' & Hf & _ & Hr'' & _).
  exists u'. rewrite Hf. by rewrite (hasroot_det _ _ _ _ Hr' Hr'').
Qed.

(** Iterating over the structure yields each mentioned item once, in the order of first mention. *)
Lemma uf_iter h : NoDup (uf_keys (uf_run gtk h uf_empty)) /\
  (forall x, x ∈ uf_keys (uf_run gtk h uf_empty) <-> mentioned h x).
Proof. pose proof (rep_run_empty h) as Hrep. split; [apply (rep_wf _ _ Hrep)|apply (rep_keys _ _ Hrep)]. Qed.
End Proofs.
