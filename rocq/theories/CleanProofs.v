(** Proofs about the cleaning and the pruning of depth maps *)
From stdpp Require Import prelude.
From Coq Require Import Reals Lra Psatz.
From Verif Require Import Base Lin PixelModel RecProofs DenseModel DenseSpec DenseProofs DenseProps.
Local Open Scope R_scope.

Lemma z_epsilon_pos : 0 < / 10 ^ 8. Proof. apply Rinv_0_lt_compat. lra. Qed.
Lemma seen_project K Rm t X x y d : d <> 0 -> seen K Rm t X x y d -> Project X K Rm t = Vec (d * x) (d * y) d.
Proof. done. Qed.
Lemma project_seen K Rm t X : vz (Project X K Rm t) <> 0 -> seen K Rm t X (vx (Project X K Rm t) / vz (Project X K Rm t)) (vy (Project X K Rm t) / vz (Project X K Rm t)) (vz (Project X K Rm t)).
Proof. intros H. by apply C81_project. Qed.
Lemma consistent_agrees th X o : consistent th X o = true <-> agrees (LinearInterpolation (dv_depth o)) (dv_K o) (dv_R o) (dv_t o) X th.
Proof.
  pose proof z_epsilon_pos as P. unfold consistent, agrees, z_epsilon. cbv zeta. split.
  - destruct (Rlt_dec _ _) as [|L]; [done|]. destruct (Rlt_dec _ _) as [A|]; [intros _|done]. eexists _, _, _. split; [apply project_seen; lra|]. split; [lra|]. lra.
  - intros (x & y & d & S & D & A). assert (d <> 0) as D0 by lra. rewrite (seen_project _ _ _ _ _ _ _ D0 S). cbn [vx vy vz]. destruct (Rlt_dec _ _); [lra|].
    replace (d * y / d) with y by (field; lra). replace (d * x / d) with x by (field; lra). destruct (Rlt_dec _ _); [done|lra].
Qed.
Lemma filter_at_least {A} (P : A -> Prop) (Q : A -> Prop) `{forall a, Decision (P a)} l n : (forall a, P a <-> Q a) -> (n <= length (filter P l))%nat <-> at_least n Q l.
Proof.
  intros HPQ. split.
  - intros Hn. assert (exists ks : list nat, NoDup ks /\ length ks = length (filter P l) /\ forall k, k ∈ ks -> exists a, l !! k = Some a /\ P a) as (ks & ND & L & H0).
    { clear Hn. induction l as [|a l (ks & ND & L & H0)]; [exists []; split; [constructor|]; split; [done|]; by intros k ?%elem_of_nil|].
      assert (NoDup (S <$> ks)) as ND' by (apply NoDup_fmap_2; [intros ??; lia|done]).
      assert (forall k, k ∈ S <$> ks -> exists a0, (a :: l) !! k = Some a0 /\ P a0) as H1 by (intros k (k' & -> & Hk)%elem_of_list_fmap; by apply H0).
      rewrite filter_cons. destruct (decide (P a)) as [Pa|Pa].
      - exists (0%nat :: (S <$> ks)). split; [constructor; [by intros (? & ? & ?)%elem_of_list_fmap|done]|]. split; [cbn; by rewrite fmap_length, L|]. intros k [-> |Hk]%elem_of_cons; [by exists a|by apply H1].
      - exists (S <$> ks). split; [done|]. split; [by rewrite fmap_length|done]. }
    exists ks. split; [done|]. split; [lia|]. intros k Hk. destruct (H0 k Hk) as (a & ? & ?). exists a. split; [done|by apply HPQ].
  - intros (ks & ND & L & H0). eapply Nat.le_trans; [exact L|]. clear L n. revert ks ND H0. induction l as [|a l IH]; intros ks ND H0.
    + destruct ks as [|k ks]; [done|]. destruct (H0 k) as (? & ? & _); [left|]. done.
    + assert (length ks <= (if decide (P a) then 1 else 0) + length (filter (fun k => k <> 0%nat) ks))%nat as Q1.
      { destruct (decide (P a)) as [Pa|Pa].
        - clear -ND. induction ND as [|k ks Hk ND IH]; [cbn; lia|]. rewrite filter_cons. destruct (decide (k <> 0%nat)); [cbn in *; lia|].
          assert (k = 0%nat) as -> by lia. assert (filter (fun k => k <> 0%nat) ks = ks) as ->; [|cbn; lia].
          clear -Hk. induction ks as [|k ks IH]; [done|]. rewrite filter_cons. rewrite decide_True by (intros ->; apply Hk; left). f_equal. apply IH. intros ?. apply Hk. by right.
        - assert (filter (fun k => k <> 0%nat) ks = ks) as ->; [|cbn; lia]. assert (0%nat ∉ ks) as Hk. { intros Hk. destruct (H0 0%nat Hk) as (a' & [= <-] & Q'). by apply Pa, HPQ. }
          clear -Hk. induction ks as [|k ks IH]; [done|]. rewrite filter_cons. rewrite decide_True by (intros ->; apply Hk; left). f_equal. apply IH. intros ?. apply Hk. by right. }
      assert (length (filter (fun k => k <> 0%nat) ks) <= length (filter P l))%nat as Q2.
      { rewrite <-(fmap_length pred). apply IH.
        - assert (forall k, k ∈ filter (fun k => k <> 0%nat) ks -> k <> 0%nat) as NZ by (intros k Hk%elem_of_list_filter; tauto). pose proof (NoDup_filter (fun k => k <> 0%nat) ks ND) as NF.
          revert NZ NF. generalize (filter (fun k => k <> 0%nat) ks). clear. intros l NZ NF. induction NF as [|k l Hk NF IH]; [constructor|]. cbn. constructor.
          + intros (k' & E & Hk')%elem_of_list_fmap. assert (k <> 0%nat) by (apply NZ; left). assert (k' <> 0%nat) by (apply NZ; by right). assert (k = k') as -> by lia. done.
          + apply IH. intros. apply NZ. by right.
        - intros k (k' & -> & [Hk1 Hk2]%elem_of_list_filter)%elem_of_list_fmap. destruct k' as [|k']; [done|]. cbn. by apply (H0 (S k')). }
      rewrite filter_cons. destruct (decide (P a)); cbn; lia.
Qed.
(** ** Nearest pixels *)
Lemma to_int_id n : (- 2 ^ 31 <= n < 2 ^ 31)%Z -> to_int n = n.
Proof. intros H. unfold to_int. rewrite Z.mod_small; lia. Qed.
Lemma trunc_half u (j : Z) : - 1 / 2 <= u -> trunc (u + 1 / 2) = j <-> IZR j - 1 / 2 <= u < IZR j + 1 / 2.
Proof.
  intros H. destruct (trunc_spec (u + 1 / 2) ltac:(lra)) as [T _]. split.
  - intros <-. lra.
  - intros Hj. apply trunc_unique; lra.
Qed.
Definition reachable_index (u : R) : Prop := -1 / 2 <= u < 2147483647.
Lemma index_ok u : reachable_index u -> exists j, to_int (trunc (u + 1 / 2)) = j /\ IZR j - 1 / 2 <= u < IZR j + 1 / 2.
Proof.
  intros [L U]. exists (trunc (u + 1 / 2)). destruct (trunc_spec (u + 1 / 2) ltac:(lra)) as [T N]. split; [|lra]. apply to_int_id.
  assert (IZR (trunc (u + 1 / 2)) < IZR 2147483648) as B by lra. apply lt_IZR in B. lia.
Qed.
Lemma index_unique u (j j' : Z) : IZR j - 1 / 2 <= u < IZR j + 1 / 2 -> IZR j' - 1 / 2 <= u < IZR j' + 1 / 2 -> j = j'.
Proof.
  intros H1 H2. assert (IZR j < IZR j' + 1) as A by lra. assert (IZR j' < IZR j + 1) as B by lra. rewrite <-plus_IZR in A, B. apply lt_IZR in A, B. lia.
Qed.
Local Instance Rlt_decision x y : Decision (x < y) := Rlt_dec x y.
(** ** Chains of ever better pixels end *)
Section Chain.
Context {A : Type}.
Variable weight : A -> R.
Variable next : A -> A -> Prop.
Variable good : A -> Prop.
Inductive leads : A -> A -> Prop :=
| leads_refl a : leads a a
| leads_next a b c : next a b -> weight a < weight b -> leads b c -> leads a c.
Lemma heavier_bound (l : list A) : exists m, forall a, a ∈ l -> weight a <= m.
Proof.
  induction l as [|a l (m & Hm)]; [exists 0; by intros ? ?%elem_of_nil|]. exists (Rmax (weight a) m). intros b [-> |Hb]%elem_of_cons; [apply Rmax_l|]. eapply Rle_trans; [by apply Hm|apply Rmax_r].
Qed.
Lemma chain_ends (l : list A) : (forall a, a ∈ l -> ~ good a -> exists b, b ∈ l /\ next a b /\ weight a < weight b) -> (forall a, good a \/ ~ good a) ->
  forall a, a ∈ l -> exists c, c ∈ l /\ leads a c /\ good c.
Proof.
  intros Hstep Hdec.
  assert (forall n a, a ∈ l -> (length (filter (fun b => bool_decide (weight a < weight b)%R = true) l) < n)%nat -> exists c, c ∈ l /\ leads a c /\ good c) as G; [|intros a Ha; eapply G; [done|apply Nat.lt_succ_diag_r]].
  induction n as [|n IH]; [lia|]. intros a Ha Hn. destruct (Hdec a) as [Ga|Ga]; [exists a; split; [done|]; split; [constructor|done]|].
  destruct (Hstep a Ha Ga) as (b & Hb & Nx & W). destruct (IH b Hb) as (c & Hc & Lc & Gc); [|exists c; split; [done|]; split; [by eapply leads_next|done]].
  eapply Nat.lt_le_trans; [|apply Nat.lt_succ_r, Hn]. clear -Hb W.
  assert (forall l', (length (filter (fun c => bool_decide (weight b < weight c)%R = true) l') <= length (filter (fun c => bool_decide (weight a < weight c)%R = true) l'))%nat) as M.
  { intros l'. induction l' as [|c l' IH]; [done|]. rewrite !filter_cons. destruct (decide (bool_decide (weight b < weight c)%R = true)) as [E|E].
    - rewrite decide_True; [cbn; lia|]. apply bool_decide_eq_true in E. apply bool_decide_eq_true. lra.
    - destruct (decide _); cbn; lia. }
  induction l as [|c l IH]; [by apply elem_of_nil in Hb|]. apply elem_of_cons in Hb as [<- |Hb].
  - rewrite !filter_cons. rewrite decide_False by (rewrite bool_decide_eq_true; lra). rewrite decide_True by (by rewrite bool_decide_eq_true). cbn. specialize (M l). lia.
  - specialize (IH Hb). rewrite !filter_cons. destruct (decide (bool_decide (weight b < weight c)%R = true)) as [E|E].
    + rewrite decide_True; [cbn; lia|]. apply bool_decide_eq_true in E. apply bool_decide_eq_true. lra.
    + destruct (decide _); cbn; lia.
Qed.
End Chain.
