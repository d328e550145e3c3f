(** Invariants of the feature extraction threads. *)
From stdpp Require Import prelude list strings.
From Coq Require Import Permutation.
From Verif Require Import Base FeatProcModel FeatProcSpec.

Definition cnt (x : string) (l : list string) : nat := count_occ String.string_dec l x.
Lemma cnt_app x l1 l2 : cnt x (l1 ++ l2) = cnt x l1 + cnt x l2.
Proof. apply count_occ_app. Qed.
Lemma cnt_cons x y l : cnt x (y :: l) = cnt x [y] + cnt x l.
Proof. apply (cnt_app x [y] l). Qed.
Lemma cnt_nil x : cnt x [] = 0.
Proof. done. Qed.
Lemma cnt_perm l1 l2 : (forall x, cnt x l1 = cnt x l2) -> l1 ≡ₚ l2.
Proof. intros H. by apply (Permutation_count_occ String.string_dec). Qed.
Definition qimgs (q : list (option string)) : list string := omap id q.
Definition qnones (q : list (option string)) : nat := length (filter (fun o => o = None) q).
Lemma qimgs_app q1 q2 : qimgs (q1 ++ q2) = qimgs q1 ++ qimgs q2.
Proof. apply omap_app. Qed.
Lemma qnones_app q1 q2 : qnones (q1 ++ q2) = qnones q1 + qnones q2.
Proof. unfold qnones. by rewrite filter_app, app_length. Qed.
Lemma qnones_some x : qnones [Some x] = 0.
Proof. done. Qed.
Lemma qnones_none : qnones [None] = 1.
Proof. done. Qed.
Lemma q_length q : length q = length (qimgs q) + qnones q.
Proof. induction q as [|[x|] q IH]; [done|..]; unfold qnones, qimgs in *; rewrite filter_cons; case_decide; try done; cbn in *; lia. Qed.

(** what a thread holds or owes *)
Definition rest_of (t : thread) : list string := match t with PPut x l => x :: l | PInc l | PLock l | PVal l | PRel _ l | PNone l => l | _ => [] end.
Definition held (t : thread) : list string := match t with CDet x => [x] | _ => rest_of t end.
Definition uninc (t : thread) : nat := match t with PInc l => S (length l) | _ => length (rest_of t) end.
Definition is_rel (t : thread) : nat := match t with PRel _ _ => 1 | _ => 0 end.
Definition locked (t : thread) : nat := match t with PVal _ | PRel _ _ => 1 | _ => 0 end.
Definition tok (t : thread) : nat := match t with PNone _ | CPut => 1 | _ => 0 end.
Definition cend (t : thread) : nat := match t with CPut | CDone => 1 | _ => 0 end.
Definition ptok (t : thread) : nat := match t with PDone | CGet | CDet _ | CDone => 0 | _ => 1 end.
Definition wit (N : nat) (t : thread) : nat := match t with PLock _ | PVal _ => 1 | PRel v _ => if decide (v = N) then 1 else 0 | _ => 0 end.
Definition isprod (t : thread) : bool := match t with CGet | CDet _ | CPut | CDone => false | _ => true end.
Definition tot (f : thread -> nat) (L : list thread) : nat := sum_list_with f L.
Lemma tot_app f L1 L2 : tot f (L1 ++ L2) = tot f L1 + tot f L2.
Proof. apply sum_list_with_app. Qed.
Lemma tot_cons f t L : tot f (t :: L) = f t + tot f L.
Proof. done. Qed.
Lemma tot_elem f t L : t ∈ L -> f t <= tot f L.
Proof. induction 1 as [|t L u _ IH]; cbn; [lia|]. unfold tot in *. lia. Qed.
Lemma tot_zero f L : (forall t, t ∈ L -> f t = 0) -> tot f L = 0.
Proof.
  induction L as [|t L IH]; intros H; [done|]. rewrite tot_cons, H by by left. rewrite IH; [done|]. intros; apply H; by right.
Qed.

Section Inv.
Variable images : list string.
Variable cap rp procs : nat.
Notation N := (length images).

Record inv (s : shared) (L : list thread) : Prop := {
  i_cnt : forall x, cnt x (qimgs (queue s)) + cnt x (detected s) + tot (fun t => cnt x (held t)) L = cnt x images;
  i_raw : raw s + tot uninc L = N + nread s + tot is_rel L;
  i_le : tot uninc L <= N;
  i_lock : tot locked L = if lock s then 1 else 0;
  i_val : forall v l, PRel v l ∈ L -> v + tot uninc L <= N;
  i_none : 0 < qnones (queue s) + tot tok L + tot cend L -> tot uninc L = 0;
  i_fifo : exists l k, queue s = map Some l ++ replicate k None;
  i_end : 0 < tot cend L -> qimgs (queue s) = [];
  i_live : tot uninc L = 0 -> 0 < qnones (queue s) + tot tok L + tot (wit N) L;
  i_tok : qnones (queue s) + tot ptok L <= rp;
  i_kind : map isprod L = replicate rp true ++ replicate procs false }.

Lemma producer_facts rest : held (producer rest) = rest /\ uninc (producer rest) = length rest /\ is_rel (producer rest) = 0 /\ locked (producer rest) = 0 /\
  tok (producer rest) = 0 /\ cend (producer rest) = 0 /\ ptok (producer rest) <= 1 /\ wit N (producer rest) = 0 /\ isprod (producer rest) = true /\ (rest = [] -> ptok (producer rest) = 0).
Proof. destruct rest; cbn; split_and!; try done; lia. Qed.

Lemma kind_step L1 t t' L2 : isprod t' = isprod t -> map isprod (L1 ++ t :: L2) = replicate rp true ++ replicate procs false -> map isprod (L1 ++ t' :: L2) = replicate rp true ++ replicate procs false.
Proof. intros E. rewrite !map_app. cbn. by rewrite E. Qed.
Lemma fifo_snoc l k : map Some l ++ replicate k None ++ [@None string] = map Some l ++ replicate (S k) None.
Proof. f_equal. clear. induction k as [|k IH]; [done|]. cbn. by rewrite IH. Qed.
Lemma fifo_none (l : list string) k : qnones (map Some l ++ replicate k None) = k.
Proof.
  rewrite qnones_app. assert (qnones (map Some l) = 0) as ->.
  { induction l as [|x l IH]; [done|]. unfold qnones in *. cbn [map]. rewrite filter_cons. by case_decide. }
  induction k as [|k IH]; [done|]. unfold qnones in *. cbn [replicate]. rewrite filter_cons. case_decide; [|done]. cbn. cbn in IH. lia.
Qed.
Lemma fifo_imgs (l : list string) k : qimgs (map Some l ++ replicate k None) = l.
Proof.
  rewrite qimgs_app. assert (qimgs (replicate k None) = []) as -> by (induction k; done). rewrite app_nil_r. unfold qimgs. induction l as [|x l IH]; [done|]. cbn in *. by rewrite IH.
Qed.

Ltac prep := rewrite ?tot_app, ?tot_cons in *; cbn [held rest_of uninc is_rel locked tok cend ptok wit queue raw nread lock detected length] in *.
Ltac same := match goal with H : forall x, cnt x _ + _ + _ = _ |- forall x, cnt x _ + _ + _ = _ => let y := fresh in intros y; specialize (H y); prep; lia end.
Ltac vals := match goal with H : forall v l, PRel v l ∈ ?A ++ ?B -> _ |- forall v l, PRel v l ∈ _ -> _ =>
  let v := fresh in let l := fresh in let Hin := fresh in intros v l Hin; assert (PRel v l ∈ A ++ B) as Hin' by (rewrite elem_of_app, elem_of_cons in Hin; rewrite elem_of_app; destruct Hin as [?|[?|?]]; [by left|discriminate|by right]); specialize (H _ _ Hin'); prep; lia end.
Lemma inv_step s t s' t' L1 L2 : tstep cap N s t s' t' -> inv s (L1 ++ t :: L2) -> inv s' (L1 ++ t' :: L2).
Proof.
  intros Hstep [Hcnt Hraw Hle Hlock Hval Hnone Hfifo Hend Hlive Htok Hkind].
  assert (forall v l, PRel v l ∈ L1 ++ L2 -> v + tot uninc (L1 ++ t :: L2) <= N) as Hval'.
  { intros v l H. apply (Hval v l). set_solver. }
  destruct Hstep as [q r n k d x rest Hroom|q r n k d rest|q r n d rest|q r n k d rest|q r n k d v rest|q r n k d rest Hroom|x q r n k d|q r n k d|x q r n k d|q r n k d Hroom].
  - (* put an image *) prep. destruct Hfifo as (l & m & ->).
    assert (m = 0) as ->. { rewrite fifo_none in Hnone. destruct m; [done|]. lia. }
    split; prep.
    + intros y. specialize (Hcnt y). rewrite qimgs_app, cnt_app. prep. rewrite cnt_cons in Hcnt. unfold qimgs at 2. cbn [omap list_omap id]. lia.
    + lia.
    + lia.
    + lia.
    + vals.
    + rewrite qnones_app, ?qnones_some, ?qnones_none. lia.
    + exists (l ++ [x]), 0. cbn. by rewrite !app_nil_r, map_app.
    + intros Hc. lia.
    + lia.
    + rewrite qnones_app, ?qnones_some, ?qnones_none. lia.
    + by eapply kind_step; [|exact Hkind].
  - (* increment *) split; prep; try done; try lia; try same; try vals.
    by eapply kind_step; [|exact Hkind].
  - (* lock *) split; prep; try done; try lia; try same; try vals.
    by eapply kind_step; [|exact Hkind].
  - (* value *) assert (tot is_rel L1 + tot is_rel L2 = 0) as Hrel.
    { assert (forall L, tot is_rel L <= tot locked L) as Hrl. { induction L as [|t L IH]; [done|]. rewrite !tot_cons. destruct t; cbn; lia. }
      prep. pose proof (Hrl L1). pose proof (Hrl L2). destruct k; lia. }
    split; prep; try done; try lia; try same; try vals.
    + intros v l' Hin. rewrite elem_of_app, elem_of_cons in Hin. destruct Hin as [Hin|[[= -> ->]|Hin]].
      * assert (PRel v l' ∈ L1 ++ L2) as H by set_solver. specialize (Hval' _ _ H). prep. lia.
      * lia.
      * assert (PRel v l' ∈ L1 ++ L2) as H by set_solver. specialize (Hval' _ _ H). prep. lia.
    + intros Hz. case_decide; [lia|]. exfalso. lia.
    + by eapply kind_step; [|exact Hkind].
  - (* release *) assert (v + tot uninc (L1 ++ PRel v rest :: L2) <= N) as Hv by (apply (Hval v rest); set_solver).
    destruct (producer_facts rest) as (F1 & F2 & F3 & F4 & F5 & F6 & F7 & F8 & F9 & F10).
    destruct (decide (v = N)) as [->|Hne].
    + split; prep; try done; try lia; try same; try vals.
      * destruct k; lia.
      * by eapply kind_step; [|exact Hkind].
    + split; prep; rewrite ?F1, ?F2, ?F3, ?F4, ?F5, ?F6, ?F8; try done; try lia.
      * intros y. rewrite tot_app, tot_cons, F1. specialize (Hcnt y). prep. lia.
      * destruct k; lia.
      * intros v' l' Hin. assert (PRel v' l' ∈ L1 ++ L2) as H. { destruct rest; set_solver. } specialize (Hval' _ _ H). prep. lia.
      * rewrite decide_False in Hlive by done. lia.
      * by eapply kind_step; [|exact Hkind].
  - (* put None *) destruct (producer_facts rest) as (F1 & F2 & F3 & F4 & F5 & F6 & F7 & F8 & F9 & F10). prep.
    assert (tot uninc L1 + (length rest + tot uninc L2) = 0) as Hz by (apply Hnone; lia).
    assert (rest = []) as -> by (destruct rest; [done|]; cbn in Hz; lia). specialize (F10 eq_refl).
    destruct Hfifo as (l & m & ->).
    split; prep; rewrite ?F3, ?F4, ?F5, ?F6, ?F8; try done; try lia; try vals.
    + intros y. specialize (Hcnt y). rewrite qimgs_app, cnt_app. prep. unfold qimgs at 2. cbn [omap list_omap id producer held rest_of]. rewrite !cnt_nil in *. lia.
    + exists l, (S m). rewrite <- fifo_snoc. by rewrite app_assoc.
    + rewrite qimgs_app. intros Hc. unfold qimgs at 2. cbn. rewrite app_nil_r. apply Hend. lia.
    + rewrite qnones_app, ?qnones_some, ?qnones_none. lia.
    + rewrite qnones_app, ?qnones_some, ?qnones_none. lia.
    + by eapply kind_step; [|exact Hkind].
  - (* get an image *) prep. destruct Hfifo as (l & m & Hq). destruct l as [|y l]; cbn in Hq; [destruct m; done|]. injection Hq as <- ->.
    assert (qnones (Some x :: map Some l ++ replicate m None) = qnones (map Some l ++ replicate m None)) as Hn by (unfold qnones; rewrite filter_cons; by case_decide).
    assert (qimgs (Some x :: map Some l ++ replicate m None) = x :: l) as Hi by apply (fifo_imgs (x :: l) m).
    rewrite Hn, Hi in *.
    split; prep; try done; try lia; try same; try vals.
    + intros z. specialize (Hcnt z). rewrite fifo_imgs. rewrite cnt_cons in Hcnt. pose proof (cnt_nil z). prep. lia.
    + eauto.
    + intros Hc. specialize (Hend Hc). done.
    + by eapply kind_step; [|exact Hkind].
  - (* get None *) prep. destruct Hfifo as (l & m & Hq). destruct l as [|y l]; cbn in Hq; [|done]. destruct m as [|m]; [done|]. injection Hq as ->.
    assert (qnones (None :: replicate m (@None string)) = S m) as Hn by apply (fifo_none [] (S m)).
    assert (qnones (replicate m (@None string)) = m) as Hn' by apply (fifo_none [] m).
    assert (qimgs (None :: replicate m None) = []) as Hi by apply (fifo_imgs [] (S m)).
    assert (qimgs (replicate m None) = []) as Hi' by apply (fifo_imgs [] m).
    rewrite Hn, Hi in *. split; prep; rewrite ?Hn', ?Hi'; try done; try lia; try same; try vals.
    + exists [], m. done.
    + by eapply kind_step; [|exact Hkind].
  - (* detect *) prep. split; prep; try done; try lia; try same; try vals.
    + intros y. specialize (Hcnt y). pose proof (cnt_nil y). rewrite cnt_app. prep. lia.
    + by eapply kind_step; [|exact Hkind].
  - (* stop *) prep. destruct Hfifo as (l & m & ->).
    split; prep; try done; try lia; try same; try vals.
    + intros y. specialize (Hcnt y). rewrite qimgs_app, cnt_app. unfold qimgs at 2. cbn [omap list_omap id]. pose proof (cnt_nil y). prep. lia.
    + exists l, (S m). rewrite <- fifo_snoc. by rewrite app_assoc.
    + intros _. rewrite qimgs_app. unfold qimgs at 2. cbn. rewrite app_nil_r. apply Hend. lia.
    + rewrite qnones_app, ?qnones_some, ?qnones_none. lia.
    + rewrite qnones_app, ?qnones_some, ?qnones_none. lia.
    + by eapply kind_step; [|exact Hkind].
Qed.

Definition fresh (t : thread) : Prop := t = CGet \/ exists x l, t = PPut x l.
Definition sinv (st : state) : Prop := inv (sh st) (running st ++ waiting st) /\ Forall fresh (waiting st).
Lemma sinv_step jobs st st' : step cap N jobs st st' -> sinv st -> sinv st'.
Proof.
  intros Hs [Hi Hf]. destruct Hs as [s s' ts1 t t' ts2 w Ht|s ts t w Ha]; cbn in *.
  - split; [|done]. cbn. rewrite <- app_assoc in *. cbn in *. by eapply inv_step.
  - split; cbn; [by rewrite <- app_assoc|]. by apply Forall_cons in Hf as [_ Hf].
Qed.

Lemma tot_pos f L : 0 < tot f L -> exists t, t ∈ L /\ 0 < f t.
Proof.
  induction L as [|t L IH]; cbn; [lia|]. intros H. destruct (decide (0 < f t)); [exists t; split; [by left|done]|].
  destruct IH as (u & Hu & ?); [unfold tot; lia|]. exists u. split; [by right|done].
Qed.
Lemma thread_step jobs s ts w t s' t' : t ∈ ts -> tstep cap N s t s' t' -> exists st', step cap N jobs (State s ts w) st'.
Proof. intros (ts1 & ts2 & ->)%elem_of_list_split H. eexists. by constructor. Qed.

Lemma kinds L : map isprod L = replicate rp true ++ replicate procs false ->
  length (filter (fun t => isprod t = true) L) = rp /\ length (filter (fun t => isprod t = false) L) = procs.
Proof.
  intros H. assert (forall b L, length (filter (fun t => isprod t = b) L) = length (filter (fun c => c = b) (map isprod L))) as E.
  { intros b L'. induction L' as [|t L' IH]; [done|]. cbn [map]. rewrite !filter_cons. destruct (decide (isprod t = b)); cbn [length]; by rewrite ?IH. }
  rewrite !E, H, !filter_app, !app_length.
  assert (forall (b c : bool) n, length (filter (fun x => x = b) (replicate n c)) = if decide (c = b) then n else 0) as R.
  { intros b c n. induction n as [|n IH]; [by case_decide|]. cbn [replicate]. rewrite filter_cons. destruct (decide (c = b)); cbn [length]; by rewrite IH. }
  rewrite !R. repeat case_decide; try congruence; split; lia.
Qed.
Lemma waiting_consumers ts w t : map isprod (ts ++ w) = replicate rp true ++ replicate procs false -> t ∈ ts -> isprod t = false -> forall u, u ∈ w -> isprod u = false.
Proof.
  intros H Ht Hp u Hu. apply elem_of_list_lookup in Ht as [i Hi], Hu as [j Hj].
  assert (forall k x, (ts ++ w) !! k = Some x -> isprod x = if decide (k < rp) then true else false) as K.
  { intros k x Hk. assert (map isprod (ts ++ w) !! k = Some (isprod x)) as Hm by by rewrite list_lookup_fmap, Hk.
    rewrite H in Hm. case_decide.
    - rewrite lookup_app_l in Hm by by rewrite replicate_length. rewrite lookup_replicate_2 in Hm by done. by injection Hm.
    - rewrite lookup_app_r in Hm by (rewrite replicate_length; lia). apply lookup_replicate in Hm as [-> _]. done. }
  pose proof (K i t) as K1. rewrite lookup_app_l in K1 by by eapply lookup_lt_Some. specialize (K1 Hi). rewrite Hp in K1. case_decide; [done|].
  pose proof (K (length ts + j) u) as K2. rewrite lookup_app_r in K2 by lia. replace (length ts + j - length ts) with j in K2 by lia. specialize (K2 Hj).
  pose proof (lookup_lt_Some _ _ _ Hi). case_decide; [lia|done].
Qed.

Global Instance thread_eq_dec : EqDecision thread.
Proof. solve_decision. Defined.
Definition putter (t : thread) : Prop := match t with PPut _ _ | PNone _ | CPut => True | _ => False end.
Global Instance putter_dec t : Decision (putter t).
Proof. destruct t; cbn; apply _. Defined.
Definition easy (t : thread) : Prop := match t with PInc _ | PVal _ | PRel _ _ | CDet _ => True | _ => False end.
Global Instance easy_dec t : Decision (easy t).
Proof. destruct t; cbn; apply _. Defined.
Definition at_lock (t : thread) : Prop := match t with PLock _ => True | _ => False end.
Global Instance at_lock_dec t : Decision (at_lock t).
Proof. destruct t; cbn; apply _. Defined.

Lemma putter_step jobs s ts w t : putter t -> t ∈ ts -> room cap (queue s) -> exists st', step cap N jobs (State s ts w) st'.
Proof.
  intros Hp Ht Hr. destruct s as [q r n k d]. cbn in Hr. destruct t; try done; (eapply thread_step; [exact Ht|by constructor]).
Qed.

Lemma progress jobs st : sinv st -> rp < jobs -> 1 <= rp -> 1 <= procs -> cap = 0 \/ rp <= cap -> final st \/ exists st', step cap N jobs st st'.
Proof.
  destruct st as [s ts w]. intros [Hinv Hfresh] Hjobs Hrp Hprocs Hcap. cbn in *.
  destruct Hinv as [Hcnt Hraw Hle Hlock Hval Hnone Hfifo Hend Hlive Htok Hkind].
  destruct (decide (Exists easy ts)) as [He|He].
  { right. apply Exists_exists in He as (t & Ht & He). destruct s as [q r n k d]. destruct t; try done; (eapply thread_step; [exact Ht|by constructor]). }
  assert (forall t, t ∈ ts -> ~ easy t) as Hne by (intros t Ht Hx; apply He, Exists_exists; eauto). clear He.
  destruct (decide (Exists at_lock ts)) as [He|He].
  { right. apply Exists_exists in He as (t & Ht & He). destruct t as [| |rest| | | | | | | |]; try done. destruct s as [q r n k d]. cbn in Hlock. destruct k.
    - exfalso. destruct (tot_pos locked (ts ++ w)) as (u & Hu & Hl); [lia|]. apply elem_of_app in Hu as [Hu|Hu].
      + specialize (Hne u Hu). destruct u; cbn in *; try lia; by apply Hne.
      + rewrite Forall_forall in Hfresh. destruct (Hfresh u Hu) as [->|(? & ? & ->)]; cbn in Hl; lia.
    - eapply thread_step; [exact Ht|constructor]. }
  assert (forall t, t ∈ ts -> ~ at_lock t) as Hnl by (intros t Ht Hx; apply He, Exists_exists; eauto). clear He.
  destruct (decide (w <> [] /\ active ts < jobs)) as [[Hw Ha]|Hstart].
  { right. destruct w as [|t w]; [done|]. eexists. by apply step_start. }
  assert (w = [] \/ jobs <= active ts) as Hw by (destruct w; [by left|]; right; destruct (decide (jobs <= active ts)); [done|]; exfalso; apply Hstart; split; [done|lia]). clear Hstart.
  destruct (kinds _ Hkind) as [Hkp Hkc].
  assert (length (filter (fun t => isprod t = true) ts) <= rp) as Hprod by (rewrite <- Hkp, filter_app, app_length; lia).
  assert ((forall t, t ∈ ts -> finished t = false -> isprod t = true) -> active ts <= rp) as Hact.
  { intros H1. etrans; [|exact Hprod]. unfold active. clear -H1. induction ts as [|t ts IH]; [done|]. rewrite !filter_cons.
    assert (length (filter (fun t => finished t = false) ts) <= length (filter (fun t => isprod t = true) ts)) as IH'.
    { apply IH; intros; apply H1; [by right|done]. }
    destruct (decide (finished t = false)) as [Hf|Hf]; [|case_decide; cbn [length]; lia].
    rewrite decide_True by (apply (H1 t); [by left|done]). cbn [length]. lia. }
  (* what the waiting tasks contribute *)
  assert (forall u, u ∈ w -> u = CGet) as Hwait.
  { destruct Hw as [->|Hw]; [by intros u ?%elem_of_nil|]. intros u Hu.
    destruct (decide (Exists (fun t => isprod t = false) ts)) as [(t & Ht & Hp)%Exists_exists|Hno].
    - pose proof (waiting_consumers _ _ _ Hkind Ht Hp u Hu) as Hc. rewrite Forall_forall in Hfresh. destruct (Hfresh u Hu) as [->|(? & ? & ->)]; done.
    - exfalso. assert (active ts <= rp); [|lia]. apply Hact. intros t Ht _. destruct (isprod t) eqn:E; [done|]. exfalso. apply Hno, Exists_exists. eauto. }
  assert (forall f, f CGet = 0 -> tot f w = 0) as Hw0 by (intros f Hf; apply tot_zero; intros t Ht; by rewrite (Hwait t Ht)).
  destruct (decide (Exists putter ts)) as [Hput|Hput].
  - apply Exists_exists in Hput as (t & Ht & Hp).
    destruct (decide (cap = 0 \/ length (queue s) < cap)) as [Hroom|Hfull]; [right; by eapply putter_step|].
    assert (cap <> 0 /\ cap <= length (queue s)) as [Hc0 Hful] by lia. clear Hfull.
    destruct (decide (CGet ∈ ts)) as [Hget|Hget].
    + right. destruct s as [q r n k d]. cbn in Hful. destruct q as [|[x|] q]; [cbn in Hful; lia|..]; (eapply thread_step; [exact Hget|constructor]).
    + exfalso. assert (0 < tot cend (ts ++ w)) as Hce.
      { destruct (decide (CPut ∈ ts)) as [Hcp|Hcp].
        - rewrite tot_app. pose proof (tot_elem cend CPut ts Hcp) as Hx. cbn in Hx. lia.
        - assert (active ts <= rp) as Ha.
          { apply Hact. intros u Hu Hfu. specialize (Hne u Hu). destruct u; cbn in *; try done; by destruct Hne. }
          destruct Hw as [->|Hw]; [|lia]. rewrite app_nil_r in *.
          assert (exists u, u ∈ filter (fun t => isprod t = false) ts) as (u & [Hu1 Hu2]%elem_of_list_filter).
          { destruct (filter (fun t => isprod t = false) ts) as [|u l]; [cbn in Hkc; lia|]. exists u. by left. }
          specialize (Hne u Hu2). destruct u; cbn in *; try done; try by destruct Hne. pose proof (tot_elem cend CDone ts Hu2) as Hx. cbn in Hx. lia. }
      assert (tot uninc (ts ++ w) = 0) as Hu0 by (apply Hnone; lia).
      specialize (Hend Hce). pose proof (q_length (queue s)) as Hql. rewrite Hend in Hql. cbn in Hql.
      assert (1 <= tot ptok (ts ++ w)) as Hpt.
      { rewrite tot_app. pose proof (tot_elem ptok t ts Ht) as Hx. destruct t; cbn in *; try done; lia. }
      lia.
  - assert (forall t, t ∈ ts -> finished t = true \/ t = CGet) as Hall.
    { intros t Ht. specialize (Hne t Ht). specialize (Hnl t Ht). assert (~ putter t) as Hnp by (intros Hx; apply Hput, Exists_exists; eauto).
      destruct t; cbn in *; auto; tauto. }
    destruct (decide (CGet ∈ ts)) as [Hget|Hget].
    + right. destruct s as [q r n k d]. destruct q as [|[x|] q]; [exfalso|eapply thread_step; [exact Hget|constructor]..].
      assert (forall f, (forall t, finished t = true -> f t = 0) -> f CGet = 0 -> tot f (ts ++ w) = 0) as Hz.
      { intros f H1 H2. rewrite tot_app, (Hw0 f H2). rewrite tot_zero; [done|]. intros t Ht. destruct (Hall t Ht) as [Hf| ->]; auto. }
      cbn in Hlive. rewrite (Hz uninc), (Hz tok), (Hz (wit N)) in Hlive; [|try done; intros t; by destruct t..]. unfold qnones in Hlive. cbn in Hlive. lia.
    + left. split; cbn.
      * apply Forall_forall. intros t Ht. destruct (Hall t Ht) as [?| ->]; [done|by destruct Hget].
      * destruct Hw as [?|Hw]; [done|]. exfalso. assert (active ts = 0) as Ha; [|lia]. unfold active.
        assert (filter (fun t => finished t = false) ts = []) as ->; [|done]. apply (list.elem_of_nil_inv). intros t [Hf Ht]%elem_of_list_filter.
        destruct (Hall t Ht) as [?| ->]; [congruence|done].
Qed.
End Inv.

(** ** The measure *)
Definition weight (t : thread) : nat :=
  match t with
  | PPut _ l => 9 * S (length l) | PInc l => 9 * length l + 6 | PLock l => 9 * length l + 5 | PVal l => 9 * length l + 4
  | PRel _ l => 9 * length l + 3 | PNone l => 9 * length l + 2 | PDone => 0 | CGet => 3 | CDet _ => 4 | CPut => 2 | CDone => 0 end.
Definition qweight (q : list (option string)) : nat := sum_list_with (fun o : option string => if o then 2 else 1) q.
Definition measure (st : state) : nat := tot weight (running st ++ waiting st) + qweight (queue (sh st)) + length (waiting st).
Lemma measure_step cap expected jobs st st' : step cap expected jobs st st' -> measure st' < measure st.
Proof.
  assert (forall l, weight (producer l) = 9 * length l) as Hp by (intros [|x l]; cbn; lia).
  intros Hs. destruct Hs as [s s' ts1 t t' ts2 w Ht|s ts t w Ha]; unfold measure; cbn [sh running waiting].
  - rewrite !tot_app, !tot_cons. enough (weight t' + qweight (queue s') < weight t + qweight (queue s)) by lia.
    destruct Ht; unfold qweight; cbn [queue]; rewrite ?sum_list_with_app, ?Hp; cbn [weight sum_list_with]; try lia.
    case_decide; rewrite ?Hp; cbn [weight]; lia.
  - rewrite <- app_assoc. cbn [app length]. lia.
Qed.
Lemma measure_nsteps cap expected jobs n st st' : nsteps (step cap expected jobs) n st st' -> n + measure st' <= measure st.
Proof. induction 1 as [|n a b c H _ IH]; [done|]. apply measure_step in H. lia. Qed.

(** ** The plan *)
Lemma ceil_div_spec a b : 0 < b -> a <= b * ceil_div a b /\ b * ceil_div a b < a + b.
Proof.
  intros Hb. unfold ceil_div. pose proof (Nat.div_mod (a + b - 1) b) as H. pose proof (Nat.mod_upper_bound (a + b - 1) b). lia.
Qed.
Lemma mjoin_app {A} (l1 l2 : list (list A)) : mjoin (l1 ++ l2) = mjoin l1 ++ mjoin l2.
Proof. induction l1 as [|x l1 IH]; [done|]. cbn. rewrite <- app_assoc. f_equal. apply IH. Qed.
Lemma chunks_concat {A} (l : list A) cs m : mjoin (map (fun i => take ((i + 1) * cs - i * cs) (drop (i * cs) l)) (seq 0 m)) = take (m * cs) l.
Proof.
  induction m as [|m IH]; [done|]. rewrite seq_S, map_app, mjoin_app, IH. cbn. rewrite app_nil_r.
  replace ((m + 1) * cs - m * cs) with cs by lia. rewrite take_take_drop. f_equal. lia.
Qed.
Lemma plan_spec images procs readers chunks : 2 <= procs -> plan images procs readers = Ok chunks ->
  mjoin chunks = images /\ Forall (fun c => c <> []) chunks /\ 1 <= length chunks < procs /\ images <> [].
Proof.
  intros Hp. unfold plan. set (rp := if decide (2 * procs <= 3 * readers) then _ else _).
  assert (rp < procs) as Hrp.
  { unfold rp. case_decide; [|lia]. assert (procs / 2 < procs) by (apply Nat.div_lt; lia). lia. }
  case_decide as Hrp0; [done|]. set (cs := ceil_div (length images) rp). case_decide as Hcs; [done|]. set (cc := ceil_div (length images) cs).
  intros [= <-].
  pose proof (ceil_div_spec (length images) rp ltac:(lia)) as [H1 H2]. fold cs in H1, H2.
  pose proof (ceil_div_spec (length images) cs ltac:(lia)) as [H3 H4]. fold cc in H3, H4.
  assert (cc <= rp) as Hcc by nia. rewrite Nat.min_r by done.
  assert (0 < length images) as Hn by (destruct (length images) eqn:E; [exfalso; unfold cs, ceil_div in Hcs; rewrite Nat.div_small in Hcs by lia; done|lia]).
  split_and!.
  - rewrite chunks_concat. apply take_ge. lia.
  - apply Forall_forall. intros c (i & -> & Hi)%elem_of_list_fmap. apply elem_of_seq in Hi.
    intros Hnil%(f_equal length). rewrite take_length, drop_length in Hnil. cbn in Hnil. nia.
  - rewrite map_length, seq_length. nia.
  - rewrite map_length, seq_length. lia.
  - intros ->. cbn in Hn. lia.
Qed.

Lemma start_inv images procs chunks : mjoin chunks = images -> Forall (fun c => c <> []) chunks -> images <> [] ->
  sinv images (length chunks) procs (start images procs chunks).
Proof.
  intros Hj Hne Himg. unfold start. split; cbn [sh running waiting].
  2:{ apply Forall_app. split; [|apply Forall_replicate; by left]. apply Forall_forall. intros t (c & -> & Hc)%elem_of_list_fmap.
      rewrite Forall_forall in Hne. specialize (Hne c Hc). destruct c as [|x c]; [done|]. right. eauto. }
  assert (forall f, f CGet = 0 -> tot f (map producer chunks ++ replicate procs CGet) = tot f (map producer chunks)) as Hz.
  { intros f Hf. rewrite tot_app. rewrite (tot_zero f (replicate _ _)); [lia|]. intros t Ht. apply elem_of_replicate in Ht as [-> _]. done. }
  assert (forall f, (forall c, c <> [] -> f (producer c) = 0) -> tot f (map producer chunks) = 0) as Hz'.
  { intros f Hf. apply tot_zero. intros t (c & -> & Hc)%elem_of_list_fmap. apply Hf. rewrite Forall_forall in Hne. by apply Hne. }
  assert (tot uninc (map producer chunks) = length images) as Hu.
  { rewrite <- Hj. clear. induction chunks as [|c cs IH]; [done|]. cbn [map]. rewrite tot_cons, IH. cbn. rewrite app_length. destruct c; done. }
  assert (0 < length images) as Hlen by (destruct images; [done|cbn; lia]).
  cbn [app]. split; cbn [queue raw nread lock detected].
  - intros x. rewrite Hz by done. unfold qimgs. cbn. rewrite <- Hj. clear. induction chunks as [|c cs IH]; [done|]. cbn [map]. rewrite tot_cons. change (mjoin (c :: cs)) with (c ++ mjoin cs). rewrite cnt_app. change (tot _ (map producer cs)) with (cnt x [] + cnt x [] + tot (fun t => cnt x (held t)) (map producer cs)) in *. rewrite <- IH. destruct c; cbn; lia.
  - rewrite !Hz by done. rewrite Hu, (Hz' is_rel); [lia|]. by intros [|? ?].
  - rewrite !Hz by done. lia.
  - rewrite !Hz by done. apply Hz'. by intros [|? ?].
  - intros v l [Hin|Hin]%elem_of_app; [apply elem_of_list_fmap in Hin as (c & Hc & _); by destruct c|]. apply elem_of_replicate in Hin as [? _]; done.
  - rewrite !Hz by done. rewrite (Hz' tok), (Hz' cend) by (by intros [|? ?]). unfold qnones. cbn. lia.
  - exists [], 0. done.
  - done.
  - rewrite !Hz by done. rewrite Hu. lia.
  - rewrite !Hz by done. unfold qnones. cbn. clear. induction chunks as [|c cs IH]; [done|]. cbn [map]. rewrite tot_cons. destruct c; cbn in *; lia.
  - rewrite map_app. f_equal.
    + rewrite map_map. clear. induction chunks as [|c cs IH]; [done|]. cbn. f_equal; [by destruct c|done].
    + clear. induction procs as [|n IH]; [done|]. cbn. by f_equal.
Qed.
Lemma reachable_inv cap procs images chunks st : mjoin chunks = images -> Forall (fun c => c <> []) chunks -> images <> [] ->
  reachable cap procs images chunks st -> sinv images (length chunks) procs st.
Proof.
  intros Hj Hne Himg Hr. pose proof (start_inv images procs chunks Hj Hne Himg) as Hi. unfold reachable in Hr. induction Hr as [|a b c Hab _ IH]; [done|].
  apply IH. by eapply sinv_step.
Qed.

(** ** Executable steps *)
Definition full (cap : nat) (q : list (option string)) : bool := negb (bool_decide (cap = 0 \/ length q < cap)).
Definition tnext (cap expected : nat) (s : shared) (t : thread) : option (shared * thread) :=
  let '(Shared q r n k d) := s in
  match t with
  | PPut x rest => if full cap q then None else Some (Shared (q ++ [Some x]) r n k d, PInc rest)
  | PInc rest => Some (Shared q (S r) n k d, PLock rest)
  | PLock rest => if k then None else Some (Shared q r n true d, PVal rest)
  | PVal rest => Some (Shared q (S r) n k d, PRel (r - n) rest)
  | PRel v rest => Some (Shared q r (S n) false d, if decide (v = expected) then PNone rest else producer rest)
  | PNone rest => if full cap q then None else Some (Shared (q ++ [None]) r n k d, producer rest)
  | CGet => match q with [] => None | Some x :: q' => Some (Shared q' r n k d, CDet x) | None :: q' => Some (Shared q' r n k d, CPut) end
  | CDet x => Some (Shared q r n k (d ++ [x]), CGet)
  | CPut => if full cap q then None else Some (Shared (q ++ [None]) r n k d, CDone)
  | _ => None
  end.
Lemma tnext_iff cap expected s t s' t' : tstep cap expected s t s' t' <-> tnext cap expected s t = Some (s', t').
Proof.
  split.
  - intros H. destruct H; cbn; try done; unfold full; rewrite bool_decide_eq_true_2 by done; done.
  - destruct s as [q r n k d]. destruct t; cbn; intros H.
    all: try (destruct (full cap q) eqn:E; [done|]; unfold full in E; apply negb_false_iff, bool_decide_eq_true in E; injection H as <- <-; by constructor).
    all: try (injection H as <- <-; by constructor).
    + destruct k; [done|]. injection H as <- <-. constructor.
    + done.
    + destruct q as [|[x|] q]; [done|..]; injection H as <- <-; constructor.
    + done.
Qed.
(** run thread [i], or start the next task *)
Definition snext (cap expected jobs : nat) (st : state) (i : option nat) : option state :=
  match i with
  | Some i => t ← running st !! i; st' ← tnext cap expected (sh st) t; Some (State st'.1 (take i (running st) ++ st'.2 :: drop (S i) (running st)) (waiting st))
  | None => match waiting st with t :: w => if decide (active (running st) < jobs) then Some (State (sh st) (running st ++ [t]) w) else None | [] => None end
  end.
Lemma snext_step cap expected jobs st i st' : snext cap expected jobs st i = Some st' -> step cap expected jobs st st'.
Proof.
  destruct st as [s ts w]. destruct i as [i|]; cbn.
  - destruct (ts !! i) as [t|] eqn:Ei; [|done]. cbn. destruct (tnext cap expected s t) as [[s' t']|] eqn:Et; [|done]. cbn. intros [= <-].
    rewrite <- (take_drop_middle ts i t Ei) at 1. constructor. by apply tnext_iff.
  - destruct w as [|t w]; [done|]. case_decide; [|done]. intros [= <-]. by constructor.
Qed.
Fixpoint run (cap expected jobs : nat) (st : state) (sched : list (option nat)) : option state :=
  match sched with [] => Some st | i :: l => st' ← snext cap expected jobs st i; run cap expected jobs st' l end.
Lemma run_rtc cap expected jobs sched : forall st st', run cap expected jobs st sched = Some st' -> rtc (step cap expected jobs) st st'.
Proof.
  induction sched as [|i l IH]; intros st st'; cbn; [intros [= ->]; constructor|].
  destruct (snext cap expected jobs st i) as [st1|] eqn:E; [|done]. cbn. intros H. econstructor; [by eapply snext_step|]. by apply IH.
Qed.
Definition stuck (cap expected jobs : nat) (st : state) : bool :=
  match waiting st with [] => true | _ => negb (bool_decide (active (running st) < jobs)) end && forallb (fun t => if tnext cap expected (sh st) t then false else true) (running st).
Lemma stuck_ok cap expected jobs st : stuck cap expected jobs st = true -> forall st', ~ step cap expected jobs st st'.
Proof.
  unfold stuck. intros [Hw Hr]%andb_true_iff st' Hs. destruct Hs as [s s' ts1 t t' ts2 w Ht|s ts t w Ha]; cbn in *.
  - rewrite forallb_forall in Hr. specialize (Hr t). apply tnext_iff in Ht. rewrite Ht in Hr. assert (In t (ts1 ++ t :: ts2)) as Hin by (apply in_or_app; right; by left). by specialize (Hr Hin).
  - apply negb_true_iff, bool_decide_eq_false in Hw. done.
Qed.

(** ** One process *)
Lemma one_process_ok cap images : cap <> 1 -> forall d, one_process cap images [] d = Some ([], d ++ images).
Proof.
  intros Hc. induction images as [|x l IH]; intros d; cbn [one_process]; [by rewrite app_nil_r|].
  assert (forall q o, length q < 2 -> put (A:=option string) cap q o = Some (q ++ [o])) as Hput.
  { intros q o Hq. unfold put. rewrite decide_True by lia. done. }
  rewrite Hput by (cbn; lia). cbn [mbind option_bind]. rewrite Hput by (cbn; lia). cbn [mbind option_bind app length drain].
  rewrite Hput by (cbn; lia). cbn [mbind option_bind app fst snd]. rewrite IH. by rewrite <- app_assoc.
Qed.
Lemma one_process_blocks x l d : one_process 1 (x :: l) [] d = None.
Proof. done. Qed.
