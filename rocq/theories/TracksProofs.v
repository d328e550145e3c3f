From stdpp Require Import prelude gmap strings.
From Coq Require String.
From Verif Require Import Base TracksModel TracksSpec.

Section Proofs.
Context {O : Type}.
Implicit Types (m : tm O) (h : list (tm_op O)).

Lemma put2_lookup (m : gmap string (gmap string O)) k1 k2 v a b :
  (put2 m k1 k2 v !! a ≫= (.!! b)) = if bool_decide (k1 = a /\ k2 = b) then Some v else m !! a ≫= (.!! b).
Proof.
  unfold put2. destruct (decide (k1 = a)) as [->|Hne].
  - rewrite lookup_insert. simpl. destruct (decide (k2 = b)) as [->|Hne2].
    + rewrite lookup_insert. by rewrite bool_decide_eq_true_2.
    + rewrite lookup_insert_ne by done. rewrite bool_decide_eq_false_2 by tauto. by destruct (m !! a).
  - rewrite lookup_insert_ne by done. rewrite bool_decide_eq_false_2 by tauto. done.
Qed.

Lemma put2_dom (m : gmap string (gmap string O)) k1 k2 v a :
  is_Some (put2 m k1 k2 v !! a) <-> k1 = a \/ is_Some (m !! a).
Proof. unfold put2. rewrite lookup_insert_is_Some. destruct (decide (k1 = a)); naive_solver. Qed.

Lemma observed_eq m s t : observed m s t = tracks_per_shot m !! s ≫= (.!! t).
Proof. unfold observed, tm_get. destruct (tracks_per_shot m !! s) as [ts|]; simpl; [|done]. by destruct (ts !! t). Qed.

Lemma observed_empty s t : observed (O:=O) tm_empty s t = None.
Proof. done. Qed.
Lemma consistent_empty : consistent (O:=O) tm_empty.
Proof. done. Qed.

Lemma observed_add m s t o s' t' :
  observed (tm_add m s t o) s' t' = if bool_decide (s = s' /\ t = t') then Some o else observed m s' t'.
Proof. rewrite !observed_eq. simpl. apply put2_lookup. Qed.

Lemma consistent_add m s t o : consistent m -> consistent (tm_add m s t o).
Proof.
  intros Hc s' t'. simpl. rewrite !put2_lookup, Hc.
  destruct (decide (s = s' /\ t = t')) as [[-> ->]|Hne].
  - by rewrite !bool_decide_eq_true_2.
  - rewrite !bool_decide_eq_false_2 by tauto. done.
Qed.

(** Refinement invariant. *)
Record trep h m : Prop := {
  trep_table s t : observed m s t = table h s t;
  trep_consistent : consistent m;
  trep_shots s : is_Some (tracks_per_shot m !! s) <-> shot_seen h s;
  trep_tracks t : is_Some (shots_per_track m !! t) <-> track_seen h t }.

Lemma table_snoc h op s t : table (h ++ [op]) s t = match op with
  | TAdd s' t' o => if bool_decide (s' = s /\ t' = t) then Some o else table h s t
  | TRemove s' t' => if bool_decide (s' = s /\ t' = t) then None else table h s t end.
Proof. unfold table. rewrite reverse_app. by destruct op. Qed.

Lemma seen_snoc h op :
  (forall s, shot_seen (h ++ [op]) s <-> shot_seen h s \/ match op with TAdd s' _ _ => s' = s | _ => False end) /\
  (forall t, track_seen (h ++ [op]) t <-> track_seen h t \/ match op with TAdd _ t' _ => t' = t | _ => False end).
Proof.
  unfold shot_seen, track_seen. split; intros x; setoid_rewrite elem_of_app; setoid_rewrite elem_of_list_singleton;
    split; destruct op; naive_solver.
Qed.

Lemma table_seen h s t o : table h s t = Some o -> shot_seen h s /\ track_seen h t.
Proof.
  induction h as [|op h IH] using rev_ind; [done|]. rewrite table_snoc.
  destruct (seen_snoc h op) as [Hs Ht]. rewrite Hs, Ht.
  destruct op as [s' t' o'|s' t']; case_bool_decide; naive_solver.
Qed.

Lemma delete2_lookup (m : gmap string (gmap string O)) k1 k2 inner a b : m !! k1 = Some inner ->
  ((<[k1 := delete k2 inner]> m) !! a ≫= (.!! b)) = if bool_decide (k1 = a /\ k2 = b) then None else m !! a ≫= (.!! b).
Proof.
  intros Hin. destruct (decide (k1 = a)) as [->|Hne].
  - rewrite lookup_insert, Hin. simpl. destruct (decide (k2 = b)) as [->|Hne2].
    + rewrite lookup_delete. by rewrite bool_decide_eq_true_2.
    + rewrite lookup_delete_ne by done. by rewrite bool_decide_eq_false_2 by tauto.
  - rewrite lookup_insert_ne by done. by rewrite bool_decide_eq_false_2 by tauto.
Qed.

Lemma trep_empty : trep [] tm_empty.
Proof.
  split; try done.
  - intros s. split; [intros [? [=]]|]. intros (t & o & Hin). set_solver.
  - intros t. split; [intros [? [=]]|]. intros (s & o & Hin). set_solver.
Qed.

Lemma trep_step h m op : trep h m -> trep (h ++ [op]) (tm_step m op).1 /\
  (tm_step m op).2 = match op with
    | TAdd _ _ _ => Ok tt
    | TRemove s t => if bool_decide (is_Some (tracks_per_shot m !! s) /\ is_Some (shots_per_track m !! t))
                     then Ok tt else Err RuntimeError end.
Proof.
  intros [Htab Hcon Hsh Htr]. destruct (seen_snoc h op) as [Hs Ht].
  destruct op as [s t o|s t]; simpl.
  - split; [|done]. split; simpl.
    + intros s' t'. by rewrite observed_add, table_snoc, Htab.
    + by apply consistent_add.
    + intros s'. rewrite put2_dom, Hs, Hsh. naive_solver.
    + intros t'. rewrite put2_dom, Ht, Htr. naive_solver.
  - unfold tm_remove. destruct (tracks_per_shot m !! s) as [ts|] eqn:Hts; [destruct (shots_per_track m !! t) as [ss|] eqn:Hss|]; simpl.
    + split; [|done]. split; simpl.
      * intros s' t'. rewrite observed_eq. simpl. rewrite (delete2_lookup _ _ _ _ _ _ Hts), table_snoc, <- Htab, observed_eq. done.
      * intros s' t'. simpl. rewrite (delete2_lookup _ _ _ _ _ _ Hts), (delete2_lookup _ _ _ _ _ _ Hss), Hcon.
        destruct (decide (s = s' /\ t = t')) as [[-> ->]|Hne];
          [by rewrite !bool_decide_eq_true_2|by rewrite !bool_decide_eq_false_2 by tauto].
      * intros s'. rewrite lookup_insert_is_Some, Hs, <- Hsh. destruct (decide (s = s')) as [<-|]; [|naive_solver].
        rewrite Hts. split; [intros _; left; eauto|intros _; by left].
      * intros t'. rewrite lookup_insert_is_Some, Ht, <- Htr. destruct (decide (t = t')) as [<-|]; [|naive_solver].
        rewrite Hss. split; [intros _; left; eauto|intros _; by left].
    + split; [|done].
      assert (Hnone : table h s t = None).
      { rewrite <- Htab, observed_eq, Hcon, Hss. done. }
      split; [|done|intros; rewrite Hs, Hsh; naive_solver|intros; rewrite Ht, Htr; naive_solver].
      intros s' t'. rewrite table_snoc, Htab. case_bool_decide as Heq; [|done]. by destruct Heq as [<- <-].
    + split; [|done].
      assert (Hnone : table h s t = None).
      { rewrite <- Htab, observed_eq, Hts. done. }
      split; [|done|intros; rewrite Hs, Hsh; naive_solver|intros; rewrite Ht, Htr; naive_solver].
      intros s' t'. rewrite table_snoc, Htab. case_bool_decide as Heq; [|done]. by destruct Heq as [<- <-].
Qed.

Lemma trep_run h : trep h (tm_run h).
Proof.
  induction h as [|op h IH] using rev_ind; [apply trep_empty|].
  unfold tm_run. rewrite foldl_app. simpl. by apply trep_step.
Qed.

Lemma tm_get_table h s t : tm_get (tm_run h) s t = of_option RuntimeError (table h s t).
Proof.
  destruct (trep_run h) as [Htab _ _ _]. rewrite <- Htab. unfold observed.
  unfold tm_get. repeat case_match; simplify_eq; done.
Qed.

Lemma tm_shot_obs_table h s :
  (shot_seen h s -> exists ts, tm_shot_obs (tm_run h) s = Ok ts /\ forall t, ts !! t = table h s t) /\
  (~ shot_seen h s -> tm_shot_obs (tm_run h) s = Err RuntimeError).
Proof.
  destruct (trep_run h) as [Htab Hcon Hsh Htr]. split.
  - intros Hseen. apply Hsh in Hseen as [ts Hts]. exists ts. unfold tm_shot_obs. rewrite Hts. split; [done|].
    intros t. by rewrite <- Htab, observed_eq, Hts.
  - intros Hns. unfold tm_shot_obs. destruct (tracks_per_shot (tm_run h) !! s) eqn:Heq; [|done].
    exfalso. apply Hns, Hsh. eauto.
Qed.

Lemma tm_track_obs_table h t :
  (track_seen h t -> exists ss, tm_track_obs (tm_run h) t = Ok ss /\ forall s, ss !! s = table h s t) /\
  (~ track_seen h t -> tm_track_obs (tm_run h) t = Err RuntimeError).
Proof.
  destruct (trep_run h) as [Htab Hcon Hsh Htr]. split.
  - intros Hseen. apply Htr in Hseen as [ss Hss]. exists ss. unfold tm_track_obs. rewrite Hss. split; [done|].
    intros s. by rewrite <- Htab, observed_eq, Hcon, Hss.
  - intros Hns. unfold tm_track_obs. destruct (shots_per_track (tm_run h) !! t) eqn:Heq; [|done].
    exfalso. apply Hns, Htr. eauto.
Qed.

Lemma tm_remove_outcome h s t :
  (shot_seen h s /\ track_seen h t -> (tm_step (tm_run h) (TRemove s t)).2 = Ok tt) /\
  (~ (shot_seen h s /\ track_seen h t) ->
     (tm_step (tm_run h) (TRemove s t)).2 = Err RuntimeError /\ (tm_step (tm_run h) (TRemove s t)).1 = tm_run h).
Proof.
  pose proof (trep_run h) as Hrep. destruct (trep_step h _ (TRemove s t) Hrep) as [_ Hout]. rewrite Hout.
  destruct Hrep as [Htab Hcon Hsh Htr]. rewrite <- Hsh, <- Htr. split.
  - intros Hs. by rewrite bool_decide_eq_true_2.
  - intros Hs. rewrite bool_decide_eq_false_2 by done. split; [done|].
    unfold tm_step, tm_remove.
    destruct (tracks_per_shot (tm_run h) !! s) eqn:E1; [|done].
    destruct (shots_per_track (tm_run h) !! t) eqn:E2; [|done]. exfalso. apply Hs. eauto.
Qed.

Lemma enum_keys_elem {A} (enum : gmap string A -> list (string * A)) (m : gmap string A) k :
  enumerates enum -> k ∈ (enum m).*1 <-> is_Some (m !! k).
Proof.
  intros He. rewrite elem_of_list_fmap. split.
  - intros ([k' a] & -> & Hin). rewrite (He m) in Hin. apply elem_of_map_to_list in Hin. simpl. eauto.
  - intros [a Ha]. exists (k, a). split; [done|]. rewrite (He m). by apply elem_of_map_to_list.
Qed.

Lemma enum_keys_nodup {A} (enum : gmap string A -> list (string * A)) (m : gmap string A) :
  enumerates enum -> NoDup (enum m).*1.
Proof. intros He. rewrite (He m). apply NoDup_fst_map_to_list. Qed.

Lemma enum_elem {A} (enum : gmap string A -> list (string * A)) (m : gmap string A) k a :
  enumerates enum -> (k, a) ∈ enum m <-> m !! k = Some a.
Proof. intros He. rewrite (He m). apply elem_of_map_to_list. Qed.

Lemma tm_ids h enum : enumerates enum ->
  NoDup (tm_shot_ids enum (tm_run h)) /\ (forall s, s ∈ tm_shot_ids enum (tm_run h) <-> shot_seen h s) /\
  NoDup (tm_track_ids enum (tm_run h)) /\ (forall t, t ∈ tm_track_ids enum (tm_run h) <-> track_seen h t).
Proof.
  intros He. destruct (trep_run h) as [Htab Hcon Hsh Htr]. unfold tm_shot_ids, tm_track_ids.
  split_and!; try (by apply enum_keys_nodup).
  - intros s. rewrite enum_keys_elem by done. apply Hsh.
  - intros s. rewrite enum_keys_elem by done. apply Htr.
Qed.

(** ** Sub-manager *)
Lemma tm_sub_inner (l : list (string * O)) (shots : gset string) m t :
  NoDup l.*1 -> consistent m ->
  let m' := foldl (fun sub '(s, o) => if bool_decide (s ∈ shots) then tm_add sub s t o else sub) m l in
  consistent m' /\
  (forall s' t' o, observed m' s' t' = Some o <->
    (t' = t /\ (s', o) ∈ l /\ s' ∈ shots) \/ (~ (t' = t /\ s' ∈ l.*1 /\ s' ∈ shots) /\ observed m s' t' = Some o)).
Proof.
  revert m. induction l as [|[s o] l IH]; intros m Hnd Hc; cbn [foldl].
  - split; [done|]. intros. simpl. set_solver.
  - simpl in Hnd. apply NoDup_cons in Hnd as [Hnin Hnd].
    assert (Hc' : consistent (if bool_decide (s ∈ shots) then tm_add m s t o else m)).
    { case_bool_decide; [by apply consistent_add|done]. }
    destruct (IH _ Hnd Hc') as [Hcc Hobs]. split; [done|].
    intros s' t' o'. rewrite Hobs. rewrite fmap_cons, !elem_of_cons. simpl.
    assert (Hlin : forall x y, (x, y) ∈ l -> x ∈ l.*1).
    { intros x y Hxy. apply elem_of_list_fmap. by exists (x, y). }
    case_bool_decide as Hs.
    + rewrite observed_add. case_bool_decide as Heq.
      * destruct Heq as [-> ->]. split.
        -- intros [(_ & Hin & Hsh)|(Hno & [= ->])]; [left; auto|]. left. auto.
        -- intros [(_ & [[= ->]|Hin] & Hsh)|(Hno & Ho)]; [right; split; [tauto|done]|left; auto|].
           exfalso. apply Hno. auto.
      * split.
        -- intros [(-> & Hin & Hsh)|(Hno & Ho)]; [left; auto|].
           right. split; [|done]. intros (-> & [->|Hin] & Hsh); [by apply Heq|by apply Hno].
        -- intros [(-> & [[= -> ->]|Hin] & Hsh)|(Hno & Ho)]; [by destruct Heq|left; auto|].
           right. split; [|done]. intros (-> & Hin & Hsh). apply Hno. auto.
    + split.
      * intros [(-> & Hin & Hsh)|(Hno & Ho)]; [left; auto|].
        right. split; [|done]. intros (-> & [->|Hin] & Hsh); [done|by apply Hno].
      * intros [(-> & [[= -> ->]|Hin] & Hsh)|(Hno & Ho)]; [done|left; auto|].
        right. split; [|done]. intros (-> & Hin & Hsh). apply Hno. auto.
Qed.

Lemma tm_sub_spec enum m tracks shots : enumerates enum -> consistent m ->
  consistent (tm_sub enum m tracks shots) /\
  forall s t o, observed (tm_sub enum m tracks shots) s t = Some o <->
    observed m s t = Some o /\ t ∈ tracks /\ s ∈ shots.
Proof.
  intros He Hc. unfold tm_sub. set (sh := list_to_set shots : gset string).
  assert (Hgen : forall ts acc, consistent acc ->
    (forall s t o, observed acc s t = Some o -> observed m s t = Some o) ->
    let f := fun sub t => match shots_per_track m !! t with None => sub
      | Some obs => foldl (fun sub '(s, o) => if bool_decide (s ∈ sh) then tm_add sub s t o else sub) sub (enum obs) end in
    consistent (foldl f acc ts) /\
    forall s t o, observed (foldl f acc ts) s t = Some o <->
      observed acc s t = Some o \/ (observed m s t = Some o /\ t ∈ ts /\ s ∈ sh)).
  { induction ts as [|t ts IH]; intros acc Hca Hacc f; cbn [foldl].
    { split; [done|]. intros. set_solver. }
    assert (Hstep : consistent (f acc t) /\
      forall s t' o, observed (f acc t) s t' = Some o <-> observed acc s t' = Some o \/ (t' = t /\ observed m s t = Some o /\ s ∈ sh)).
    { unfold f. destruct (shots_per_track m !! t) as [obs|] eqn:Hobs.
      - destruct (tm_sub_inner (enum obs) sh acc t) as [H1 H2]; [by apply enum_keys_nodup|done|].
        split; [done|]. intros s t' o. rewrite H2. rewrite (enum_elem enum obs s o He).
        assert (Hm : obs !! s = observed m s t).
        { rewrite observed_eq, Hc, Hobs. done. }
        rewrite (enum_keys_elem enum obs s He). rewrite Hm. split.
        + intros [(-> & Ho & Hs)|(Hno & Ho)]; auto.
        + intros [Ho|(-> & Ho & Hs)]; [|auto].
          destruct (decide (t' = t /\ is_Some (observed m s t) /\ s ∈ sh)) as [(-> & Hsome & Hs)|Hno]; [|auto].
          left. split; [done|]. split; [|done]. by apply Hacc.
      - split; [done|]. intros s t' o. split; [auto|]. intros [?|(-> & Ho & _)]; [done|].
        rewrite observed_eq, Hc, Hobs in Ho. done. }
    destruct Hstep as [Hc1 Ho1]. destruct (IH (f acc t) Hc1) as [Hc2 Ho2].
    { intros s t' o. rewrite Ho1. intros [?|(-> & ? & _)]; auto. }
    fold f in Hc2, Ho2. split; [done|]. intros s t' o. rewrite Ho2, Ho1, elem_of_cons. naive_solver. }
  destruct (Hgen tracks tm_empty consistent_empty) as [H1 H2]; [intros ? ? ?; by rewrite observed_empty|].
  split; [done|]. intros s t o. rewrite H2, observed_empty. unfold sh. rewrite elem_of_list_to_set. naive_solver.
Qed.

(** ** Common observations *)
Lemma tm_common_spec enum m s1 s2 : enumerates enum ->
  match tm_common enum m s1 s2 with
  | Ok l => tm_has_shot m s1 = true /\ tm_has_shot m s2 = true /\ NoDup l.*1.*1 /\
      (forall t a b, (t, a, b) ∈ l <-> observed m s1 t = Some a /\ observed m s2 t = Some b)
  | Err e => e = RuntimeError /\ (tm_has_shot m s1 = false \/ tm_has_shot m s2 = false)
  end.
Proof.
  intros He. unfold tm_common, tm_has_shot.
  destruct (tracks_per_shot m !! s1) as [o1|] eqn:H1; [|by split; [|left; apply bool_decide_eq_false_2; intros [? ?]]].
  destruct (tracks_per_shot m !! s2) as [o2|] eqn:H2; [|by split; [|right; apply bool_decide_eq_false_2; intros [? ?]]].
  split; [by apply bool_decide_eq_true_2; eauto|]. split; [by apply bool_decide_eq_true_2; eauto|]. simpl.
  split.
  - assert (Hgen : forall l : list (string * O), NoDup l.*1 ->
      NoDup (omap (fun '(t, a) => match o2 !! t with Some b => Some (t, a, b) | None => None end) l).*1.*1 /\
      forall t, t ∈ (omap (fun '(t, a) => match o2 !! t with Some b => Some (t, a, b) | None => None end) l).*1.*1 -> t ∈ l.*1).
    { clear. induction l as [|[t a] l IH]; intros Hnd; simpl; [split; [constructor|set_solver]|].
      apply NoDup_cons in Hnd as [Hnin Hnd]. destruct (IH Hnd) as [IH1 IH2]. simpl.
      destruct (o2 !! t) as [b|]; simpl.
      - split; [constructor; [|done]; naive_solver|]. intros t' [->|Hin]%elem_of_cons; [left|right; auto].
      - split; [done|]. intros t' Hin. right. auto. }
    apply (Hgen (enum o1)). by apply enum_keys_nodup.
  - intros t a b. rewrite !observed_eq, H1, H2. cbn [mbind option_bind]. rewrite elem_of_list_omap. split.
    + intros ([t' a'] & Hin & Hb). rewrite (enum_elem enum o1 t' a' He) in Hin.
      destruct (o2 !! t') as [b'|] eqn:Hb'; simplify_eq. done.
    + intros [Ha Hb]. exists (t, a). rewrite (enum_elem enum o1 t a He). split; [done|]. by rewrite Hb.
Qed.

(** ** Pair connectivity *)
Definition cnt {K} `{Countable K} (m : gmap K nat) (k : K) : nat := default 0 (m !! k).
Lemma cnt_incr {K} `{Countable K} (m : gmap K nat) k k' :
  cnt (incr m k) k' = cnt m k' + if decide (k = k') then 1 else 0.
Proof.
  unfold cnt, incr. destruct (decide (k = k')) as [->|Hne]; [rewrite lookup_insert|rewrite lookup_insert_ne by done]; simpl; lia.
Qed.
Lemma incr_pos {K} `{Countable K} (m : gmap K nat) k :
  (forall k', is_Some (m !! k') -> 0 < cnt m k') -> (forall k', is_Some (incr m k !! k') -> 0 < cnt (incr m k) k').
Proof.
  intros Hpos k'. unfold incr. rewrite lookup_insert_is_Some. unfold cnt.
  destruct (decide (k = k')) as [->|Hne]; [rewrite lookup_insert; simpl; lia|].
  rewrite lookup_insert_ne by done. intros [?|[_ Hs]]; [done|]. by apply Hpos.
Qed.

Definition good_pairs (acc : gmap (string * string) nat) : Prop := forall k, is_Some (acc !! k) -> 0 < cnt acc k.

Lemma pairs_inner (l : list (string * O)) (sh : gset string) s1 acc :
  NoDup l.*1 -> good_pairs acc ->
  let acc' := foldl (fun acc '(s2, _) => if String.ltb s1 s2 && bool_decide (s2 ∈ sh) then incr acc (s1, s2) else acc) acc l in
  good_pairs acc' /\
  forall a b, cnt acc' (a, b) = cnt acc (a, b) +
    if decide (a = s1 /\ String.ltb a b = true /\ b ∈ l.*1 /\ b ∈ sh) then 1 else 0.
Proof.
  revert acc. induction l as [|[s2 o] l IH]; intros acc Hnd Hg; cbn [foldl].
  - split; [done|]. intros a b. rewrite decide_False; [lia|]. simpl. set_solver.
  - simpl in Hnd. apply NoDup_cons in Hnd as [Hnin Hnd].
    set (acc1 := if String.ltb s1 s2 && bool_decide (s2 ∈ sh) then incr acc (s1, s2) else acc).
    assert (Hg1 : good_pairs acc1).
    { unfold acc1. case_match; [|done]. intros k. by apply incr_pos. }
    destruct (IH acc1 Hnd Hg1) as [Hg2 Hc2]. split; [done|].
    intros a b. rewrite Hc2. unfold acc1. rewrite fmap_cons. simpl.
    destruct (String.ltb s1 s2 && bool_decide (s2 ∈ sh)) eqn:Hcond.
    + apply andb_prop in Hcond as [Hlt Hsh%bool_decide_eq_true]. rewrite cnt_incr.
      repeat case_decide; simplify_eq; try lia; try (exfalso; set_solver).
    + apply andb_false_iff in Hcond.
      assert (Hc : String.ltb s1 s2 = false \/ s2 ∉ sh).
      { destruct Hcond as [?|?%bool_decide_eq_false]; auto. }
      rewrite (decide_ext (a = s1 /\ String.ltb a b = true /\ b ∈ l.*1 /\ b ∈ sh)
        (a = s1 /\ String.ltb a b = true /\ b ∈ s2 :: l.*1 /\ b ∈ sh)); [done|].
      rewrite elem_of_cons. split; [tauto|]. intros (-> & Hl & [->|Hin] & Hs); [|tauto].
      destruct Hc; congruence.
Qed.

Lemma pairs_mid (l : list (string * O)) (l0 : list (string * O)) (sh : gset string) acc :
  NoDup l.*1 -> NoDup l0.*1 -> good_pairs acc ->
  let acc' := foldl (fun acc '(s1, _) =>
          if bool_decide (s1 ∈ sh) then
            foldl (fun acc '(s2, _) =>
              if String.ltb s1 s2 && bool_decide (s2 ∈ sh) then incr acc (s1, s2) else acc) acc l0
          else acc) acc l in
  good_pairs acc' /\
  forall a b, cnt acc' (a, b) = cnt acc (a, b) +
    if decide (String.ltb a b = true /\ a ∈ l.*1 /\ a ∈ sh /\ b ∈ l0.*1 /\ b ∈ sh) then 1 else 0.
Proof.
  intros Hnd Hnd0. revert acc. induction l as [|[s1 o] l IH]; intros acc Hg; cbn [foldl].
  - split; [done|]. intros a b. rewrite decide_False; [lia|]. simpl. set_solver.
  - simpl in Hnd. apply NoDup_cons in Hnd as [Hnin Hnd].
    case_bool_decide as Hs1.
    + destruct (pairs_inner l0 sh s1 acc Hnd0 Hg) as [Hg1 Hc1].
      destruct (IH Hnd _ Hg1) as [Hg2 Hc2]. split; [done|].
      intros a b. rewrite Hc2, Hc1. rewrite fmap_cons. simpl.
      rewrite (decide_ext (String.ltb a b = true /\ a ∈ s1 :: l.*1 /\ a ∈ sh /\ b ∈ l0.*1 /\ b ∈ sh)
        ((a = s1 /\ String.ltb a b = true /\ b ∈ l0.*1 /\ b ∈ sh) \/
         (String.ltb a b = true /\ a ∈ l.*1 /\ a ∈ sh /\ b ∈ l0.*1 /\ b ∈ sh))).
      2: { rewrite elem_of_cons. destruct (decide (a = s1)) as [->|Hne]; tauto. }
      destruct (decide (a = s1)) as [->|Hne].
      * repeat case_decide; try lia; exfalso; tauto.
      * repeat case_decide; try lia; exfalso; tauto.
    + destruct (IH Hnd _ Hg) as [Hg2 Hc2]. split; [done|].
      intros a b. rewrite Hc2. rewrite fmap_cons. simpl. repeat case_decide; try lia; exfalso; set_solver.
Qed.

Definition both m (sh : gset string) (a b : string) (t : string) : Prop :=
  is_Some (observed m a t) /\ is_Some (observed m b t) /\ a ∈ sh /\ b ∈ sh.
Global Instance both_dec m sh a b t : Decision (both m sh a b t).
Proof. unfold both. apply _. Defined.

Lemma pairs_outer enumO m (sh : gset string) ts acc : enumerates enumO -> consistent m -> good_pairs acc ->
  let acc' := foldl (fun acc t =>
    match shots_per_track m !! t with
    | None => acc
    | Some track =>
        foldl (fun acc '(s1, _) =>
          if bool_decide (s1 ∈ sh) then
            foldl (fun acc '(s2, _) =>
              if String.ltb s1 s2 && bool_decide (s2 ∈ sh) then incr acc (s1, s2) else acc) acc (enumO track)
          else acc) acc (enumO track)
    end) acc ts in
  good_pairs acc' /\
  forall a b, cnt acc' (a, b) = cnt acc (a, b) +
    if String.ltb a b then length (filter (both m sh a b) ts) else 0.
Proof.
  intros He Hc. revert acc. induction ts as [|t ts IH]; intros acc Hg; cbn [foldl].
  - split; [done|]. intros. simpl. case_match; lia.
  - destruct (shots_per_track m !! t) as [track|] eqn:Ht.
    + destruct (pairs_mid (enumO track) (enumO track) sh acc) as [Hg1 Hc1]; [by apply enum_keys_nodup..|done|].
      destruct (IH _ Hg1) as [Hg2 Hc2]. split; [done|].
      intros a b. rewrite Hc2, Hc1. rewrite filter_cons.
      assert (Hm : forall s, s ∈ (enumO track).*1 <-> is_Some (observed m s t)).
      { intros s. rewrite enum_keys_elem by done. by rewrite observed_eq, Hc, Ht. }
      pose proof (Hm a) as Hma. pose proof (Hm b) as Hmb. destruct (String.ltb a b) eqn:Hlt.
      * destruct (decide (both m sh a b t)) as [Hb|Hb]; unfold both in Hb.
        -- rewrite decide_True by tauto. simpl. lia.
        -- rewrite decide_False by tauto. simpl. lia.
      * rewrite decide_False by (intros [? _]; congruence). lia.
    + destruct (IH _ Hg) as [Hg2 Hc2]. split; [done|].
      intros a b. rewrite Hc2. rewrite filter_cons, decide_False; [done|].
      intros [[o Ho] _]. rewrite observed_eq, Hc, Ht in Ho. done.
Qed.

Lemma tm_pairs_spec enumT enumO m shots tracks : enumerates enumT -> enumerates enumO -> consistent m ->
  forall a b,
    tm_pairs enumT enumO m shots tracks !! (a, b) =
    let n := n_common m (selected_tracks (tm_track_ids enumT m) tracks) a b in
    if decide (String.ltb a b = true /\ selected_shot m shots a /\ selected_shot m shots b /\ n <> 0) then Some n else None.
Proof.
  intros HeT HeO Hc a b. cbn zeta. unfold n_common.
  set (tracks_used := selected_tracks (tm_track_ids enumT m) tracks).
  set (shot_used := selected_shot m shots).
  set (sh := match shots with [] => list_to_set (enumT (tracks_per_shot m)).*1 | _ => list_to_set shots end : gset string).
  assert (Hsh : forall s, s ∈ sh <-> shot_used s).
  { intros s. unfold sh, shot_used, selected_shot. destruct shots; [|rewrite elem_of_list_to_set; split; [by right|by intros [[? _]|?]]].
    rewrite elem_of_list_to_set, enum_keys_elem by done.
    unfold tm_has_shot. rewrite bool_decide_eq_true. split; [by left|]. intros [[_ ?]|?]; [done|set_solver]. }
  assert (Htr : match tracks with [] => (enumT (shots_per_track m)).*1 | _ => tracks end = tracks_used).
  { unfold tracks_used, selected_tracks. by destruct tracks; [rewrite decide_True|rewrite decide_False]. }
  unfold tm_pairs. rewrite Htr. fold sh.
  destruct (pairs_outer enumO m sh tracks_used ∅ HeO Hc) as [Hg Hcount]; [intros ? [? [=]]|].
  set (res := foldl _ _ _) in *. specialize (Hcount a b). clearbody res. pose proof (Hsh a) as Hsa. pose proof (Hsh b) as Hsb.
  change (cnt ∅ (a, b)) with 0 in Hcount. cbn [Nat.add] in Hcount.
  assert (Hfl : a ∈ sh -> b ∈ sh -> length (filter (both m sh a b) tracks_used) =
     length (filter (fun t => is_Some (observed m a t) /\ is_Some (observed m b t)) tracks_used)).
  { intros Ha Hb. f_equal. apply list_filter_iff. intros t. unfold both. tauto. }
  assert (Hf0 : ~ (a ∈ sh /\ b ∈ sh) -> length (filter (both m sh a b) tracks_used) = 0).
  { intros Hn. clear -Hn. induction tracks_used as [|t ts IH]; [done|]. rewrite filter_cons, decide_False; [done|].
    unfold both. tauto. }
  destruct (res !! (a, b)) as [n|] eqn:Hres.
  - assert (Hn : n = cnt res (a, b)) by (unfold cnt; by rewrite Hres).
    assert (0 < n) by (rewrite Hn; apply Hg; eauto).
    rewrite Hcount in Hn. destruct (String.ltb a b); [|lia].
    destruct (decide (a ∈ sh /\ b ∈ sh)) as [[Ha Hb]|Hno]; [|rewrite Hf0 in Hn by done; lia].
    rewrite Hfl in Hn by done. rewrite decide_True by (split_and!; [done|tauto|tauto|lia]). by rewrite Hn.
  - assert (Hn : cnt res (a, b) = 0) by (unfold cnt; by rewrite Hres). rewrite Hn in Hcount.
    rewrite decide_False; [done|]. intros (Hlt & Ha%Hsh & Hb%Hsh & Hnz). rewrite Hlt, Hfl in Hcount by done. lia.
Qed.

(** The number of common observations is the connectivity count. *)
Lemma tm_common_count enumT enumO m a b l : enumerates enumT -> enumerates enumO -> consistent m ->
  tm_common enumO m a b = Ok l ->
  n_common m (tm_track_ids enumT m) a b = length l.
Proof.
  unfold n_common. intros HeT HeO Hc Hl. pose proof (tm_common_spec enumO m a b HeO) as Hspec. rewrite Hl in Hspec.
  destruct Hspec as (_ & _ & Hnd & Hin).
  rewrite <- (fmap_length fst l), <- (fmap_length fst l.*1). apply Permutation_length, NoDup_Permutation.
  - apply NoDup_filter. by apply enum_keys_nodup.
  - done.
  - intros t. rewrite elem_of_list_filter. split.
    + intros [[[oa Ha] [ob Hb]] _]. apply elem_of_list_fmap. exists (t, oa). split; [done|].
      apply elem_of_list_fmap. exists (t, oa, ob). split; [done|]. by apply Hin.
    + intros Ht. apply elem_of_list_fmap in Ht as ([t' oa] & -> & Ht).
      apply elem_of_list_fmap in Ht as ([[t'' oa'] ob] & Heq & Ht). simpl in *. simplify_eq.
      apply Hin in Ht as [Ha Hb]. split; [eauto|].
      unfold tm_track_ids. rewrite enum_keys_elem by done.
      rewrite observed_eq, Hc in Ha. destruct (shots_per_track m !! t''); [eauto|done].
Qed.
End Proofs.
