(** Proofs about programs on files. *)
From stdpp Require Import prelude gmap strings.
From Coq Require Import Lia.
From Verif Require Import Base TextProofs FilesModel FilesSpec.

Lemma steps_trans {A} (x : prog A) m y m' z m'' : steps x m y m' -> steps y m' z m'' -> steps x m z m''.
Proof. induction 1; [done|]. intros. econstructor; eauto. Qed.
Lemma steps_1 {A} (x : prog A) m y m' : step x m y m' -> steps x m y m'.
Proof. intros. econstructor; [done|constructor]. Qed.

(** ** The states a program can leave, by recursion *)
Fixpoint reach {A} (x : prog A) (m n : fs) : Prop :=
  n = m \/
  match x with
  | Ret _ | Raise _ => False
  | IsFile p k => reach (k (bool_decide (is_Some (m !! p)))) m n
  | Read p k => reach (k (m !! p)) m n
  | Save p s k | Saving p s k => (exists s', String.prefix s' s = true /\ n = <[p := s']> m) \/ reach k (<[p := s]> m) n
  end.
Lemma prefix_empty s : String.prefix "" s = true. Proof. by destruct s. Qed.
Lemma step_reach {A} (x : prog A) m y m' n : step x m y m' -> reach y m' n -> n = m' \/ reach x m n.
Proof.
  destruct 1 as [p k m|p k m|p s k m|p s s' k m Hp|p s k m].
  - intros H. right. cbn. by right.
  - intros H. right. cbn. by right.
  - cbn. intros [->|[(s' & ? & ->)|H]]; [by left| |].
    + right. right. left. exists s'. split; [done|]. apply insert_insert.
    + right. right. right. by rewrite insert_insert in H.
  - cbn. intros [->|[(t & ? & ->)|H]]; [by left| |].
    + right. right. left. exists t. split; [done|]. apply insert_insert.
    + right. right. right. by rewrite insert_insert in H.
  - cbn. intros H. right. right. by right.
Qed.
Lemma reach_refl {A} (x : prog A) m : reach x m m. Proof. destruct x; by left. Qed.
Lemma prefix_refl s : String.prefix s s = true.
Proof. induction s as [|a s IH]; [done|]. cbn. by destruct (Ascii.ascii_dec a a). Qed.
Lemma step_reach1 {A} (x : prog A) m y m' : step x m y m' -> reach x m m'.
Proof.
  destruct 1; cbn; right; try apply reach_refl; left.
  - exists ""%string. split; [apply prefix_empty|done].
  - eauto.
  - exists s. split; [apply prefix_refl|done].
Qed.
Lemma killed_reach {A} (x : prog A) m n : killed x m n -> reach x m n.
Proof.
  intros [y H]. induction H as [x m|x m x' m' x'' m'' Hs _ IH]; [apply reach_refl|].
  destruct (step_reach _ _ _ _ _ Hs IH) as [->|?]; [by eapply step_reach1|done].
Qed.
(** ** The end of a run *)
Fixpoint exec {A} (x : prog A) (m : fs) : fs * res A :=
  match x with
  | Ret a => (m, Ok a)
  | Raise e => (m, Err e)
  | IsFile p k => exec (k (bool_decide (is_Some (m !! p)))) m
  | Read p k => exec (k (m !! p)) m
  | Save p s k | Saving p s k => exec k (<[p := s]> m)
  end.
Lemma step_exec {A} (x : prog A) m y m' : step x m y m' -> exec y m' = exec x m.
Proof. destruct 1; cbn; [done|done|by rewrite insert_insert|by rewrite insert_insert|done]. Qed.
Lemma steps_exec {A} (x : prog A) m y m' : steps x m y m' -> exec y m' = exec x m.
Proof. induction 1 as [|x m x' m' x'' m'' Hs _ IH]; [done|]. rewrite IH. by apply step_exec. Qed.
Lemma exec_runs {A} (x : prog A) m : runs x m (exec x m).2 (exec x m).1.
Proof.
  revert m. induction x as [a|e|p k IH|p k IH|p s k IH|p s k IH]; intros m; cbn [exec].
  - exists (Ret a). split; [constructor|done].
  - exists (Raise e). split; [constructor|done].
  - destruct (IH (bool_decide (is_Some (m !! p))) m) as (y & H1 & H2). exists y. split; [|done]. econstructor; [constructor|done].
  - destruct (IH (m !! p) m) as (y & H1 & H2). exists y. split; [|done]. econstructor; [constructor|done].
  - destruct (IH (<[p:=s]> m)) as (y & H1 & H2). exists y. split; [|done]. econstructor; [constructor|]. econstructor; [apply step_close|]. by rewrite insert_insert.
  - destruct (IH (<[p:=s]> m)) as (y & H1 & H2). exists y. split; [|done]. econstructor; [apply step_close|]. done.
Qed.
Lemma runs_exec {A} (x : prog A) m r m' : runs x m r m' <-> exec x m = (m', r).
Proof.
  split.
  - intros (y & H1 & H2). rewrite <- (steps_exec _ _ _ _ H1). destruct y, r; try done; cbn; by subst.
  - intros H. pose proof (exec_runs x m) as Hr. by rewrite H in Hr.
Qed.
Lemma finished_exec {A} (x : prog A) m y m' : steps x m y m' -> finished y -> (exec x m).1 = m'.
Proof. intros H Hf. rewrite <- (steps_exec _ _ _ _ H). by destruct y. Qed.

(** ** Footprints *)
Fixpoint within {A} (F : string -> Prop) (x : prog A) : Prop :=
  match x with
  | Ret _ | Raise _ => True
  | IsFile p k => F p /\ forall b, within F (k b)
  | Read p k => F p /\ forall c, within F (k c)
  | Save p _ k | Saving p _ k => F p /\ within F k
  end.
(** agreement on a set of paths *)
Definition agree (F : string -> Prop) (m n : fs) : Prop := forall p, F p -> m !! p = n !! p.
Lemma agree_insert F m n p s : agree F m n -> agree F (<[p := s]> m) (<[p := s]> n).
Proof. intros H q Hq. destruct (decide (p = q)) as [->|]; [by rewrite !lookup_insert|rewrite !lookup_insert_ne by done; by apply H]. Qed.
Lemma step_frame {A} (F : string -> Prop) (x : prog A) m y m' n : within F x -> agree F m n -> step x m y m' ->
  within F y /\ (forall p, ~ F p -> m' !! p = m !! p) /\ exists n', step x n y n' /\ agree F m' n'.
Proof.
  intros Hw Ha. destruct 1 as [p k m|p k m|p s k m|p s s' k m Hp|p s k m]; cbn in Hw; destruct Hw as [HF Hw].
  - split; [done|]. split; [done|]. exists n. split; [|done]. rewrite (Ha p HF). constructor.
  - split; [done|]. split; [done|]. exists n. split; [|done]. rewrite (Ha p HF). constructor.
  - split; [done|]. split; [intros q Hq; rewrite lookup_insert_ne; [done|congruence]|]. eexists. split; [constructor|]. by apply agree_insert.
  - split; [done|]. split; [intros q Hq; rewrite lookup_insert_ne; [done|congruence]|]. eexists. split; [by constructor|]. by apply agree_insert.
  - split; [done|]. split; [intros q Hq; rewrite lookup_insert_ne; [done|congruence]|]. eexists. split; [by constructor|]. by apply agree_insert.
Qed.
(** Programs with disjoint footprints run as if alone *)
Lemma pool_alone {A} (F : nat -> string -> Prop) (l0 : list (prog A)) m0 :
  (forall i j p, (i < length l0)%nat -> (j < length l0)%nat -> F i p -> F j p -> i = j) ->
  forall l m l' m', psteps l m l' m' ->
  length l = length l0 ->
  (forall i x, l0 !! i = Some x -> exists y n, l !! i = Some y /\ within (F i) y /\ steps x m0 y n /\ agree (F i) m n) ->
  (forall p, (forall i, (i < length l0)%nat -> ~ F i p) -> m !! p = m0 !! p) ->
  length l' = length l0 /\
  (forall i x, l0 !! i = Some x -> exists y n, l' !! i = Some y /\ steps x m0 y n /\ agree (F i) m' n) /\
  (forall p, (forall i, (i < length l0)%nat -> ~ F i p) -> m' !! p = m0 !! p).
Proof.
  intros Hdis l m l' m'. induction 1 as [l m|l m i x x' m1 l'' m'' Hi Hs _ IH]; intros Hlen Hone Hout.
  { split; [done|]. split; [|done]. intros i x Hx. destruct (Hone i x Hx) as (y & n & ? & _ & ? & ?). eauto. }
  assert (i < length l0)%nat as Hil by (rewrite <- Hlen; by eapply lookup_lt_Some). destruct (lookup_lt_is_Some_2 l0 i Hil) as [x0 Hx0].
  destruct (Hone i x0 Hx0) as (y & n & Hy & Hw & Hst & Hag). assert (y = x) as -> by congruence.
  destruct (step_frame (F i) x m x' m1 n Hw Hag Hs) as (Hw' & Hfr & n' & Hs' & Hag').
  apply IH; [by rewrite insert_length| |].
  - intros j z Hz. destruct (decide (j = i)) as [->|Hji].
    + assert (z = x0) as -> by congruence. exists x', n'. split; [apply list_lookup_insert; lia|]. split; [done|]. split; [|done]. eapply steps_trans; [done|by apply steps_1].
    + destruct (Hone j z Hz) as (yj & nj & Hyj & Hwj & Hstj & Hagj). exists yj, nj. split; [by rewrite list_lookup_insert_ne|]. split; [done|]. split; [done|].
      intros p Hp. rewrite <- (Hagj p Hp). apply Hfr. intros Hp'. apply Hji. apply (Hdis j i p); [by eapply lookup_lt_Some|done|done|done].
  - intros p Hp. rewrite Hfr; [by apply Hout|by apply Hp].
Qed.
Lemma pool_run {A} (F : nat -> string -> Prop) (l : list (prog A)) m l' m' :
  (forall i j p, (i < length l)%nat -> (j < length l)%nat -> F i p -> F j p -> i = j) ->
  (forall i x, l !! i = Some x -> within (F i) x) -> psteps l m l' m' ->
  length l' = length l /\
  (forall i x, l !! i = Some x -> exists y n, l' !! i = Some y /\ steps x m y n /\ agree (F i) m' n) /\
  (forall p, (forall i, (i < length l)%nat -> ~ F i p) -> m' !! p = m !! p).
Proof.
  intros Hd Hw Hs. apply (pool_alone F l m Hd l m l' m' Hs); [done| |done]. intros i x Hx. exists x, m. split; [done|]. split; [by apply Hw|]. split; [constructor|done].
Qed.

(** ** Names *)
Lemma rev_suffix (a b s t : string) : (a +:+ s = b +:+ t)%string ->
  reverse (String.list_ascii_of_string s) ++ reverse (String.list_ascii_of_string a) = reverse (String.list_ascii_of_string t) ++ reverse (String.list_ascii_of_string b).
Proof. intros H. rewrite <- !reverse_app, <- !list_ascii_app. by rewrite H. Qed.
Lemma list_ascii_inj a b : String.list_ascii_of_string a = String.list_ascii_of_string b -> a = b.
Proof. intros H. rewrite <- (String.string_of_list_ascii_of_string a), <- (String.string_of_list_ascii_of_string b). by rewrite H. Qed.
Lemma suffix_inj (a b s : string) : (a +:+ s = b +:+ s)%string -> a = b.
Proof. intros H%rev_suffix. apply app_inv_head, (inj reverse) in H. by apply list_ascii_inj. Qed.
Lemma app_assoc_s (a b c : string) : ((a +:+ b) +:+ c = a +:+ (b +:+ c))%string.
Proof. induction a as [|x a IH]; [done|]. exact (f_equal (String x) IH). Qed.
Ltac suffix_neq := let H := fresh in intros H; repeat rewrite <- app_assoc_s in H; apply rev_suffix in H; cbn in H; discriminate H.
Lemma feature_words i j : feature_file i <> words_file j. Proof. unfold feature_file, words_file. suffix_neq. Qed.
Lemma report_neq i p q : feature_report i <> "features/" +:+ p +:+ q. Proof. unfold feature_report. cbn. discriminate. Qed.
Lemma feature_inj i j : feature_file i = feature_file j -> i = j. Proof. unfold feature_file. intros H. apply (inj (String.append _)) in H. by apply suffix_inj in H. Qed.
Lemma words_inj i j : words_file i = words_file j -> i = j. Proof. unfold words_file. intros H. apply (inj (String.append _)) in H. by apply suffix_inj in H. Qed.
Lemma legacy_inj i j : feature_file_legacy i = feature_file_legacy j -> i = j. Proof. unfold feature_file_legacy. intros H. apply (inj (String.append _)) in H. by apply suffix_inj in H. Qed.
Lemma report_inj i j : feature_report i = feature_report j -> i = j. Proof. unfold feature_report. intros H. apply (inj (String.append _)) in H. by apply suffix_inj in H. Qed.
Lemma legacy_feature i j : feature_file_legacy i = feature_file j -> i = j +:+ ".features".
Proof. unfold feature_file, feature_file_legacy. intros H. apply (inj (String.append _)) in H. change ".features.npz" with (".features" +:+ ".npz")%string in H. rewrite <- app_assoc_s in H. by apply suffix_inj in H. Qed.
Lemma legacy_words i j : feature_file_legacy i = words_file j -> i = j +:+ ".words".
Proof. unfold words_file, feature_file_legacy. intros H. apply (inj (String.append _)) in H. change ".words.npz" with (".words" +:+ ".npz")%string in H. rewrite <- app_assoc_s in H. by apply suffix_inj in H. Qed.

(** ** detect *)
Section Detect.
Variable need_words : bool.
Variable features_of words_of report_of : string -> string.
Notation detect := (detect need_words features_of words_of report_of).
Notation skipped := (skipped need_words).
Definition foot (i p : string) : Prop := own i p \/ p = feature_file_legacy i.
Lemma detect_within force i : within (foot i) (detect force i).
Proof.
  assert (foot i (feature_file i)) by (left; by left). assert (foot i (words_file i)) by (left; right; by left). assert (foot i (feature_report i)) by (left; right; by right). assert (foot i (feature_file_legacy i)) by by right.
  unfold FilesModel.detect, features_exist. destruct need_words; cbn; repeat (split || intros [] || intros b || case_match); done.
Qed.
Lemma foot_disjoint images i j p : plain_names images -> i ∈ images -> j ∈ images -> foot i p -> foot j p -> i = j.
Proof.
  intros [_ Hn] Hi Hj. destruct (Hn i j Hi Hj) as [N1 N2]. destruct (Hn j i Hj Hi) as [N3 N4].
  intros [[-> |[-> | ->]]| ->] [[H|[H|H]]|H].
  - by apply feature_inj in H.
  - by apply feature_words in H.
  - symmetry in H. by apply report_neq in H.
  - symmetry in H. by apply legacy_feature in H.
  - symmetry in H. by apply feature_words in H.
  - by apply words_inj in H.
  - symmetry in H. by apply report_neq in H.
  - symmetry in H. by apply legacy_words in H.
  - by apply report_neq in H.
  - by apply report_neq in H.
  - by apply report_inj in H.
  - by apply report_neq in H.
  - by apply legacy_feature in H.
  - by apply legacy_words in H.
  - symmetry in H. by apply report_neq in H.
  - by apply legacy_inj in H.
Qed.
Definition save (i : string) : prog unit :=
  Save (feature_file i) (features_of i)
    (if need_words then Save (words_file i) (words_of i) (Save (feature_report i) (report_of i) (Ret tt)) else Save (feature_report i) (report_of i) (Ret tt)).
Lemma skipped_dec force m i : Decision (skipped force m i).
Proof. unfold FilesSpec.skipped. apply _. Defined.
(** The tests decide between leaving the image alone and writing its files *)
Lemma detect_cases force m i :
  (skipped force m i /\ exec (detect force i) m = (m, Ok tt) /\ forall n, reach (detect force i) m n -> n = m) \/
  (~ skipped force m i /\ exec (detect force i) m = exec (save i) m /\ forall n, reach (detect force i) m n -> reach (save i) m n).
Proof.
  unfold FilesSpec.skipped, FilesModel.detect, features_exist. fold (save i).
  assert (forall n, n = m -> reach (save i) m n) as Hr by (intros n ->; apply reach_refl).
  destruct need_words eqn:Enw, force; cbn [negb andb exec reach];
    repeat (match goal with |- context [bool_decide (is_Some (m !! ?p))] => let E := fresh "E" in destruct (bool_decide_reflect (is_Some (m !! p))) as [E|E] end; cbn [exec reach andb]);
    first [left; split_and!; [by auto|by auto|by auto|done|naive_solver] | right; split_and!; [naive_solver|done|naive_solver]].
Qed.
Lemma save_exec m i : exec (save i) m =
  (<[feature_report i := report_of i]> ((if need_words then <[words_file i := words_of i]> else id) (<[feature_file i := features_of i]> m)), Ok tt).
Proof. unfold save. by destruct need_words. Qed.
Lemma save_reach m i n : reach (save i) m n ->
  n = m \/ (exists s, String.prefix s (features_of i) = true /\ n = <[feature_file i := s]> m) \/
  (exists s, need_words = true /\ String.prefix s (words_of i) = true /\ n = <[words_file i := s]> (<[feature_file i := features_of i]> m)) \/
  (exists s, String.prefix s (report_of i) = true /\ n = <[feature_report i := s]> ((if need_words then <[words_file i := words_of i]> else id) (<[feature_file i := features_of i]> m))).
Proof.
  unfold save. destruct need_words; cbn [reach id].
  - intros [->|[(s & ? & ->)|[->|[(s & ? & ->)|[->|[(s & ? & ->)|[->|[]]]]]]]].
    + by left.
    + right. left. eauto.
    + right. left. exists (features_of i). split; [apply prefix_refl|done].
    + right. right. left. eauto.
    + right. right. left. exists (words_of i). split_and!; [done|apply prefix_refl|done].
    + right. right. right. eauto.
    + right. right. right. exists (report_of i). split; [apply prefix_refl|done].
  - intros [->|[(s & ? & ->)|[->|[(s & ? & ->)|[->|[]]]]]].
    + by left.
    + right. left. eauto.
    + right. left. exists (features_of i). split; [apply prefix_refl|done].
    + right. right. right. eauto.
    + right. right. right. exists (report_of i). split; [apply prefix_refl|done].
Qed.
(** All the images *)
Lemma pool_images force images m l' m' : plain_names images -> psteps (detect_features need_words features_of words_of report_of force images) m l' m' ->
  (forall i, i ∈ images -> exists y n, y ∈ l' /\ steps (detect force i) m y n /\ agree (foot i) m' n) /\ others_kept images m m'.
Proof.
  intros Hn Hs. set (F k := fun p => exists i, images !! k = Some i /\ foot i p).
  destruct (pool_run F (detect_features need_words features_of words_of report_of force images) m l' m') as (H1 & H2 & H3).
  - intros a b p Ha Hb (i & Hi & Hpi) (j & Hj & Hpj). destruct Hn as [Hnd Hnn]. eapply NoDup_lookup; [done|done|]. rewrite Hj. f_equal. symmetry. eapply (foot_disjoint images); [by split| | |done|done]; by eapply elem_of_list_lookup_2.
  - intros k x Hx. unfold detect_features in Hx. rewrite list_lookup_fmap in Hx. destruct (images !! k) as [i|] eqn:Ei; [|done]. injection Hx as <-.
    pose proof (detect_within force i) as Hw. assert (forall p, foot i p -> F k p) as HF by (intros p Hp; by exists i). revert Hw HF. generalize (foot i) (F k). intros G G'. generalize (detect force i). clear. intros x Hw HG. induction x; cbn in *; naive_solver.
  - done.
  - split.
    + intros i Hi. apply elem_of_list_lookup in Hi as [k Hk]. destruct (H2 k (detect force i)) as (y & n & Hy & Hst & Ha).
      { unfold detect_features. by rewrite list_lookup_fmap, Hk. }
      exists y, n. split; [by eapply elem_of_list_lookup_2|]. split; [done|]. intros p Hp. apply Ha. by exists i.
    + intros p Hp. destruct (decide (Exists (fun i => p = feature_file_legacy i) images)) as [(i & Hi & Hpi)%Exists_exists|Hnone].
      * apply elem_of_list_lookup in Hi as [k Hk]. destruct (H2 k (detect force i)) as (y & n & _ & Hst & Ha).
        { unfold detect_features. by rewrite list_lookup_fmap, Hk. }
        rewrite (Ha p) by (exists i; split; [done|by right]). assert (reach (detect force i) m n) as Hr by (apply killed_reach; by eexists).
        assert (~ own i p) as Hown by (apply Hp; by eapply elem_of_list_lookup_2).
        destruct (detect_cases force m i) as [(_ & _ & Hc)|(_ & _ & Hc)]; [by rewrite (Hc n Hr)|]. apply Hc, save_reach in Hr.
        assert (p <> feature_file i) by (intros ->; apply Hown; by left). assert (p <> words_file i) by (intros ->; apply Hown; right; by left). assert (p <> feature_report i) by (intros ->; apply Hown; right; by right).
        destruct Hr as [->|[(s & _ & ->)|[(s & _ & _ & ->)|(s & _ & ->)]]]; [done|by rewrite lookup_insert_ne|by rewrite !lookup_insert_ne|].
        rewrite lookup_insert_ne by done. destruct need_words; cbn [id]; by rewrite !lookup_insert_ne.
      * apply H3. intros k Hk (i & Hi & [Ho| ->]); [by apply (Hp i); [by eapply elem_of_list_lookup_2|]|]. apply Hnone, Exists_exists. exists i. split; [by eapply elem_of_list_lookup_2|done].
Qed.
End Detect.
