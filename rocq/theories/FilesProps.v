(** Feature extraction on files: schedules, kills and repetitions (C56). *)
From stdpp Require Import prelude gmap strings.
From Coq Require Import Lia.
From Verif Require Import Base TextProofs FilesModel FilesSpec FilesProofs.

Section C56.
Variable need_words : bool.
Variable features_of words_of report_of : string -> string.
Notation detect_features := (detect_features need_words features_of words_of report_of).
Notation skipped := (skipped need_words).
Notation processed := (processed need_words features_of words_of).
Notation reported := (reported need_words report_of).

Lemma feature_report_neq i j : feature_file i <> feature_report j. Proof. intros H. symmetry in H. by apply report_neq in H. Qed.
Lemma words_report_neq i j : words_file i <> feature_report j. Proof. intros H. symmetry in H. by apply report_neq in H. Qed.
Lemma legacy_feature_neq images i : plain_names images -> i ∈ images -> feature_file_legacy i <> feature_file i /\ feature_file_legacy i <> words_file i.
Proof. intros [_ H] Hi. destruct (H i i Hi Hi). split; [by intros ?%legacy_feature|by intros ?%legacy_words]. Qed.
Lemma run_image force images m m' i : plain_names images -> all_run (detect_features force images) m m' -> i ∈ images ->
  agree (foot i) m' (exec (detect need_words features_of words_of report_of force i) m).1.
Proof.
  intros Hn (l' & Hs & Hf) Hi. destruct (pool_images _ _ _ _ _ _ _ _ _ Hn Hs) as [H _]. destruct (H i Hi) as (y & n & Hy & Hst & Ha). rewrite Forall_forall in Hf.
  by rewrite (finished_exec _ _ _ _ Hst (Hf y Hy)).
Qed.

(** Whatever the order and the number of workers: an image with features (and words, if needed) is left alone, every other gets its
    features, words and report, and no other file changes *)
Theorem C56_schedule force images m m' : plain_names images -> all_run (detect_features force images) m m' ->
  (forall i, i ∈ images -> processed force m m' i /\ reported force m m' i) /\ others_kept images m m'.
Proof.
  intros Hn Hr. split; [|destruct Hr as (l' & Hs & _); by destruct (pool_images _ _ _ _ _ _ _ _ _ Hn Hs)].
  intros i Hi. pose proof (run_image _ _ _ _ _ Hn Hr Hi) as Ha. pose proof (Ha (feature_file i) ltac:(left; by left)) as H1. pose proof (Ha (words_file i) ltac:(left; right; by left)) as H2. pose proof (Ha (feature_report i) ltac:(left; right; by right)) as H3.
  pose proof (feature_words i i). pose proof (feature_report_neq i i). pose proof (words_report_neq i i).
  destruct (detect_cases need_words features_of words_of report_of force m i) as [(Hk & He & _)|(Hk & He & _)]; rewrite He in H1, H2, H3; cbn [fst] in *.
  - split; split; done.
  - rewrite save_exec in H1, H2, H3. cbn [fst] in *. rewrite lookup_insert in H3. rewrite lookup_insert_ne in H1, H2 by done.
    split; split; try done; intros _. destruct need_words; cbn [id] in *.
    + rewrite lookup_insert_ne, lookup_insert in H1 by done. by rewrite lookup_insert in H2.
    + rewrite lookup_insert in H1. by rewrite lookup_insert_ne in H2.
Qed.

(** Killed at any point: the files are old, new or the beginning of the new; the words are touched only once the features are whole, the
    report once both are *)
Theorem C56_killed force images m m' : plain_names images -> all_killed (detect_features force images) m m' ->
  others_kept images m m' /\ forall i, i ∈ images ->
  (skipped force m i -> forall p, own i p -> m' !! p = m !! p) /\
  (m' !! feature_file i = m !! feature_file i \/ exists s, String.prefix s (features_of i) = true /\ m' !! feature_file i = Some s) /\
  (m' !! words_file i = m !! words_file i \/
     m' !! feature_file i = Some (features_of i) /\ need_words = true /\ exists s, String.prefix s (words_of i) = true /\ m' !! words_file i = Some s) /\
  (m' !! feature_report i = m !! feature_report i \/
     m' !! feature_file i = Some (features_of i) /\ (need_words = true -> m' !! words_file i = Some (words_of i)) /\
     exists s, String.prefix s (report_of i) = true /\ m' !! feature_report i = Some s).
Proof.
  intros Hn (l' & Hs). destruct (pool_images _ _ _ _ _ _ _ _ _ Hn Hs) as [H Ho]. split; [done|]. intros i Hi. destruct (H i Hi) as (y & n & _ & Hst & Ha).
  assert (reach (detect need_words features_of words_of report_of force i) m n) as Hr by (apply killed_reach; by eexists).
  assert (forall p, own i p -> m' !! p = n !! p) as Hp by (intros p Hp; apply Ha; by left). clear Ha H Hst.
  rewrite (Hp (feature_file i)), (Hp (words_file i)), (Hp (feature_report i)) by (unfold own; auto).
  pose proof (feature_words i i) as N1. pose proof (feature_report_neq i i) as N2. pose proof (words_report_neq i i) as N3.
  destruct (detect_cases need_words features_of words_of report_of force m i) as [(Hk & _ & He)|(Hk & _ & He)]; apply He in Hr; clear He.
  { subst n. split; [|auto]. intros _ p Hpp. by rewrite (Hp p Hpp). }
  split; [done|]. apply save_reach in Hr as [->|[(s & Hpre & ->)|[(s & Hnw & Hpre & ->)|(s & Hpre & ->)]]].
  - auto.
  - rewrite lookup_insert, !(lookup_insert_ne _ (feature_file i)) by done. split_and!; [right; eauto|by left|by left].
  - rewrite lookup_insert, !(lookup_insert_ne _ (words_file i)), lookup_insert, (lookup_insert_ne _ (feature_file i)) by done.
    split_and!; [right; exists (features_of i); split; [apply prefix_refl|done]|right; eauto|by left].
  - rewrite lookup_insert, !(lookup_insert_ne _ (feature_report i)) by done.
    assert (forall A (a b : A), (if need_words then a else b) = (if need_words then a else b)) as _ by done. destruct need_words; cbn [id].
    + rewrite lookup_insert, lookup_insert_ne, lookup_insert by done. split_and!; [right; exists (features_of i); split; [apply prefix_refl|done]|right; split_and!; [done|done|exists (words_of i); split; [apply prefix_refl|done]]|right; eauto].
    + rewrite lookup_insert, lookup_insert_ne by done. split_and!; [right; exists (features_of i); split; [apply prefix_refl|done]|by left|right; split_and!; [done|done|eauto]].
Qed.

(** Run again after a kill that tore no file: the features and words are those of a run that was not killed *)
Theorem C56_rerun images m m1 m2 : plain_names images ->
  (forall i, i ∈ images -> is_Some (m !! words_file i) -> is_Some (m !! feature_file i)) ->
  all_killed (detect_features false images) m m1 ->
  (forall i, i ∈ images -> untorn m m1 (feature_file i) (features_of i) /\ untorn m m1 (words_file i) (words_of i)) ->
  all_run (detect_features false images) m1 m2 ->
  forall i, i ∈ images -> processed false m m2 i.
Proof.
  intros Hn Hw Hk Hu Hr i Hi. destruct (C56_killed _ _ _ _ Hn Hk) as [Ho Hki]. destruct (Hki i Hi) as (K0 & K1 & K2 & _). destruct (C56_schedule _ _ _ _ Hn Hr) as [Hp _]. destruct (Hp i Hi) as [[P1 P2] _].
  destruct (Hu i Hi) as [U1 U2]. destruct (legacy_feature_neq images i Hn Hi) as [L1 L2].
  assert (m1 !! feature_file_legacy i = m !! feature_file_legacy i) as HL.
  { apply Ho. intros j Hj [E|[E|E]]; destruct Hn as [_ Hn'].
    - apply legacy_feature in E. by destruct (Hn' j i Hj Hi).
    - apply legacy_words in E. by destruct (Hn' j i Hj Hi).
    - symmetry in E. by apply report_neq in E. }
  split.
  - intros Hs. assert (m1 !! feature_file i = m !! feature_file i) as E1 by (apply K0; [done|by left]). assert (m1 !! words_file i = m !! words_file i) as E2 by (apply K0; [done|right; by left]).
    destruct P1 as [-> ->]; [|done]. destruct Hs as (S1 & S2 & S3). split; [done|]. rewrite E1, E2, HL. done.
  - intros Hs. destruct (skipped_dec need_words false m1 i) as [Hs1|Hs1].
    + destruct (P1 Hs1) as [-> ->]. destruct Hs1 as (_ & S2 & S3). destruct K2 as [K2|(K2 & Hnw & s & _ & K3)].
      * rewrite K2 in S3 |- *. destruct U1 as [U1|U1].
        -- exfalso. apply Hs. split; [done|]. rewrite <- U1, <- HL. done.
        -- split; [done|]. destruct need_words eqn:Enw; [|done]. exfalso. apply Hs. split; [done|]. split; [left; apply Hw; [done|by apply S3]|done].
      * split; [done|]. rewrite Hnw. destruct U2 as [U2|U2]; [|done]. exfalso. apply Hs. split; [done|]. assert (is_Some (m !! words_file i)) by (rewrite <- U2; eauto). split; [left; by apply Hw|done].
    + destruct (P2 Hs1) as [-> ->]. split; [done|]. destruct need_words; [done|]. by destruct K2 as [?|(_ & ? & _)].
Qed.

(** Run again after a complete run: nothing changes *)
Theorem C56_repeat force images m m1 m2 : plain_names images -> all_run (detect_features force images) m m1 -> all_run (detect_features false images) m1 m2 -> m2 = m1.
Proof.
  intros Hn H1 H2. destruct (C56_schedule _ _ _ _ Hn H1) as [P1 O1]. destruct (C56_schedule _ _ _ _ Hn H2) as [P2 O2]. apply map_eq. intros p.
  destruct (decide (Exists (fun i => p = feature_file i \/ p = words_file i \/ p = feature_report i) images)) as [(i & Hi & Hp)%Exists_exists|Hnone].
  2: { apply O2. intros i Hi Hp. apply Hnone, Exists_exists. by exists i. }
  destruct (P1 i Hi) as [[A1 A2] _]. destruct (P2 i Hi) as [[B1 _] [C1 _]]. assert (skipped false m1 i) as Hs.
  { split; [done|]. destruct (skipped_dec need_words force m i) as [Hs|Hs].
    - destruct (A1 Hs) as [-> ->]. destruct Hs as (_ & S2 & S3). split; [|done]. destruct S2 as [S2|S2]; [by left|right]. rewrite O1; [done|]. intros j Hj [E|[E|E]]; destruct Hn as [_ Hn'].
      + apply legacy_feature in E. by destruct (Hn' j i Hj Hi).
      + apply legacy_words in E. by destruct (Hn' j i Hj Hi).
      + symmetry in E. by apply report_neq in E.
    - destruct (A2 Hs) as [-> ->]. split; [left; eauto|]. intros ->. eauto. }
  destruct (B1 Hs) as [E1 E2]. destruct Hp as [-> |[-> | ->]]; [done|done|by apply C1].
Qed.
(** A forced run sets everything right, whatever was there *)
Theorem C56_forced images m m' : plain_names images -> all_run (detect_features true images) m m' ->
  forall i, i ∈ images -> m' !! feature_file i = Some (features_of i) /\ (need_words = true -> m' !! words_file i = Some (words_of i)) /\ m' !! feature_report i = Some (report_of i).
Proof.
  intros Hn H i Hi. destruct (C56_schedule _ _ _ _ Hn H) as [P _]. destruct (P i Hi) as [[_ P1] [_ P2]]. assert (~ skipped true m i) as Hs by (by intros [? _]).
  destruct (P1 Hs) as [-> E2]. split; [done|]. split; [|by apply P2]. intros E. by rewrite E in E2.
Qed.
(** Any other run keeps a feature file that is there, even a torn one *)
Theorem C56_torn_stays images m m' i s : plain_names images -> i ∈ images -> m !! feature_file i = Some s -> (need_words = true -> is_Some (m !! words_file i)) ->
  all_run (detect_features false images) m m' -> m' !! feature_file i = Some s.
Proof.
  intros Hn Hi Hs Hw H. destruct (C56_schedule _ _ _ _ Hn H) as [P _]. destruct (P i Hi) as [[P1 _] _]. destruct P1 as [-> _]; [|done]. split; [done|]. split; [left; eauto|done].
Qed.
End C56.
(** Some run does end *)
Lemma pool_ends {A} (l : list (prog A)) m : exists m', all_run l m m'.
Proof.
  enough (forall (dl l : list (prog A)) (m : fs), Forall finished dl -> exists l' m', psteps (dl ++ l) m l' m' /\ Forall finished l') as H.
  { destruct (H [] l m) as (l' & m' & ? & ?); [constructor|]. exists m', l'. done. }
  clear. intros dl l. revert dl. induction l as [|x l IH]; intros dl m Hd; [rewrite app_nil_r; do 2 eexists; split; [constructor|done]|].
  destruct (exec_runs x m) as (y & Hst & Hy). assert (finished y) as Hf by (by destruct y).
  destruct (IH (dl ++ [y]) (exec x m).1) as (l' & m' & H1 & H2); [apply Forall_app; split; [done|by constructor]|]. exists l', m'. split; [|done].
  revert H1. rewrite <- app_assoc. cbn [app]. intros Hl. clear IH Hf Hy H2 Hd. revert Hst Hl. generalize (exec x m).1. intros m1 Hst. induction Hst as [x m|x m x1 m2 x2 m3 Hs _ IHs]; intros Hl; [done|].
  apply (psteps_S (dl ++ x :: l) m (length dl) x x1 m2); [by rewrite list_lookup_middle|done|].
  replace (<[length dl := x1]> (dl ++ x :: l)) with (dl ++ x1 :: l); [by apply IHs|]. by rewrite insert_app_r_alt, Nat.sub_diag by lia.
Qed.
(** A kill that tears a feature file is not repaired by running again *)
Theorem C56_rerun_torn_refuted :
  ~ forall need_words features_of words_of report_of images m m1 m2, plain_names images ->
      (forall i, i ∈ images -> is_Some (m !! words_file i) -> is_Some (m !! feature_file i)) ->
      all_killed (detect_features need_words features_of words_of report_of false images) m m1 ->
      all_run (detect_features need_words features_of words_of report_of false images) m1 m2 ->
      forall i, i ∈ images -> processed need_words features_of words_of false m m2 i.
Proof.
  intros H. set (l := detect_features false (fun _ => "npz"%string) (fun _ => "w"%string) (fun _ => "r"%string) false ["a.jpg"%string]). assert (plain_names ["a.jpg"%string]) as Hn.
  { split; [apply NoDup_singleton|]. intros i j ->%elem_of_list_singleton ->%elem_of_list_singleton. done. }
  destruct (pool_ends l {[feature_file "a.jpg" := ""%string]}) as [m2 H2].
  pose proof (H false (fun _ => "npz"%string) (fun _ => "w"%string) (fun _ => "r"%string) ["a.jpg"%string] ∅ {[feature_file "a.jpg" := ""%string]} m2 Hn) as H'.
  destruct (H' ltac:(intros i _ [x Hx]; by rewrite lookup_empty in Hx)) with (i := "a.jpg"%string) as [_ P]; [|done|by left|].
  - exists [Saving (feature_file "a.jpg") "npz" (Save (feature_report "a.jpg") "r" (Ret tt))].
    eapply (psteps_S _ _ 0); [done|apply step_isfile|]. rewrite bool_decide_eq_false_2 by (intros [x Hx]; by rewrite lookup_empty in Hx). cbn [negb andb list_insert insert].
    eapply (psteps_S _ _ 0); [done|apply step_isfile|]. rewrite bool_decide_eq_false_2 by (intros [x Hx]; by rewrite lookup_empty in Hx). cbn.
    eapply (psteps_S _ _ 0); [done|apply step_open|]. cbn. apply psteps_0.
  - destruct P as [P _].
    + intros (_ & [[x Hx]|[x Hx]] & _); by rewrite lookup_empty in Hx.
    + rewrite (C56_torn_stays false _ _ _ _ _ _ "a.jpg" "" Hn ltac:(by left) ltac:(by rewrite lookup_singleton) ltac:(done) H2) in P. congruence.
Qed.
(** A legacy feature file hides the features of a forced run *)
Theorem C56_legacy_refuted :
  ~ forall need_words features_of words_of report_of images m m', plain_names images -> all_run (detect_features need_words features_of words_of report_of true images) m m' ->
      forall i, i ∈ images -> load_features m' i = Some (features_of i).
Proof.
  intros H. assert (plain_names ["a.jpg"%string]) as Hn. { split; [apply NoDup_singleton|]. intros i j ->%elem_of_list_singleton ->%elem_of_list_singleton. done. }
  set (l := detect_features false (fun _ => "npz"%string) (fun _ => "w"%string) (fun _ => "r"%string) true ["a.jpg"%string]).
  destruct (pool_ends l {[feature_file_legacy "a.jpg" := "old"%string]}) as [m' H2]. pose proof (H false (fun _ => "npz"%string) (fun _ => "w"%string) (fun _ => "r"%string) _ _ _ Hn H2 "a.jpg"%string ltac:(by left)) as E.
  destruct (C56_schedule _ _ _ _ _ _ _ _ Hn H2) as [_ Ho]. unfold load_features in E. rewrite (Ho (feature_file_legacy "a.jpg")) in E; [by rewrite lookup_singleton in E|]. intros i ->%elem_of_list_singleton. by intros [?|[?|?]].
Qed.
Print Assumptions C56_schedule.
Print Assumptions C56_killed.
Print Assumptions C56_rerun.
Print Assumptions C56_repeat.
Print Assumptions C56_forced.
Print Assumptions C56_torn_stays.
Print Assumptions C56_rerun_torn_refuted.
Print Assumptions C56_legacy_refuted.
(** Without the condition on the words: old words without features survive a kill between the two files *)
Theorem C56_stale_words_refuted :
  ~ forall features_of words_of report_of images m m1 m2, plain_names images ->
      all_killed (detect_features true features_of words_of report_of false images) m m1 ->
      (forall i, i ∈ images -> untorn m m1 (feature_file i) (features_of i) /\ untorn m m1 (words_file i) (words_of i)) ->
      all_run (detect_features true features_of words_of report_of false images) m1 m2 ->
      forall i, i ∈ images -> processed true features_of words_of false m m2 i.
Proof.
  intros H. assert (plain_names ["a.jpg"%string]) as Hn. { split; [apply NoDup_singleton|]. intros i j ->%elem_of_list_singleton ->%elem_of_list_singleton. done. }
  set (m := {[words_file "a.jpg" := "old"%string]} : fs). set (m1 := <[feature_file "a.jpg" := "npz"%string]> m).
  destruct (pool_ends (detect_features true (fun _ => "npz"%string) (fun _ => "w"%string) (fun _ => "r"%string) false ["a.jpg"%string]) m1) as [m2 H2].
  destruct (H (fun _ => "npz"%string) (fun _ => "w"%string) (fun _ => "r"%string) ["a.jpg"%string] m m1 m2 Hn) with (i := "a.jpg"%string) as [_ P]; [| |done|by left|].
  - exists [Save (words_file "a.jpg") "w" (Save (feature_report "a.jpg") "r" (Ret tt))].
    eapply (psteps_S _ _ 0); [done|apply step_isfile|]. rewrite bool_decide_eq_true_2 by (unfold m; rewrite lookup_singleton; eauto). cbn [negb andb list_insert insert features_exist].
    eapply (psteps_S _ _ 0); [done|apply step_isfile|]. rewrite bool_decide_eq_false_2 by (unfold m; rewrite lookup_singleton_ne by done; by intros []). cbn.
    eapply (psteps_S _ _ 0); [done|apply step_isfile|]. rewrite bool_decide_eq_false_2 by (unfold m; rewrite lookup_singleton_ne by done; by intros []). cbn.
    eapply (psteps_S _ _ 0); [done|apply step_open|]. cbn. eapply (psteps_S _ _ 0); [done|apply step_close|]. rewrite insert_insert. apply psteps_0.
  - intros i ->%elem_of_list_singleton. split; [right; by apply lookup_insert|left]. unfold m1. by rewrite lookup_insert_ne.
  - destruct P as [_ P].
    + intros (_ & [[x Hx]|[x Hx]] & _); unfold m in Hx; by rewrite lookup_singleton_ne in Hx.
    + destruct (C56_schedule _ _ _ _ _ _ _ _ Hn H2) as [Hp _]. destruct (Hp "a.jpg"%string ltac:(by left)) as [[Q _] _]. destruct Q as [_ Q].
      * split; [done|]. split; [left; unfold m1; rewrite lookup_insert; eauto|]. intros _. unfold m1, m. rewrite lookup_insert_ne, lookup_singleton by done. eauto.
      * rewrite P in Q. unfold m1, m in Q. by rewrite lookup_insert_ne, lookup_singleton in Q.
Qed.
Print Assumptions C56_stale_words_refuted.

(** The hypotheses are met: three images, one of them done before, killed after the features of another *)
Definition ex_images : list string := ["a.jpg"; "b.jpg"; "c.jpg"]%string.
Example C56_names : plain_names ex_images.
Proof.
  split; [by apply (bool_decide_unpack _)|]. intros i j Hi Hj. unfold ex_images in *. rewrite !elem_of_cons, elem_of_nil in Hi, Hj. destruct Hi as [->|[->|[->|[]]]], Hj as [->|[->|[->|[]]]]; done.
Qed.
Example C56_nonvacuous : exists m m1 m2,
  all_killed (detect_features true id id id false ex_images) m m1 /\ m1 <> m /\
  (forall i, i ∈ ex_images -> is_Some (m !! words_file i) -> is_Some (m !! feature_file i)) /\
  (forall i, i ∈ ex_images -> untorn m m1 (feature_file i) i /\ untorn m m1 (words_file i) i) /\
  all_run (detect_features true id id id false ex_images) m1 m2.
Proof.
  set (m := {[feature_file "a.jpg" := "old"%string; words_file "a.jpg" := "old"%string]} : fs). set (m1 := <[feature_file "b.jpg" := "b.jpg"%string]> m).
  destruct (pool_ends (detect_features true id id id false ex_images) m1) as [m2 H2]. exists m, m1, m2. split; [|split; [|split; [|split; [|done]]]].
  - eexists. unfold detect_features, ex_images. cbn [fmap list_fmap]. 
    eapply (psteps_S _ _ 1); [done|apply step_isfile|]. rewrite bool_decide_eq_false_2 by (by vm_compute; intros []). cbn.
    eapply (psteps_S _ _ 1); [done|apply step_isfile|]. rewrite bool_decide_eq_false_2 by (by vm_compute; intros []). cbn.
    eapply (psteps_S _ _ 1); [done|apply step_isfile|]. rewrite bool_decide_eq_false_2 by (by vm_compute; intros []). cbn.
    eapply (psteps_S _ _ 1); [done|apply step_open|]. cbn. eapply (psteps_S _ _ 1); [done|apply step_close|]. rewrite insert_insert. apply psteps_0.
  - intros E. assert (m1 !! feature_file "b.jpg" = m !! feature_file "b.jpg") as E' by by rewrite E. unfold m1 in E'. rewrite lookup_insert in E'. by vm_compute in E'.
  - intros i Hi. unfold ex_images in Hi. rewrite !elem_of_cons, elem_of_nil in Hi. destruct Hi as [->|[->|[->|[]]]]; vm_compute; intros []; eauto; done.
  - intros i Hi. unfold ex_images in Hi. rewrite !elem_of_cons, elem_of_nil in Hi. destruct Hi as [->|[->|[->|[]]]]; split; vm_compute; auto.
Qed.
