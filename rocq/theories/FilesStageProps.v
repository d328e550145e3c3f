(** Stages that overwrite what they write: killed at any point and run again they give what they would have given (C58). *)
From stdpp Require Import prelude gmap strings.
From Coq Require Import Lia.
From Verif Require Import Base TextProofs FilesModel FilesSpec FilesProofs.

(** ** The saves of a program, with what it reads taken from [m] *)
Fixpoint script {A} (x : prog A) (m : fs) : list (string * string) * res A :=
  match x with
  | Ret a => ([], Ok a)
  | Raise e => ([], Err e)
  | IsFile p k => script (k (bool_decide (is_Some (m !! p)))) m
  | Read p k => script (k (m !! p)) m
  | Save p s k | Saving p s k => let '(l, r) := script k m in ((p, s) :: l, r)
  end.
Definition put (m : fs) (l : list (string * string)) : fs := foldl (fun m ps => <[ps.1 := ps.2]> m) m l.
Lemma put_app m l l' : put m (l ++ l') = put (put m l) l'. Proof. apply foldl_app. Qed.
(** the last save to a path counts *)
Lemma put_lookup m l p : put m l !! p = match list_find (fun ps => ps.1 = p) (reverse l) with Some (_, ps) => Some ps.2 | None => m !! p end.
Proof.
  induction l as [|[q s] l IH] using rev_ind; [done|]. rewrite put_app, reverse_app. cbn. destruct (decide (q = p)) as [->|Hne]; [by rewrite lookup_insert|].
  rewrite lookup_insert_ne, IH by done. by destruct (list_find _ (reverse l)) as [[]|].
Qed.
Lemma script_agree {A} (R W : string -> Prop) (x : prog A) m n : confined R W x -> agree R m n -> script x m = script x n.
Proof.
  intros Hc Ha. induction x as [a|e|p k IH|p k IH|p s k IH|p s k IH]; cbn in *; try done.
  - destruct Hc as [Hp Hk]. rewrite (Ha p Hp). by apply IH.
  - destruct Hc as [Hp Hk]. rewrite (Ha p Hp). by apply IH.
  - destruct Hc as [_ Hk]. by rewrite IH.
  - destruct Hc as [_ Hk]. by rewrite IH.
Qed.
Lemma script_writes {A} (R W : string -> Prop) (x : prog A) m : confined R W x -> Forall (fun ps => W ps.1) (script x m).1.
Proof.
  intros Hc. induction x as [a|e|p k IH|p k IH|p s k IH|p s k IH]; cbn in *; try constructor.
  - apply IH, Hc.
  - apply IH, Hc.
  - destruct Hc as [Hw Hk]. specialize (IH Hk). destruct (script k m). by constructor.
  - destruct Hc as [Hw Hk]. specialize (IH Hk). destruct (script k m). by constructor.
Qed.
Lemma agree_out (R W : string -> Prop) m p s : (forall p, R p -> ~ W p) -> W p -> agree R m (<[p := s]> m).
Proof. intros Hd Hw q Hq. rewrite lookup_insert_ne; [done|]. intros ->. by apply (Hd q). Qed.
Lemma exec_script {A} (R W : string -> Prop) (x : prog A) m : (forall p, R p -> ~ W p) -> confined R W x -> exec x m = (put m (script x m).1, (script x m).2).
Proof.
  intros Hd. revert m. induction x as [a|e|p k IH|p k IH|p s k IH|p s k IH]; intros m Hc; cbn in *; try done.
  - apply IH, Hc.
  - apply IH, Hc.
  - destruct Hc as [Hw Hk]. rewrite IH, (script_agree R W k m (<[p:=s]> m)) by (done || by eapply agree_out). by destruct (script k (<[p:=s]> m)).
  - destruct Hc as [Hw Hk]. rewrite IH, (script_agree R W k m (<[p:=s]> m)) by (done || by eapply agree_out). by destruct (script k (<[p:=s]> m)).
Qed.
(** a state on the way: some of the saves, the last one perhaps not whole *)
Lemma reach_script {A} (R W : string -> Prop) (x : prog A) m n : (forall p, R p -> ~ W p) -> confined R W x -> reach x m n ->
  exists l l', (script x m).1 = l ++ l' /\ (n = put m l \/ exists p s s' l'', l' = (p, s) :: l'' /\ n = <[p := s']> (put m l)).
Proof.
  intros Hd. revert m. induction x as [a|e|p k IH|p k IH|p s k IH|p s k IH]; intros m Hc Hr; cbn in *.
  - destruct Hr as [->|[]]. exists [], []. auto.
  - destruct Hr as [->|[]]. exists [], []. auto.
  - destruct Hr as [->|Hr]; [|apply IH; [apply Hc|done]]. eexists [], _. auto.
  - destruct Hr as [->|Hr]; [|apply IH; [apply Hc|done]]. eexists [], _. auto.
  - destruct Hr as [->|[(s' & _ & ->)|Hr]]; [eexists [], _; by auto|eexists [], _; split; [done|]; right; exists p, s, s'; destruct (script k m); eexists; eauto|].
    destruct Hc as [Hw Hk]. apply IH in Hr as (l & l' & E & H); [|done]. rewrite <- (script_agree R W k m) in E by (done || by eapply agree_out). exists ((p, s) :: l), l'. split; [|done]. destruct (script k m). cbn in *. by rewrite E.
  - destruct Hr as [->|[(s' & _ & ->)|Hr]]; [eexists [], _; by auto|eexists [], _; split; [done|]; right; exists p, s, s'; destruct (script k m); eexists; eauto|].
    destruct Hc as [Hw Hk]. apply IH in Hr as (l & l' & E & H); [|done]. rewrite <- (script_agree R W k m) in E by (done || by eapply agree_out). exists ((p, s) :: l), l'. split; [|done]. destruct (script k m). cbn in *. by rewrite E.
Qed.
Lemma again {A} (R W : string -> Prop) (x : prog A) m n : (forall p, R p -> ~ W p) -> confined R W x -> reach x m n -> exec x n = exec x m.
Proof.
  intros Hd Hc Hr. destruct (reach_script R W x m n Hd Hc Hr) as (l & l' & E & H). pose proof (script_writes R W x m Hc) as HW. rewrite E in HW. apply Forall_app in HW as [HW1 HW2].
  assert (forall p, ~ (exists ps, ps ∈ (script x m).1 /\ ps.1 = p) -> n !! p = m !! p) as Hout.
  { intros p Hp. assert (put m l !! p = m !! p) as E1.
    { rewrite put_lookup. destruct (list_find _ (reverse l)) as [[j ps]|] eqn:F; [|done]. apply list_find_Some in F as (F1 & F2 & _). destruct Hp. exists ps. split; [|done]. rewrite E. apply elem_of_app. left. apply elem_of_reverse. by eapply elem_of_list_lookup_2. }
    destruct H as [->|(q & s & s' & l'' & -> & ->)]; [done|]. rewrite lookup_insert_ne; [done|]. intros ->. apply Hp. exists (p, s). split; [|done]. rewrite E. apply elem_of_app. right. by left. }
  assert (agree R m n) as Ha.
  { intros p Hp. symmetry. apply Hout. intros (ps & Hps & <-). rewrite E in Hps. apply (Hd _ Hp). apply elem_of_app in Hps as [Hps|Hps]; [rewrite Forall_forall in HW1; by apply HW1|rewrite Forall_forall in HW2; by apply HW2]. }
  rewrite !(exec_script R W x) by done. rewrite <- (script_agree R W x m n) by done. f_equal. apply map_eq. intros p. rewrite !put_lookup. destruct (list_find _ (reverse _)) as [[]|] eqn:F; [done|].
  apply Hout. intros (ps & Hps & <-). apply list_find_None in F. rewrite Forall_forall in F. apply (F ps); [by apply elem_of_reverse|done].
Qed.
(** A program that looks at no path it writes, killed at any point, even while writing, and run again, ends as it would have: with the
    same outcome and the same files *)
Theorem C58_overwrite {A} (R W : string -> Prop) (x : prog A) m m1 r m2 r' m2' : (forall p, R p -> ~ W p) -> confined R W x ->
  killed x m m1 -> runs x m1 r m2 -> runs x m r' m2' -> r = r' /\ m2 = m2'.
Proof.
  intros Hd Hc Hk. rewrite !runs_exec. rewrite (again R W x m m1 Hd Hc) by (by apply killed_reach). intros -> [= -> ->]. done.
Qed.
(** ** The stages *)
Lemma read_all_confined {A} (R W : string -> Prop) inputs (k : list (option string) -> prog A) : Forall R inputs -> (forall l, confined R W (k l)) -> confined R W (read_all inputs k).
Proof. intros H. revert k. induction H as [|p inputs Hp _ IH]; intros k Hk; cbn; [done|]. split; [done|]. intros c. apply IH. intros l. apply Hk. Qed.
Lemma save_all_confined {A} (R W : string -> Prop) outputs (k : prog A) : Forall (fun ps => W ps.1) outputs -> confined R W k -> confined R W (save_all outputs k).
Proof. intros H Hk. induction H as [|[p s] outputs Hp _ IH]; cbn; done. Qed.
Lemma slash_report name : report_file name <> reference_file. Proof. done. Qed.
Lemma create_confined images compute : confined (fun p => exists i, i ∈ images /\ (p = feature_file_legacy i \/ p = feature_file i \/ p = matches_file i))
  (fun p => p = tracks_file \/ p = report_file "tracks.json") (create_tracks images compute).
Proof.
  apply read_all_confined.
  - rewrite !Forall_app, !Forall_forall. split_and!; intros p (i & -> & Hi)%elem_of_list_fmap; exists i; auto.
  - intros l. destruct (compute l) as [[t r]|]; [|done]. apply save_all_confined; [|done]. apply Forall_cons; split; [by left|]. apply Forall_cons; split; [by right|constructor].
Qed.
Theorem C58_create_tracks images compute m m1 r m2 r' m2' :
  killed (create_tracks images compute) m m1 -> runs (create_tracks images compute) m1 r m2 -> runs (create_tracks images compute) m r' m2' -> r = r' /\ m2 = m2'.
Proof.
  apply (C58_overwrite _ _ _ _ _ _ _ _ _) with (2 := create_confined images compute). intros p (i & _ & [->|[->| ->]]) [H|H]; done.
Qed.
(** the stages that may make up the reference *)
Lemma read_all_exec {A} inputs (k : list (option string) -> prog A) m : exec (read_all inputs k) m = exec (k ((fun p => m !! p) <$> inputs)) m.
Proof. revert k. induction inputs as [|p inputs IH]; intros k; cbn; [done|]. by rewrite IH. Qed.
Lemma read_all_reach {A} inputs (k : list (option string) -> prog A) m n : reach (read_all inputs k) m n -> n = m \/ reach (k ((fun p => m !! p) <$> inputs)) m n.
Proof. revert k. induction inputs as [|p inputs IH]; intros k; cbn; [auto|]. intros [->|H]; [by left|]. by apply IH in H. Qed.
Lemma reference_exec {A} inputs invent (k : prog A) m : exec (init_reference inputs invent k) m =
  match m !! reference_file with Some _ => exec k m | None => exec k (<[reference_file := invent ((fun p => m !! p) <$> inputs)]> m) end.
Proof.
  unfold init_reference. cbn [exec]. destruct (m !! reference_file) as [s|].
  - by rewrite bool_decide_eq_true_2 by eauto.
  - rewrite bool_decide_eq_false_2 by (by intros []). by rewrite read_all_exec.
Qed.
Lemma reference_reach {A} inputs invent (k : prog A) m n : reach (init_reference inputs invent k) m n -> n = m \/
  match m !! reference_file with
  | Some _ => reach k m n
  | None => (exists s, String.prefix s (invent ((fun p => m !! p) <$> inputs)) = true /\ n = <[reference_file := s]> m) \/ reach k (<[reference_file := invent ((fun p => m !! p) <$> inputs)]> m) n
  end.
Proof.
  unfold init_reference. cbn [reach]. intros [->|H]; [by left|]. destruct (m !! reference_file) as [s|].
  - rewrite bool_decide_eq_true_2 in H by eauto. by right.
  - rewrite bool_decide_eq_false_2 in H by (by intros []). apply read_all_reach in H as [->|[->|H]]; [by left|by left|by right].
Qed.
Lemma confined_kept {A} (R W : string -> Prop) (x : prog A) m n p : confined R W x -> ~ W p -> reach x m n -> n !! p = m !! p.
Proof.
  intros Hc Hp. revert m Hc. induction x as [a|e|q k IH|q k IH|q s k IH|q s k IH]; intros m Hc Hr; cbn in *.
  - by destruct Hr as [->|[]].
  - by destruct Hr as [->|[]].
  - destruct Hr as [->|Hr]; [done|]. eapply IH; [apply Hc|done].
  - destruct Hr as [->|Hr]; [done|]. eapply IH; [apply Hc|done].
  - destruct Hc as [Hw Hc]. assert (q <> p) by congruence. destruct Hr as [->|[(s' & _ & ->)|Hr]]; [done|by rewrite lookup_insert_ne|]. rewrite (IH _ Hc Hr). by rewrite lookup_insert_ne.
  - destruct Hc as [Hw Hc]. assert (q <> p) by congruence. destruct Hr as [->|[(s' & _ & ->)|Hr]]; [done|by rewrite lookup_insert_ne|]. rewrite (IH _ Hc Hr). by rewrite lookup_insert_ne.
Qed.
Lemma reference_again {A} (R W : string -> Prop) inputs invent (k : prog A) m n : (forall p, R p -> ~ W p) -> confined R W k -> R reference_file ->
  reach (init_reference inputs invent k) m n -> untorn m n reference_file (invent ((fun p => m !! p) <$> inputs)) ->
  exec (init_reference inputs invent k) n = exec (init_reference inputs invent k) m.
Proof.
  intros Hd Hc HR Hr Hu. apply reference_reach in Hr as [->|Hr]; [done|]. rewrite !reference_exec. destruct (m !! reference_file) as [s|] eqn:E.
  - rewrite (confined_kept R W k m n reference_file Hc (Hd _ HR) Hr), E. by eapply again.
  - destruct Hr as [(s & _ & ->)|Hr].
    + destruct Hu as [Hu|Hu]; rewrite lookup_insert in Hu; [congruence|]. injection Hu as ->. by rewrite lookup_insert.
    + rewrite (confined_kept R W k _ n reference_file Hc (Hd _ HR) Hr), lookup_insert. by eapply again.
Qed.
Section Stages.
Variable inputs : list string.
Variable invent : list (option string) -> string.
(** The reference the stage will use *)
Definition reference (m : fs) : string := match m !! reference_file with Some s => s | None => invent ((fun p => m !! p) <$> inputs) end.
Definition match_outputs (images : list string) (p : string) : Prop := p = report_file "matches.json" \/ exists i, i ∈ images /\ p = matches_file i.
Definition reconstruct_outputs (p : string) : Prop := p = reconstruction_file \/ p = report_file "reconstruction.json".
Lemma match_confined images compute : confined (fun p => p = reference_file \/ p ∈ inputs) (match_outputs images)
  (read_all (reference_file :: inputs) (fun l =>
    match compute l with
    | None => Raise ValueError
    | Some (matches, report) => save_all (((fun i => (matches_file i, matches i)) <$> images) ++ [(report_file "matches.json", report)]) (Ret tt)
    end)).
Proof.
  apply read_all_confined; [apply Forall_cons; split; [by left|]; apply Forall_forall; auto|]. intros l. destruct (compute l) as [[ms r]|]; [|done]. apply save_all_confined; [|done].
  apply Forall_app. split; [|apply Forall_cons; split; [by left|constructor]]. apply Forall_forall. intros ps (i & -> & Hi)%elem_of_list_fmap. right. exists i. done.
Qed.
Lemma reconstruct_confined compute t : confined (fun p => p = reference_file \/ p ∈ inputs) reconstruct_outputs
  (read_all (reference_file :: inputs) (fun l =>
        match compute (t :: l) with
        | None => Raise ValueError
        | Some (r, report) => save_all [(reconstruction_file, r); (report_file "reconstruction.json", report)] (Ret tt)
        end) : prog unit).
Proof.
  apply read_all_confined; [apply Forall_cons; split; [by left|]; apply Forall_forall; auto|]. intros l. destruct (compute (t :: l)) as [[ms r]|]; [|done]. apply save_all_confined; [|done].
  apply Forall_cons; split; [by left|]. apply Forall_cons; split; [by right|constructor].
Qed.
Lemma match_disjoint images : (forall p, p ∈ inputs -> ~ match_outputs images p) -> forall p, p = reference_file \/ p ∈ inputs -> ~ match_outputs images p.
Proof. intros H p [->|Hp]; [|by apply H]. intros [?|(i & _ & ?)]; done. Qed.
Lemma reconstruct_disjoint : (forall p, p ∈ inputs -> ~ reconstruct_outputs p) -> forall p, p = reference_file \/ p ∈ inputs -> ~ reconstruct_outputs p.
Proof. intros H p [->|Hp]; [|by apply H]. by intros [?|?]. Qed.
(** match_features and reconstruct, provided the kill did not tear the reference *)
Theorem C58_match_features images compute m m1 r m2 r' m2' : (forall p, p ∈ inputs -> ~ match_outputs images p) ->
  killed (match_features images inputs invent compute) m m1 -> untorn m m1 reference_file (reference m) ->
  runs (match_features images inputs invent compute) m1 r m2 -> runs (match_features images inputs invent compute) m r' m2' -> r = r' /\ m2 = m2'.
Proof.
  intros Hd Hk Hu. rewrite !runs_exec. apply killed_reach in Hk. assert (exec (match_features images inputs invent compute) m1 = exec (match_features images inputs invent compute) m) as ->.
  { eapply reference_again; [apply (match_disjoint images Hd)|apply match_confined|by left|exact Hk|]. unfold reference in Hu. destruct (m !! reference_file) eqn:E; [left; by destruct Hu as [Hu|Hu]; rewrite Hu, ?E|done]. }
  intros -> [= <- <-]. done.
Qed.
Theorem C58_reconstruct compute m m1 r m2 r' m2' : (forall p, p ∈ inputs -> ~ reconstruct_outputs p) ->
  killed (reconstruct inputs invent compute) m m1 -> untorn m m1 reference_file (reference m) ->
  runs (reconstruct inputs invent compute) m1 r m2 -> runs (reconstruct inputs invent compute) m r' m2' -> r = r' /\ m2 = m2'.
Proof.
  intros Hd Hk Hu. rewrite !runs_exec. apply killed_reach in Hk. assert (exec (reconstruct inputs invent compute) m1 = exec (reconstruct inputs invent compute) m) as ->.
  { unfold reconstruct in *. cbn [exec reach] in *. destruct Hk as [->|Hk]; [done|]. destruct (m !! tracks_file) as [t|] eqn:Et; [|cbn in Hk; destruct Hk as [->|[]]; by rewrite Et].
    assert (m1 !! tracks_file = Some t) as ->.
    { apply reference_reach in Hk as [->|Hk]; [done|]. destruct (m !! reference_file) eqn:E.
      - rewrite <- Et. eapply confined_kept; [apply reconstruct_confined| |exact Hk]. by intros [?|?].
      - destruct Hk as [(s & _ & ->)|Hk]; [by rewrite lookup_insert_ne|]. erewrite confined_kept; [|apply reconstruct_confined| |exact Hk]; [by rewrite lookup_insert_ne|by intros [?|?]]. }
    eapply reference_again; [apply (reconstruct_disjoint Hd)|apply reconstruct_confined|by left|exact Hk|]. unfold reference in Hu. destruct (m !! reference_file) eqn:E; [left; by destruct Hu as [Hu|Hu]; rewrite Hu, ?E|done]. }
  intros -> [= <- <-]. done.
Qed.
(** The reference is made up once: a stage that finds one leaves it, whatever it holds *)
Theorem C58_reference_kept images compute m n s : m !! reference_file = Some s -> killed (match_features images inputs invent compute) m n -> n !! reference_file = Some s.
Proof.
  intros Hs Hk. apply killed_reach in Hk. apply reference_reach in Hk as [->|Hk]; [done|]. rewrite Hs in Hk. rewrite <- Hs. eapply confined_kept; [apply match_confined| |exact Hk]. intros [?|(i & _ & ?)]; done.
Qed.
Theorem C58_reference_made images compute m m' r : runs (match_features images inputs invent compute) m r m' -> m' !! reference_file = Some (reference m).
Proof.
  intros (y & Hs & Hy). assert (reach (match_features images inputs invent compute) m m') as Hr by (apply killed_reach; by exists y).
  assert (exec (match_features images inputs invent compute) m = (m', r)) as He. { apply runs_exec. by exists y. }
  unfold match_features in He. rewrite reference_exec in He. unfold reference. destruct (m !! reference_file) as [s|] eqn:E.
  - apply (C58_reference_kept images compute m m' s E). by exists y.
  - pose proof (exec_runs (read_all (reference_file :: inputs) (fun l =>
    match compute l with
    | None => Raise ValueError
    | Some (matches, report) => save_all (((fun i => (matches_file i, matches i)) <$> images) ++ [(report_file "matches.json", report)]) (Ret tt)
    end)) (<[reference_file := invent ((fun p => m !! p) <$> inputs)]> m)) as (z & Hz & _). rewrite He in Hz. cbn [fst] in Hz.
    erewrite confined_kept; [|apply match_confined| |apply killed_reach; by exists z]; [by rewrite lookup_insert|]. intros [?|(i & _ & ?)]; done.
Qed.
End Stages.
Print Assumptions C58_overwrite.
Print Assumptions C58_create_tracks.
Print Assumptions C58_match_features.
Print Assumptions C58_reconstruct.
Print Assumptions C58_reference_kept.
Print Assumptions C58_reference_made.
(** Without the condition on the reference: one that was torn is kept, and used *)
Theorem C58_torn_reference_refuted :
  ~ forall inputs invent images compute m m1 r m2 r' m2', (forall p, p ∈ inputs -> ~ match_outputs images p) -> killed (match_features images inputs invent compute) m m1 ->
      runs (match_features images inputs invent compute) m1 r m2 -> runs (match_features images inputs invent compute) m r' m2' -> r = r' /\ m2 = m2'.
Proof.
  intros H. set (c := fun l : list (option string) => match l with Some s :: _ => Some ((fun i : string => i), s) | _ => None end).
  set (x := match_features ["a"%string] [] (fun _ => "{lat}"%string) c).
  assert (killed x ∅ {[reference_file := ""%string]}) as Hk.
  { eexists. eapply steps_S; [apply step_isfile|]. rewrite bool_decide_eq_false_2 by (rewrite lookup_empty; by intros []). eapply steps_S; [apply step_open|]. apply steps_0. }
  destruct (H [] (fun _ => "{lat}"%string) ["a"%string] c ∅ {[reference_file := ""%string]} (Ok tt) (exec x {[reference_file := ""%string]}).1 (Ok tt) (exec x ∅).1 ltac:(by intros p Hp%elem_of_nil) Hk) as [_ E]; [by apply runs_exec|by apply runs_exec|].
  apply (f_equal (fun m : fs => m !! reference_file)) in E. by vm_compute in E.
Qed.
Print Assumptions C58_torn_reference_refuted.
(** Runs that are killed half way through the reconstruction: the file is torn, the next run replaces it *)
Example C58_nonvacuous : exists inputs invent compute m m1 m2,
  (forall p, p ∈ inputs -> ~ reconstruct_outputs p) /\ killed (reconstruct inputs invent compute) m m1 /\ untorn m m1 reference_file (reference inputs invent m) /\
  m1 !! reconstruction_file = Some "[poi"%string /\ runs (reconstruct inputs invent compute) m1 (Ok tt) m2 /\ m2 !! reconstruction_file = Some "[points]"%string /\
  m2 !! reference_file = Some "{lat}"%string /\ m2 !! report_file "reconstruction.json" = Some "tracks"%string.
Proof.
  set (c := fun l : list (option string) => match l with Some s :: _ => Some ("[points]"%string, s) | _ => None end). set (m := {[tracks_file := "tracks"%string]} : fs).
  exists [exif_file "a"], (fun _ => "{lat}"%string), c, m, (<[reconstruction_file := "[poi"%string]> (<[reference_file := "{lat}"%string]> m)). eexists. split_and!.
  - intros p ->%elem_of_list_singleton. by intros [?|?].
  - eexists. eapply steps_S; [apply step_read|]. change (m !! tracks_file) with (Some "tracks"%string). cbn. eapply steps_S; [apply step_isfile|].
    replace (bool_decide (is_Some (m !! reference_file))) with false by done. cbn. eapply steps_S; [apply step_read|]. eapply steps_S; [apply step_open|]. eapply steps_S; [apply step_close|]. rewrite insert_insert. eapply steps_S; [apply step_read|]. eapply steps_S; [apply step_read|]. cbn.
    eapply steps_S; [apply step_open|]. eapply steps_S; [by apply (step_write _ _ "[poi")|]. rewrite insert_insert. apply steps_0.
  - right. done.
  - done.
  - by apply runs_exec.
  - done.
  - done.
  - done.
Qed.
