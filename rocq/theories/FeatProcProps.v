(** C23, C24: the threads of the feature extraction. *)
From stdpp Require Import prelude list strings.
From Verif Require Import Base FeatProcModel FeatProcSpec FeatProcProofs.

(** ** C23 *)
(** For every list of images, every number of processes above one, every number of readers, every queue capacity and every
    interleaving: no image is detected more often than it occurs in the list; when all tasks are finished the detected images
    are exactly the images; and a detector stops only when every image was taken by a detector. *)
Theorem C23_exactly_once :
  forall images processes readers cap chunks st, 2 <= processes -> plan images processes readers = Ok chunks ->
  reachable cap processes images chunks st ->
  (exists todo, detected (sh st) ++ todo ≡ₚ images) /\
  (final st -> detected (sh st) ≡ₚ images) /\
  (CDone ∈ running st -> detected (sh st) ++ in_detection st ≡ₚ images).
Proof.
  intros images processes readers cap chunks st Hp Hplan Hr. destruct (plan_spec _ _ _ _ Hp Hplan) as (Hj & Hne & Hlen & Himg).
  destruct (reachable_inv _ _ _ _ _ Hj Hne Himg Hr) as [Hi Hf]. destruct Hi as [Hcnt _ _ _ _ Hnone _ Hend Hlive _ Hkind].
  split_and!.
  - exists (qimgs (queue (sh st)) ++ mjoin (map held (running st ++ waiting st))). apply cnt_perm. intros x. rewrite !cnt_app.
    rewrite <- (Hcnt x). assert (forall L, cnt x (mjoin (map held L)) = tot (fun t => cnt x (held t)) L) as E.
    { induction L as [|t L IH]; [done|]. cbn [map]. change (mjoin (held t :: map held L)) with (held t ++ mjoin (map held L)). rewrite cnt_app, tot_cons. by rewrite IH. }
    rewrite E. lia.
  - intros [Hfin Hw]. rewrite Hw, app_nil_r in *. rewrite Forall_forall in Hfin.
    assert (0 < tot cend (running st)) as Hce.
    { destruct (kinds _ _ _ Hkind) as [_ Hkc]. assert (exists t, t ∈ filter (fun t => isprod t = false) (running st)) as (t & [Ht1 Ht2]%elem_of_list_filter).
      { destruct (filter (fun t => isprod t = false) (running st)) as [|u l]; [cbn in Hkc; lia|]. exists u. by left. }
      specialize (Hfin t Ht2). pose proof (tot_elem cend t _ Ht2) as Hx. destruct t; cbn in *; try done; lia. }
    apply cnt_perm. intros x. rewrite <- (Hcnt x), (Hend Hce). rewrite (tot_zero _ (running st)); [cbn; lia|].
    intros t Ht. specialize (Hfin t Ht). by destruct t.
  - intros Hd. assert (0 < tot cend (running st ++ waiting st)) as Hce.
    { rewrite tot_app. pose proof (tot_elem cend CDone _ Hd) as Hx. cbn in Hx. lia. }
    assert (tot uninc (running st ++ waiting st) = 0) as Hu by (apply Hnone; lia).
    apply cnt_perm. intros x. rewrite <- (Hcnt x), (Hend Hce), cnt_app. unfold in_detection.
    assert (forall L, tot uninc L = 0 -> tot (fun t => cnt x (held t)) L = cnt x (omap (fun t => match t with CDet x => Some x | _ => None end) L)) as E.
    { induction L as [|t L IH]; [done|]. rewrite !tot_cons. intros Hz. rewrite IH by lia.
      destruct t as [y [|? ?]|[|? ?]|[|? ?]|[|? ?]|v [|? ?]|[|? ?]| | |y| |]; cbn in *; try lia; try done. destruct (String.string_dec y x); cbn; unfold cnt; lia. }
    rewrite tot_app in Hu. rewrite tot_app, (E (running st)) by lia. rewrite (tot_zero _ (waiting st)); [cbn; lia|].
    intros t Ht. rewrite Forall_forall in Hf. destruct (Hf t Ht) as [->|(y & l & ->)]; [done|]. exfalso. pose proof (tot_elem uninc _ _ Ht) as Hx. cbn in Hx. lia.
Qed.
Print Assumptions C23_exactly_once.

(** When the extraction starts: the readers' chunks are the list of images cut in consecutive non-empty pieces, with fewer
    readers than processes; it fails exactly when there is no image or no reader. *)
Theorem C23_plan :
  forall images processes readers, 2 <= processes ->
  match plan images processes readers with
  | Ok chunks => mjoin chunks = images /\ Forall (fun c => c <> []) chunks /\ 1 <= length chunks < processes
  | Err e => e = ZeroDivisionError /\ (images = [] \/ readers = 0)
  end.
Proof.
  intros images processes readers Hp. destruct (plan images processes readers) as [chunks|e] eqn:E.
  - destruct (plan_spec _ _ _ _ Hp E) as (? & ? & ? & _). done.
  - revert E. unfold plan. set (rp := if decide (2 * processes <= 3 * readers) then _ else _).
    case_decide as H0; [intros [= <-]; split; [done|right]; unfold rp in H0; case_decide; lia|].
    case_decide as H1; [|done]. intros [= <-]. split; [done|left].
    destruct (ceil_div_spec (length images) rp) as [H2 _]; [lia|]. rewrite H1 in H2. destruct images; [done|cbn in H2; lia].
Qed.
Print Assumptions C23_plan.

(** A single process: every image is detected once, in order, unless the queue has capacity 1. *)
Theorem C23_one_process : forall cap images, cap <> 1 -> one_process cap images [] [] = Some ([], images).
Proof. intros cap images H. exact (one_process_ok cap images H []). Qed.
Print Assumptions C23_one_process.

(** ** C24 *)
(** Every run is finite, with a bound known at the start, for every capacity. *)
Theorem C24_bounded :
  forall images processes readers cap chunks n st, 2 <= processes -> plan images processes readers = Ok chunks ->
  nsteps (step cap (length images) (jobs processes chunks)) n (start images processes chunks) st ->
  n <= 9 * length images + 5 * processes.
Proof.
  intros images processes readers cap chunks n st Hp Hplan Hn. destruct (plan_spec _ _ _ _ Hp Hplan) as (Hj & Hne & Hlen & Himg).
  apply measure_nsteps in Hn. enough (measure (start images processes chunks) <= 9 * length images + 5 * processes) by lia.
  unfold measure, start. cbn [sh running waiting queue qweight sum_list_with app]. rewrite tot_app, app_length, map_length, replicate_length.
  assert (tot weight (replicate processes CGet) = 3 * processes) as ->.
  { clear. induction processes as [|p IH]; [done|]. cbn [replicate]. rewrite tot_cons, IH. cbn. lia. }
  assert (tot weight (map producer chunks) = 9 * length images) as ->.
  { rewrite <- Hj. clear. induction chunks as [|c cs IH]; [done|]. cbn [map]. rewrite tot_cons, IH. change (mjoin (c :: cs)) with (c ++ mjoin cs). rewrite app_length. destruct c; cbn [producer weight length]; lia. }
  unfold qweight. cbn. lia.
Qed.
Print Assumptions C24_bounded.

(** The number of actions is bounded; some thread can always act until all tasks are finished, when the queue is unbounded or
    can hold one sentinel per reader. *)
Theorem C24_progress_partial :
  forall images processes readers cap chunks st, 2 <= processes -> plan images processes readers = Ok chunks ->
  cap = 0 \/ length chunks <= cap ->
  reachable cap processes images chunks st ->
  final st \/ exists st', step cap (length images) (jobs processes chunks) st st'.
Proof.
  intros images processes readers cap chunks st Hp Hplan Hcap Hr. destruct (plan_spec _ _ _ _ Hp Hplan) as (Hj & Hne & Hlen & Himg).
  pose proof (reachable_inv _ _ _ _ _ Hj Hne Himg Hr) as Hi.
  apply (progress _ _ (length chunks) processes); [done| |lia|lia|done]. unfold jobs. lia.
Qed.
Print Assumptions C24_progress_partial.

(** Without room for all sentinels it can hang: four processes, two readers, a queue of one image (an available memory below
    twice the image size gives this capacity). Both readers see the final count and put a sentinel, and the last detector
    waits forever to put back its own. *)
Definition C24_schedule : list (option nat) :=
  [None; None; None; None; (* start the readers 0, 1 and the detectors 2, 3 *)
   Some 0; Some 0; Some 2; Some 1; Some 1; Some 0; Some 0; Some 0; Some 1; Some 1; Some 1; Some 3; Some 3; Some 2; (* read and detect both images *)
   Some 0; Some 2; Some 1; (* sentinel, taken by detector 2, second sentinel: the queue is full *)
   None; None;              (* start detectors 4 and 5 *)
   Some 3; Some 2; Some 4; Some 3; Some 5; Some 4].
Theorem C24_small_queue_refuted :
  exists images processes readers cap chunks st, plan images processes readers = Ok chunks /\ cap = 1 /\ length chunks = 2 /\
    reachable cap processes images chunks st /\ ~ final st /\ forall st', ~ step cap (length images) (jobs processes chunks) st st'.
Proof.
  set (images := ["a"; "b"]). set (chunks := [["a"]; ["b"]]).
  destruct (run 1 2 (jobs 4 chunks) (start images 4 chunks) C24_schedule) as [st|] eqn:E; [|exfalso; vm_compute in E; discriminate E].
  exists images, 4, 2, 1, chunks, st. split; [by vm_compute|]. split; [done|]. split; [done|]. split; [by apply (run_rtc _ _ _ C24_schedule)|].
  vm_compute in E. injection E as <-. split.
  - intros [Hf _]. cbn in Hf. rewrite !Forall_cons in Hf. destruct Hf as (_ & _ & _ & _ & _ & Hf & _). done.
  - apply stuck_ok. by vm_compute.
Qed.
Print Assumptions C24_small_queue_refuted.

(** With a single process and a queue of one image, the first image blocks the only thread forever. *)
Theorem C24_one_process_refuted : exists cap, 1 <= cap /\ forall x l, one_process cap (x :: l) [] [] = None.
Proof. exists 1. split; [lia|]. intros x l. apply one_process_blocks. Qed.
Print Assumptions C24_one_process_refuted.
(** With several processes and no image the plan divides by zero. *)
Theorem C24_no_image_refuted : forall processes readers, 2 <= processes -> plan [] processes readers = Err ZeroDivisionError.
Proof.
  intros p r Hp. pose proof (C23_plan [] p r Hp) as H. destruct (plan [] p r) as [chunks|e] eqn:E.
  - destruct (plan_spec _ _ _ _ Hp E) as (_ & _ & _ & ?). done.
  - by destruct H as [-> _].
Qed.
Print Assumptions C24_no_image_refuted.

(** A concrete run to the end, with two readers, four detectors and a queue of two. *)
Example C23_nonvacuous :
  plan ["a"; "b"] 4 2 = Ok [["a"]; ["b"]] /\
  exists st, reachable 2 4 ["a"; "b"] [["a"]; ["b"]] st /\ final st /\ detected (sh st) = ["b"; "a"].
Proof.
  split; [by vm_compute|]. set (chunks := [["a"]; ["b"]]).
  destruct (run 2 2 (jobs 4 chunks) (start ["a"; "b"] 4 chunks) [None; None; None; None; Some 0; Some 0; Some 2; Some 1; Some 1; Some 0; Some 0; Some 0; Some 1; Some 1; Some 1; Some 3; Some 3; Some 2;
    Some 0; Some 2; Some 1; Some 2; None; Some 3; Some 3; None; Some 4; Some 4; Some 5; Some 5]) as [st|] eqn:E; [|exfalso; vm_compute in E; discriminate E].
  exists st. split; [by eapply run_rtc|]. vm_compute in E. injection E as <-. split; [|done]. split; [|done]. cbn. repeat constructor.
Qed.
