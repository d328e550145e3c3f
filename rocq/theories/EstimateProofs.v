(** Proofs about the estimation of depth maps *)
From stdpp Require Import prelude.
From Coq Require Import Reals Lra Psatz.
From Verif Require Import Base Lin PixelModel DenseModel DenseSpec DenseProofs DenseProps.
Local Open Scope R_scope.

Section Estimator.
Variable s : settings.
Variable first : view.
Variable others : list view.
Variable sample : bool.
Notation K := (vw_K first).
(** The score and the neighbour of a pixel are those of its plane *)
Definition scored (i j : Z) (p : pixel) : Prop :=
  if sample then px_score p = ComputePlaneImageScore s first others i j (px_plane p) (px_nghbr p)
  else (px_score p, px_nghbr p) = ComputePlaneScore s first others i j (px_plane p).
Definition fresh (i j : Z) (p : pixel) : Prop := scored i j p /\ px_depth p = DepthOfPlaneBackprojection (IZR j) (IZR i) K (px_plane p).
Definition step (i j : Z) (p p' : pixel) : Prop := p' = p \/ px_score p < px_score p' /\ fresh i j p'.
Lemma step_trans i j p q r : step i j p q -> step i j q r -> step i j p r.
Proof. intros [-> |[H1 F1]] [-> |[H2 F2]]; [by left|by right|by right|]. right. split; [lra|done]. Qed.
Definition local (i j : Z) (r r' : result) : Prop := step i j (r i j) (r' i j) /\ forall i' j', (i', j') <> (i, j) -> r' i' j' = r i' j'.
Lemma local_refl i j r : local i j r r. Proof. split; [by left|done]. Qed.
Lemma local_trans i j r1 r2 r3 : local i j r1 r2 -> local i j r2 r3 -> local i j r1 r3.
Proof. intros [S1 E1] [S2 E2]. split; [by eapply step_trans|]. intros. by rewrite E2, E1. Qed.
Lemma assign_same r i j p : AssignPixel r i j p i j = p. Proof. unfold AssignPixel. by rewrite decide_True. Qed.
Lemma assign_other r i j p i' j' : (i', j') <> (i, j) -> AssignPixel r i j p i' j' = r i' j'.
Proof. intros H. unfold AssignPixel. rewrite decide_False; [done|]. intros [-> ->]. done. Qed.
Lemma image_candidate_local r i j plane k : sample = true -> local i j r (CheckPlaneImageCandidate s first others r i j plane k).
Proof.
  intros Es. unfold CheckPlaneImageCandidate. cbv zeta. destruct (Rlt_dec _ _) as [L|L]; [|apply local_refl]. split; [|intros; by apply assign_other].
  rewrite assign_same. right. split; [done|]. split; [|done]. unfold scored. by rewrite Es.
Qed.
Lemma check_local r i j plane k : local i j r (check s first others sample r i j plane k).
Proof.
  unfold check. destruct sample eqn:Es; [apply image_candidate_local; done|]. unfold CheckPlaneCandidate. destruct (ComputePlaneScore _ _ _ _ _ _) as [sc n] eqn:E.
  destruct (Rlt_dec _ _) as [L|L]; [|apply local_refl]. split; [|intros; by apply assign_other]. rewrite assign_same. right. split; [done|]. split; [|done]. unfold scored. rewrite Es. done.
Qed.
Lemma propagate_local i j a : forall r, local i j r (foldl (propagate s first others sample i j) r a).
Proof.
  induction a as [|d a IH]; intros r; [apply local_refl|]. cbn. eapply local_trans; [|apply IH]. unfold propagate. destruct (Req_EM_T _ 0); [apply local_refl|apply check_local].
Qed.
Lemma refine_local i j k draws : forall r dr nr, local i j r (refine s first others sample i j k r dr nr draws).
Proof.
  induction draws as [|[[g n1] n2] draws IH]; intros r dr nr; [apply local_refl|]. cbn. destruct (Req_EM_T _ 0); [apply IH|]. eapply local_trans; [|apply IH]. apply check_local.
Qed.
Lemma update_local a d r i j : local i j r (PatchMatchUpdatePixel s first others sample a d r i j).
Proof.
  unfold PatchMatchUpdatePixel. destruct (Req_EM_T _ 0); [apply local_refl|]. cbv zeta. eapply local_trans; [apply (propagate_local i j a)|].
  eapply local_trans; [apply refine_local|]. destruct (negb sample) eqn:Es; [apply local_refl|]. cbn [orb]. destruct (_ <=? _)%nat; [apply local_refl|].
  apply image_candidate_local. by destruct sample.
Qed.
Lemma update_skip a d r i j : px_depth (r i j) = 0 -> PatchMatchUpdatePixel s first others sample a d r i j = r.
Proof. intros H. unfold PatchMatchUpdatePixel. destruct (Req_EM_T _ 0); done. Qed.
(** What happens to a pixel during any number of passes *)
Definition better (r r' : result) : Prop := forall i j, r' i j = r i j \/
  px_depth (r i j) <> 0 /\ (i, j) ∈ inner s first /\ px_score (r i j) < px_score (r' i j) /\ fresh i j (r' i j).
Lemma better_refl r : better r r. Proof. intros i j. by left. Qed.
Lemma better_trans r1 r2 r3 : better r1 r2 -> better r2 r3 -> better r1 r3.
Proof.
  intros B1 B2 i j. destruct (B1 i j) as [E1|(D1 & I1 & S1 & F1)], (B2 i j) as [E2|(D2 & I2 & S2 & F2)].
  - left. congruence.
  - right. rewrite <-E1. done.
  - right. rewrite E2. done.
  - right. split; [done|]. split; [done|]. split; [lra|done].
Qed.
Lemma update_better a d r i j : (i, j) ∈ inner s first -> better r (PatchMatchUpdatePixel s first others sample a d r i j).
Proof.
  intros Hin. destruct (Req_EM_T (px_depth (r i j)) 0) as [E|E]; [rewrite update_skip by done; apply better_refl|].
  destruct (update_local a d r i j) as [S O]. intros i' j'. destruct (decide ((i', j') = (i, j))) as [[= -> ->]|N]; [|left; by apply O].
  destruct S as [->|[L F]]; [by left|right; done].
Qed.
Lemma pass_better a d l : (forall ij, ij ∈ l -> ij ∈ inner s first) -> forall r, better r (foldl (fun r ij => PatchMatchUpdatePixel s first others sample a (d ij) r ij.1 ij.2) r l).
Proof.
  induction l as [|[i j] l IH]; intros H r; [apply better_refl|]. cbn. eapply better_trans; [|apply IH; intros; apply H; by right]. apply update_better, H. left.
Qed.
Lemma forward_better d r : better r (PatchMatchForwardPass s first others sample d r).
Proof. apply (pass_better _ (fun ij => d ij.1 ij.2)). done. Qed.
Lemma backward_better d r : better r (PatchMatchBackwardPass s first others sample d r).
Proof. apply (pass_better _ (fun ij => d ij.1 ij.2)). intros ij. by rewrite elem_of_reverse. Qed.
Lemma iterations_better draws n : forall k r, better r (iterations s first others sample draws n k r).
Proof.
  induction n as [|n IH]; intros k r; [apply better_refl|]. cbn. eapply better_trans; [|apply IH]. eapply better_trans; [apply forward_better|apply backward_better].
Qed.
Lemma iterations_add draws n m : forall k r, iterations s first others sample draws (n + m) k r = iterations s first others sample draws m (2 * n + k) (iterations s first others sample draws n k r).
Proof.
  induction n as [|n IH]; intros k r; [done|]. cbn [Nat.add iterations]. rewrite IH. f_equal. lia.
Qed.
(** ** What the passes start from *)
Variable init : Z -> Z -> R * (R * R) * nat.
Lemma initialization_at l i j : forall r, foldl (fun r ij => AssignPixel r ij.1 ij.2 (initial_pixel s first others sample init ij.1 ij.2)) r l i j =
  if decide ((i, j) ∈ l) then initial_pixel s first others sample init i j else r i j.
Proof.
  induction l as [|[a b] l IH]; intros r; [rewrite decide_False by (by intros ?%elem_of_nil); done|]. cbn. rewrite IH.
  destruct (decide ((i, j) ∈ l)) as [H|H]; [rewrite decide_True by (by right); done|].
  destruct (decide ((i, j) = (a, b))) as [[= -> ->]|N].
  - rewrite decide_True by left. apply assign_same.
  - rewrite decide_False by (by intros [|]%elem_of_cons). by apply assign_other.
Qed.
Lemma ignore_at l i j : forall r, foldl (fun r ij => if ignored s first ij.1 ij.2 then AssignPixel r ij.1 ij.2 (Pixel 0 v0 0 0) else r) r l i j =
  if decide ((i, j) ∈ l /\ ignored s first i j = true) then Pixel 0 v0 0 0 else r i j.
Proof.
  induction l as [|[a b] l IH]; intros r; [rewrite decide_False by (by intros [?%elem_of_nil _]); done|]. cbn. rewrite IH.
  destruct (decide ((i, j) ∈ l /\ ignored s first i j = true)) as [[H1 H2]|H]; [rewrite decide_True by (split; [by right|done]); done|].
  destruct (decide ((i, j) = (a, b))) as [[= -> ->]|N].
  - destruct (ignored s first a b) eqn:E; [rewrite decide_True by (split; [left|done]); apply assign_same|]. rewrite decide_False by (by intros [_ ?]). done.
  - rewrite (decide_False (P := _ /\ _)) by (intros [[?|?]%elem_of_cons ?]; [done|by apply H]). destruct (ignored s first a b); [by apply assign_other|done].
Qed.
Definition base : result := ComputeIgnoreMask s first (RandomInitialization s first others sample init AssignMatrices).
Lemma base_at i j : base i j = if decide ((i, j) ∈ inner s first) then if ignored s first i j then Pixel 0 v0 0 0 else initial_pixel s first others sample init i j else Pixel 0 v0 0 0.
Proof.
  unfold base, ComputeIgnoreMask, RandomInitialization. rewrite ignore_at, initialization_at. destruct (decide ((i, j) ∈ inner s first)) as [H|H].
  - destruct (ignored s first i j) eqn:E; [rewrite decide_True by done; done|rewrite decide_False by (by intros [_ ?]); done].
  - rewrite decide_False by (by intros [? _]). done.
Qed.
Lemma initial_scored i j : scored i j (initial_pixel s first others sample init i j).
Proof.
  unfold initial_pixel. destruct (init i j) as [[u [n1 n2]] k]. cbv zeta. unfold scored. destruct sample; [done|]. destruct (ComputePlaneScore _ _ _ _ _ _) as [sc n] eqn:E. cbn. done.
Qed.
Lemma initial_depth i j : px_depth (initial_pixel s first others sample init i j) = exp (ln (min_depth s) + (ln (max_depth s) - ln (min_depth s)) * (init i j).1.1).
Proof. unfold initial_pixel. destruct (init i j) as [[u [n1 n2]] k]. cbv zeta. destruct sample; [done|]. by destruct (ComputePlaneScore _ _ _ _ _ _). Qed.
(** ** Neighbours, when they are drawn *)
Definition valid_nghbr (p : pixel) : Prop := (1 <= px_nghbr p <= length others)%nat.
Definition all_valid (r : result) : Prop := forall i j, px_depth (r i j) <> 0 -> valid_nghbr (r i j).
Lemma image_candidate_valid r i j plane k : all_valid r -> (1 <= k <= length others)%nat -> all_valid (CheckPlaneImageCandidate s first others r i j plane k).
Proof.
  intros A Hk. unfold CheckPlaneImageCandidate. cbv zeta. destruct (Rlt_dec _ _); [|done]. intros i' j'. destruct (decide ((i', j') = (i, j))) as [[= -> ->]|N].
  - rewrite assign_same. done.
  - rewrite assign_other by done. apply A.
Qed.
Lemma check_valid r i j plane k : sample = true -> all_valid r -> (1 <= k <= length others)%nat -> all_valid (check s first others sample r i j plane k).
Proof. intros Es A Hk. unfold check. rewrite Es. by apply image_candidate_valid. Qed.
Lemma fresh_depth i j p : fresh i j p -> 0 < px_depth p.
Proof. intros [_ ->]. apply C81_depth_range. Qed.
Lemma update_valid a d r i j : sample = true -> (1 <= d.2 <= length others)%nat -> all_valid r -> all_valid (PatchMatchUpdatePixel s first others sample a d r i j).
Proof.
  intros Es Hd A. unfold PatchMatchUpdatePixel. destruct (Req_EM_T _ 0) as [|D]; [done|]. cbv zeta.
  assert (forall a r, all_valid r -> all_valid (foldl (propagate s first others sample i j) r a)) as P.
  { clear -Es. induction a as [|x a IH]; intros r A; [done|]. cbn. apply IH. unfold propagate. destruct (Req_EM_T _ 0) as [|N]; [done|]. apply check_valid; [done|done|]. by apply A. }
  assert (forall k draws r dr nr, (1 <= k <= length others)%nat -> all_valid r -> all_valid (refine s first others sample i j k r dr nr draws)) as Q.
  { clear -Es. intros k. induction draws as [|[[g n1] n2] draws IH]; intros r dr nr Hk A; [done|]. cbn. destruct (Req_EM_T _ 0); [by apply IH|]. apply IH; [done|]. by apply check_valid. }
  set (r1 := foldl _ r a). assert (all_valid r1) as A1 by (by apply P). assert (px_depth (r1 i j) <> 0) as D1.
  { destruct (propagate_local i j a r) as [[E|[_ F]] _]; [unfold r1; by rewrite E|]. apply fresh_depth in F. unfold r1. lra. }
  destruct (negb sample || (length others <=? 1)%nat); [apply Q; [by apply A1|done]|]. apply image_candidate_valid; [|done]. apply Q; [by apply A1|done].
Qed.
Lemma iterations_valid draws n : sample = true -> (forall k i j, (1 <= (draws k i j).2 <= length others)%nat) -> forall k r, all_valid r -> all_valid (iterations s first others sample draws n k r).
Proof.
  intros Es Hd. assert (forall a d l r, (forall ij, (1 <= (d ij).2 <= length others)%nat) -> all_valid r -> all_valid (foldl (fun r ij => PatchMatchUpdatePixel s first others sample a (d ij) r ij.1 ij.2) r l)) as P.
  { intros a d l. induction l as [|ij l IH]; intros r H A; [done|]. cbn. apply IH; [done|]. by apply update_valid. }
  induction n as [|n IH]; intros k r A; [done|]. cbn. apply IH. apply (P _ (fun ij => draws (S k) ij.1 ij.2)); [done|]. by apply (P _ (fun ij => draws k ij.1 ij.2)).
Qed.
End Estimator.
(** ** Brute force *)
Section Brute.
Variable s : settings.
Variable first : view.
Variable others : list view.
Definition candidate (i j : Z) (d : nat) : vec := PlaneFromDepthAndNormal (IZR j) (IZR i) (vw_K first) (depth_of_plane_index s d) (Vec 0 0 (-1)).
Definition best_of (i j : Z) (n : nat) (p : pixel) : Prop :=
  (forall d, (d < n)%nat -> (ComputePlaneScore s first others i j (candidate i j d)).1 <= px_score p) /\
  (p = Pixel 0 v0 0 0 \/ exists d, (d < n)%nat /\ 0 < px_score p /\ px_plane p = candidate i j d /\ (px_score p, px_nghbr p) = ComputePlaneScore s first others i j (candidate i j d)
     /\ px_depth p = DepthOfPlaneBackprojection (IZR j) (IZR i) (vw_K first) (candidate i j d)).
Lemma candidates_other i j n : forall r i' j', (i', j') <> (i, j) ->
  foldl (fun r d => CheckPlaneCandidate s first others r i j (candidate i j d)) r (seq 0 n) i' j' = r i' j'.
Proof.
  intros r i' j' N. generalize (seq 0 n). intros l. revert r. induction l as [|d l IH]; intros r; [done|]. cbn. rewrite IH. unfold CheckPlaneCandidate.
  destruct (ComputePlaneScore _ _ _ _ _ _). destruct (Rlt_dec _ _); [by apply assign_other|done].
Qed.
Lemma candidates_best i j r n : r i j = Pixel 0 v0 0 0 -> best_of i j n (foldl (fun r d => CheckPlaneCandidate s first others r i j (candidate i j d)) r (seq 0 n) i j).
Proof.
  intros E. induction n as [|n IH]; [split; [intros; lia|]; by left|]. rewrite seq_S, foldl_app. cbn. set (r' := foldl _ r (seq 0 n)) in *. destruct IH as [M D].
  assert (0 <= px_score (r' i j)) as P by (destruct D as [-> |(d & _ & ? & _)]; cbn; lra).
  unfold CheckPlaneCandidate. destruct (ComputePlaneScore s first others i j (candidate i j n)) as [sc k] eqn:ES. destruct (Rlt_dec _ _) as [L|L].
  - rewrite assign_same. split; cbn.
    + intros d Hd. destruct (decide (d = n)) as [-> |]; [rewrite ES; cbn; lra|]. assert ((ComputePlaneScore s first others i j (candidate i j d)).1 <= px_score (r' i j)) by (apply M; lia). lra.
    + right. exists n. split; [lia|]. split; [lra|]. done.
  - split.
    + intros d Hd. destruct (decide (d = n)) as [-> |]; [rewrite ES; cbn; lra|]. apply M. lia.
    + destruct D as [D|(d & Hd & D)]; [by left|]. right. exists d. split; [lia|done].
Qed.
Lemma brute_force_at i j : forall l r, NoDup l -> r i j = Pixel 0 v0 0 0 ->
  if decide ((i, j) ∈ l) then best_of i j (num_depth_planes s) (foldl (brute_force_pixel s first others) r l i j) else foldl (brute_force_pixel s first others) r l i j = r i j.
Proof.
  induction l as [|[a b] l IH]; intros r ND E; [rewrite decide_False by (by intros ?%elem_of_nil); done|]. apply NoDup_cons in ND as [NI ND].
  cbn [foldl]. destruct (decide ((i, j) = (a, b))) as [[= -> ->]|N].
  - rewrite decide_True by left. assert (forall r, foldl (brute_force_pixel s first others) r l a b = r a b) as F.
    { clear -NI. induction l as [|[c d] l IH]; intros r; [done|]. cbn. rewrite IH by (by intros ?; apply NI; right). apply candidates_other. intros [= -> ->]. apply NI. left. }
    rewrite F. by apply (candidates_best a b r).
  - assert (brute_force_pixel s first others r (a, b) i j = r i j) as E2 by (by apply (candidates_other a b _ r)).
    specialize (IH (brute_force_pixel s first others r (a, b)) ND ltac:(congruence)). destruct (decide ((i, j) ∈ l)) as [H|H].
    + rewrite decide_True by (by right). done.
    + rewrite decide_False by (by intros [|]%elem_of_cons). congruence.
Qed.
End Brute.
