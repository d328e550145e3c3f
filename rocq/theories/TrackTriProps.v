(** C49. Triangulation of tracks. *)
From stdpp Require Import prelude gmap strings.
From Coq Require Import Reals Lra Lia Psatz.
From Verif Require Import Base Lin RotModel PoseModel PoseSpec PoseProofs TriangModel TriangSpec TriangProofs TriangProps TrackTriModel TrackTriSpec TrackTriProofs.
Local Open Scope R_scope.

Lemma fold_step_inv (P : state -> Prop) refine rays th a m k draws s : (forall s u, P s -> P (step refine rays th a m k s u)) -> P s -> P (fold_left (step refine rays th a m k) draws s).
Proof. intros H. revert s. induction draws as [|u draws IH]; intros s Hs; cbn; auto. Qed.
(** The inliers kept are those of the point kept. *)
Lemma step_consistent refine rays th a m k s u : best_inliers s = [] \/ best_inliers s = inliers_of th (best_point s) rays ->
  let s' := step refine rays th a m k s u in best_inliers s' = [] \/ best_inliers s' = inliers_of th (best_point s') rays.
Proof.
  intros H. cbv zeta. unfold step. destruct (stopped s); [exact H|]. destruct (decide _); [exact H|]. destruct (_ !! _) as [[i j]|]; [|exact H].
  destruct (TriangulateBearingsMidpoint _ _ _ _) as [[X|]|]; [|exact H..]. cbv zeta. cbn [best_inliers best_point tried]. destruct (decide _); [|exact H]. right. cbn [best_inliers best_point]. now destruct (decide _).
Qed.
(** What is stored by the robust triangulation: a point, and exactly the views that agree with it, two at least. *)
Theorem C49_robust_sound refine draws views th a m k X ids : triangulate_robust refine draws views th a m k = Some (X, ids) ->
  exists kept, ids = map v_id kept /\ (2 <= length kept)%nat /\ kept `sublist_of` views /\ forall v, In v kept <-> In v views /\ agrees th X v.
Proof.
  unfold triangulate_robust. destruct (decide _) as [|Hl]; [discriminate|]. set (rays := map world_ray views). set (s := ransac _ _ _ _ _ _ _).
  destruct (decide (1 < length (best_inliers s))%nat) as [L|]; [|discriminate]. intros [= <- <-].
  assert (HS : best_inliers s = [] \/ best_inliers s = inliers_of th (best_point s) rays).
  { apply (fold_step_inv (fun s => best_inliers s = [] \/ best_inliers s = inliers_of th (best_point s) rays)); [|now left]. intros. now apply step_consistent. }
  destruct HS as [E|E]; [rewrite E in L; cbn in L; lia|].
  assert (F : select views (best_inliers s) = List.filter (fun v => reproj_ok th (best_point s) (world_ray v)) views).
  { rewrite E. unfold inliers_of, rays. rewrite map_map. apply select_nonzero. }
  exists (select views (best_inliers s)). split; [reflexivity|]. rewrite F. split; [|split; [apply filter_sublist|]].
  - rewrite E in L. unfold inliers_of in L. rewrite nonzero_length in L. unfold rays in L. rewrite map_map in L. clear - L.
    assert (G : forall l : list view, length (List.filter (fun b : bool => b) (map (fun v => reproj_ok th (best_point s) (world_ray v)) l)) = length (List.filter (fun v => reproj_ok th (best_point s) (world_ray v)) l)).
    { induction l as [|v l IH]; [reflexivity|]. cbn. destruct (reproj_ok _ _ _); cbn; rewrite IH; reflexivity. }
    rewrite G in L. lia.
  - intros v. rewrite filter_In, reproj_ok_agrees. reflexivity.
Qed.

Definition pair_inliers (refine : list (vec * vec) -> vec -> nat -> vec) rays th a m (k id : nat) : option nat :=
  match combinations (length rays) !! id with
  | None => None
  | Some (i, j) =>
    match TriangulateBearingsMidpoint (select rays [i; j]) (repeat th (length rays)) a m with
    | Some (Some X0) => Some (length (inliers_of th (refine (select rays [i; j]) X0 k) rays))
    | _ => None
    end
  end.
Lemma step_best refine rays th a m k s u : (forall id n, id ∈ tried s -> pair_inliers refine rays th a m k id = Some n -> (n <= length (best_inliers s))%nat) ->
  let s' := step refine rays th a m k s u in
  (forall id n, id ∈ tried s' -> pair_inliers refine rays th a m k id = Some n -> (n <= length (best_inliers s'))%nat) /\ (length (best_inliers s) <= length (best_inliers s'))%nat /\
  (stopped s = false -> forall n, pair_inliers refine rays th a m k (random_id rays u) = Some n -> (n <= length (best_inliers s'))%nat).
Proof.
  intros H. cbv zeta. unfold step. destruct (stopped s) eqn:ES; [split; [exact H|split; [lia|discriminate]]|].
  destruct (decide (random_id rays u ∈ tried s)) as [HI|HI]; [split; [exact H|split; [lia|]]; intros _ n; apply (H _ n HI)|].
  destruct (combinations (length rays) !! random_id rays u) as [[i j]|] eqn:EC; cbn [tried best_inliers best_point].
  2: { split; [exact H|]. split; [lia|]. intros _ n. unfold pair_inliers. rewrite EC. discriminate. }
  assert (HP : forall n, pair_inliers refine rays th a m k (random_id rays u) = Some n -> exists X0, TriangulateBearingsMidpoint (select rays [i; j]) (repeat th (length rays)) a m = Some (Some X0) /\ n = length (inliers_of th (refine (select rays [i; j]) X0 k) rays)).
  { intros n. unfold pair_inliers. rewrite EC. destruct (TriangulateBearingsMidpoint _ _ _ _) as [[X|]|]; [|discriminate..]. intros [= <-]. eauto. }
  destruct (TriangulateBearingsMidpoint (select rays [i; j]) _ _ _) as [[X|]|] eqn:ET.
  2,3: (split; [|split; [cbn; lia|intros _ n Hn; destruct (HP n Hn) as (X0 & E & _); discriminate]]; cbn; intros id n Hid Hn; apply elem_of_cons in Hid as [->|Hid]; [destruct (HP n Hn) as (X0 & E & _); discriminate|eapply H; eassumption]).
  set (inl := inliers_of th (refine (select rays [i; j]) X k) rays) in *.
  assert (HN : forall n, pair_inliers refine rays th a m k (random_id rays u) = Some n -> n = length inl) by (intros n Hn; destruct (HP n Hn) as (X0 & [= <-] & ->); reflexivity).
  destruct (decide (length (best_inliers s) < length inl)%nat) as [L|L]; cbn [best_inliers tried].
  - set (best := if decide _ then _ else _). assert (B : (length inl <= length best.1)%nat) by (unfold best; destruct (decide _); cbn [fst]; lia).
    split; [|split; [lia|intros _ n Hn; rewrite (HN n Hn); exact B]].
    intros id n Hid Hn. apply elem_of_cons in Hid as [->|Hid]; [rewrite (HN n Hn); exact B|specialize (H _ _ Hid Hn); lia].
  - split; [|split; [lia|intros _ n Hn; rewrite (HN n Hn); lia]].
    intros id n Hid Hn. apply elem_of_cons in Hid as [->|Hid]; [rewrite (HN n Hn); lia|specialize (H _ _ Hid Hn); lia].
Qed.
(** At least as many observations are kept as agree with the refined point of any pair that was drawn before the loop was left. *)
Theorem C49_robust_best refine rays th a m k pre u post i j X0 : stopped (ransac refine rays th a m k pre) = false ->
  combinations (length rays) !! random_id rays u = Some (i, j) ->
  TriangulateBearingsMidpoint (select rays [i; j]) (repeat th (length rays)) a m = Some (Some X0) ->
  (length (inliers_of th (refine (select rays [i; j]) X0 k) rays) <= length (best_inliers (ransac refine rays th a m k (pre ++ u :: post))))%nat.
Proof.
  intros HS EC ET. unfold ransac. rewrite fold_left_app. cbn [fold_left].
  set (P := fun s => forall id n, id ∈ tried s -> pair_inliers refine rays th a m k id = Some n -> (n <= length (best_inliers s))%nat).
  assert (P1 : P (fold_left (step refine rays th a m k) pre (State [] [] v0 false))).
  { apply fold_step_inv; [intros s v Hs; exact (proj1 (step_best _ _ _ _ _ _ _ v Hs))|]. intros id n Hid. apply elem_of_nil in Hid. contradiction. }
  fold (ransac refine rays th a m k pre) in *. destruct (step_best _ _ _ _ _ _ _ u P1) as (P2 & _ & B). specialize (B HS _ ltac:(unfold pair_inliers; rewrite EC, ET; reflexivity)).
  etransitivity; [exact B|].
  apply (fold_step_inv (fun s => P s /\ (length (best_inliers (step refine rays th a m k (ransac refine rays th a m k pre) u)) <= length (best_inliers s))%nat)).
  - intros s v [Hs L]. destruct (step_best _ _ _ _ _ _ _ v Hs) as (? & ? & _). split; [assumption|lia].
  - split; [exact P2|lia].
Qed.

(** Perfect views: the point and all the views are stored as soon as a pair that sees it under the angle asked is drawn. *)
Theorem C49_robust_complete refine draws views th a m k P u i j v w : descent refine -> 0 < th -> 0 < a ->
  (forall v, In v views -> exists d, m <= d /\ perfect P d v) ->
  In u draws -> combinations (length views) !! random_id (map world_ray views) u = Some (i, j) -> views !! i = Some v -> views !! j = Some w -> a <= view_angle v w <= PI - a ->
  triangulate_robust refine draws views th a m k = Some (P, map v_id views).
Proof.
  intros Hr Hth Ha Hper Hu EC Hv Hw Hang. set (rays := map world_ray views) in *.
  assert (Hlen : length rays = length views) by apply map_length.
  pose proof (combinations_lookup _ _ _ _ EC) as Hij. pose proof (lookup_lt_Some _ _ _ Hw) as Hj.
  assert (HU : unit_rays rays). { intros r Hin. apply in_map_iff in Hin as (q & <- & Hq). destruct (Hper q Hq) as (d & _ & Hd). apply (perfect_sees _ _ _ Hd). }
  assert (HSee : forall r, In r rays -> exists d, m <= d /\ sees r d P). { intros r Hin. apply in_map_iff in Hin as (q & <- & Hq). destruct (Hper q Hq) as (d & Hm & Hd). exists d. split; [exact Hm|]. apply (perfect_sees _ _ _ Hd). }
  assert (HAll : inliers_of th P rays = seq 0 (length rays)).
  { unfold inliers_of. rewrite nonzero_all; [now rewrite map_length|]. apply Forall_forall. intros b Hb. apply elem_of_list_In, in_map_iff in Hb as (r & <- & Hin).
    destruct (HSee r Hin) as (d & _ & Hd). destruct (sees_norm _ _ _ (HU r Hin) Hd) as (E1 & _ & E2). unfold reproj_ok. unfold direction in E2. rewrite E2, E1. destruct Hd as [Hd _].
    destruct (Req_EM_T d 0); [lra|]. rewrite vsub_self. unfold norm. rewrite dot_v0, sqrt_0. destruct (Rlt_dec 0 th); [reflexivity|lra]. }
  assert (Hsel : forall id i' j', combinations (length rays) !! id = Some (i', j') -> exists r r', select rays [i'; j'] = [r; r'] /\ rays !! i' = Some r /\ rays !! j' = Some r').
  { intros id i' j' E. apply combinations_lookup in E. destruct (lookup_lt_is_Some_2 rays i') as [r E1]; [lia|]. destruct (lookup_lt_is_Some_2 rays j') as [r' E2]; [lia|].
    exists r, r'. split; [|auto]. unfold select. cbn. rewrite E1. cbn. rewrite E2. reflexivity. }
  assert (Hin : forall (l : nat) r, rays !! l = Some r -> In r rays) by (intros l r E; apply elem_of_list_In; eapply elem_of_list_lookup_2; exact E).
  set (good := fun id => exists X, (exists i' j', combinations (length rays) !! id = Some (i', j') /\ TriangulateBearingsMidpoint (select rays [i'; j']) (repeat th (length rays)) a m = Some (Some X))).
  set (inv := fun s => (stopped s = true /\ best_inliers s = seq 0 (length rays) /\ best_point s = P) \/ (stopped s = false /\ best_inliers s = [] /\ forall id, id ∈ tried s -> ~ good id)).
  assert (Hstep : forall s x, inv s -> inv (step refine rays th a m k s x) /\ (good (random_id rays x) -> stopped (step refine rays th a m k s x) = true)).
  { intros s x [(S1 & S2 & S3)|(S1 & S2 & S3)].
    - unfold step. rewrite S1. split; [left; auto|auto].
    - unfold step. rewrite S1. destruct (decide _) as [HI|HI]; [split; [right; auto|intros G; now apply S3 in HI]|].
      destruct (combinations (length rays) !! random_id rays x) as [[i' j']|] eqn:E; [|split; [right; auto|intros (X & i' & j' & E' & _); congruence]]. cbn [tried best_inliers best_point].
      destruct (Hsel _ _ _ E) as (r & r' & ES & E1 & E2). rewrite ES.
      destruct (TriangulateBearingsMidpoint [r; r'] (repeat th (length rays)) a m) as [[X|]|] eqn:ET.
      2,3: (assert (NG : ~ good (random_id rays x)) by (intros (X & a' & b' & E' & ET'); rewrite E in E'; injection E' as -> ->; rewrite ES in ET'; congruence);
            split; [right; cbn; split; [reflexivity|split; [exact S2|]]; intros id Hid; apply elem_of_cons in Hid as [->|Hid]; auto|intros G; contradiction]).
      assert (HUp : unit_rays [r; r']) by (intros q [<-|[<-|[]]]; apply HU; eauto).
      assert (HSp : forall q, In q [r; r'] -> exists d, sees q d P) by (intros q [<-|[<-|[]]]; [destruct (HSee r)|destruct (HSee r')]; eauto; destruct H as [_ H]; eauto).
      assert (HSolve := midpoint_result _ _ _ _ _ ET). assert (HNP : not_all_parallel [r; r']) by (apply (C48_midpoint_defined _ HUp); eauto).
      assert (X = P). { rewrite (C48_midpoint_exact [r; r'] P HUp HNP) in HSolve; [congruence|]. intros q Hq. destruct (HSp q Hq) as (d & _ & Ed). eauto. } subst X.
      rewrite (refine_fixed refine _ P k Hr HUp HNP HSp). rewrite HAll, seq_length, S2. cbn [length].
      destruct (decide (0 < length rays)%nat) as [_|Hz]; [|lia].
      assert (HNPall : not_all_parallel rays) by (destruct HNP as (q & q' & Hq & Hq' & Hc); exists q, q'; repeat split; [destruct Hq as [<-|[<-|[]]]; eauto|destruct Hq' as [<-|[<-|[]]]; eauto|exact Hc]).
      rewrite select_all, (refine_fixed refine rays P k Hr HU HNPall) by (intros q Hq; destruct (HSee q Hq) as (d & _ & Hd); eauto).
      rewrite HAll, !seq_length. destruct (decide (length rays < length rays)%nat); [lia|]. cbn [fst snd]. rewrite seq_length.
      replace (INR (length rays) / INR (length rays)) with 1 by (field; apply not_0_INR; lia). destruct (Req_EM_T 1 1); [|congruence].
      split; [left; cbn; auto|reflexivity]. }
  assert (HG : good (random_id rays u)).
  { exists P, i, j. rewrite Hlen. split; [exact EC|]. assert (Li : rays !! i = Some (world_ray v)) by (unfold rays; rewrite list_lookup_fmap, Hv; reflexivity). assert (Lj : rays !! j = Some (world_ray w)) by (unfold rays; rewrite list_lookup_fmap, Hw; reflexivity).
    unfold select. cbn. rewrite Li. cbn. rewrite Lj. cbn. apply C48_triangulate_complete; try assumption.
    - intros q [<-|[<-|[]]]; apply HU; eauto.
    - rewrite repeat_length. cbn. lia.
    - intros t Ht. apply repeat_spec in Ht. subst. lra.
    - intros q [<-|[<-|[]]]; apply HSee; eauto.
    - exists (world_ray v), (world_ray w). split; [now left|]. split; [right; now left|]. exact Hang. }
  assert (HF : let s := ransac refine rays th a m k draws in inv s /\ stopped s = true).
  { cbv zeta. unfold ransac. assert (I0 : inv (State [] [] v0 false)) by (right; cbn; split; [reflexivity|split; [reflexivity|intros id Hid; apply elem_of_nil in Hid; contradiction]]).
    revert I0. generalize (State [] [] v0 false). induction draws as [|x draws IH]; [destruct Hu|]. intros s I0. cbn [fold_left]. destruct (Hstep s x I0) as [I1 G1]. destruct Hu as [->|Hu]; [|now apply IH].
    specialize (G1 HG). clear - I1 G1 Hstep. revert I1 G1. generalize (step refine rays th a m k s u). induction draws as [|y draws IH]; intros s' I1 G1; [auto|]. cbn [fold_left]. apply IH; [now apply Hstep|]. unfold step. now rewrite G1. }
  destruct HF as [[(_ & B1 & B2)|(Z & _)] HS]; [|congruence]. unfold triangulate_robust. destruct (decide _); [lia|]. fold rays. rewrite B1, B2, seq_length. destruct (decide _); [|lia].
  rewrite Hlen, select_all. reflexivity.
Qed.
(** Two views: whatever the number drawn *)
Corollary C49_robust_two_views refine u draws th a m k P v w : descent refine -> 0 <= u < 1 -> 0 < th -> 0 < a ->
  (forall q, In q [v; w] -> exists d, m <= d /\ perfect P d q) -> a <= view_angle v w <= PI - a ->
  triangulate_robust refine (u :: draws) [v; w] th a m k = Some (P, [v_id v; v_id w]).
Proof.
  intros Hr Hu Hth Ha Hp Hang. apply (C49_robust_complete refine (u :: draws) [v; w] th a m k P u 0 1 v w); try assumption; try reflexivity; [now left|].
  pose proof (random_id_valid (map world_ray [v; w]) u Hu ltac:(cbn; lia)) as L. cbn in L |- *. destruct (random_id _ u) as [|n]; [reflexivity|lia].
Qed.
(** The pair of the last two views is never drawn when there are three views or more. *)
Theorem C49_last_pair_never_drawn rays u : 0 <= u < 1 -> (3 <= length rays)%nat ->
  combinations (length rays) !! random_id rays u <> Some ((length rays - 2)%nat, (length rays - 1)%nat).
Proof.
  intros Hu Hn E. pose proof (random_id_bound rays u Hu Hn) as L. destruct (combinations_last (length rays) ltac:(lia)) as (l & EC & NI). rewrite EC, app_length in L. cbn in L. rewrite EC in E.
  rewrite lookup_app_l in E by lia. apply NI, elem_of_list_In. eapply elem_of_list_lookup_2. exact E.
Qed.
(** Views of concrete cameras: rotation, origin and bearing *)
Definition sample (id : string) (p : pose) (b : vec) : view := View id (Shot p (fun _ => b)) (0, 0).
Lemma sample_ray id p b : world_ray (sample id p b) = (get_origin p, mvec (mT (w_rot p)) b). Proof. reflexivity. Qed.
Lemma rotation_mI : rotation mI. Proof. split; [veq|unfold det; cbn; ring]. Qed.
Lemma sample_at_origin id o b : world_ray (sample id (set_origin pose0 o) b) = (o, b) /\ valid (sh_pose (v_shot (sample id (set_origin pose0 o) b))) /\ transform (set_origin pose0 o) = fun X => vsub X o.
Proof.
  destruct (set_origin_spec pose0 o valid_pose0) as (O & RR & _). unfold world_ray. cbn [v_shot v_point sample sh_pose sh_bearing]. rewrite O, RR. cbn [pose0 from_world_to_cam w_rot]. rewrite mT_I, mvec_I. split; [reflexivity|]. split.
  - destruct valid_pose0 as (V1 & V2 & _). now apply valid_translation.
  - apply FunctionalExtensionality.functional_extensionality. intros X. unfold transform. rewrite RR. cbn [pose0 from_world_to_cam w_rot]. unfold set_origin, set_translation. cbn [w_tr w_rot pose0 from_world_to_cam]. rewrite !mvec_I. veq.
Qed.
Lemma behind_rejected r r' th a m P s t : norm r.2 = 1 -> norm r'.2 = 1 -> cross r.2 r'.2 <> v0 -> P = on_line r s -> P = on_line r' t -> s < m ->
  forall n, (2 <= n)%nat -> TriangulateBearingsMidpoint [r; r'] (repeat th n) a m = None.
Proof.
  intros N1 N2 Hc E1 E2 Hs n Hn. unfold TriangulateBearingsMidpoint. rewrite repeat_length. cbn [length]. destruct (decide _); [reflexivity|]. destruct (negb _); [reflexivity|].
  rewrite (C48_midpoint_exact [r; r'] P); [|intros q [<-|[<-|[]]]; assumption|exists r, r'; split; [now left|split; [right; now left|assumption]]|intros q [<-|[<-|[]]]; eauto].
  destruct n as [|n]; [lia|]. cbn [repeat zip_with existsb].
  assert (B : bad_ray m (Some P) (r, th) = true); [|rewrite B; reflexivity].
  unfold bad_ray. cbn [fst snd]. apply orb_true_iff. right. cbn [lt_opt]. assert (D : dot (vsub P r.1) r.2 = s).
  { rewrite E1. replace (vsub (on_line r s) r.1) with (vscale s r.2) by (unfold on_line; destruct r; veq). rewrite dot_comm, dot_vscale, (norm1_dot _ N1). ring. }
  rewrite D. destruct (Rlt_dec s m); [reflexivity|contradiction].
Qed.
(** Three views, the last two being perfect and seeing the point at a right angle, the first one wrong: the track is never triangulated, whatever
    the random numbers. *)
Theorem C49_last_pair_refuted : exists v0 v1 v2 P, perfect P 1 v1 /\ perfect P 1 v2 /\ view_angle v1 v2 = PI / 2 /\
  forall refine draws th a m k, (forall u, In u draws -> 0 <= u < 1) -> 0 < m -> triangulate_robust refine draws [v0; v1; v2] th a m k = None.
Proof.
  set (w0 := sample "a" (set_origin pose0 (Vec 3 0 5)) (Vec (3 / 5) 0 (4 / 5))). set (w1 := sample "b" (set_origin pose0 v0) (Vec 0 0 1)). set (w2 := sample "c" (set_origin pose0 (Vec 1 0 1)) (Vec (-1) 0 0)).
  set (P := Vec 0 0 1). exists w0, w1, w2, P. destruct unit_examples as (N1 & N2 & N0).
  destruct (sample_at_origin "a" (Vec 3 0 5) (Vec (3 / 5) 0 (4 / 5))) as (R0 & V0 & T0). destruct (sample_at_origin "b" v0 (Vec 0 0 1)) as (R1 & V1 & T1). destruct (sample_at_origin "c" (Vec 1 0 1) (Vec (-1) 0 0)) as (R2 & V2 & T2).
  fold w0 in R0, V0. fold w1 in R1, V1. fold w2 in R2, V2.
  split; [split; [exact V1|split; [exact N1|split; [lra|]]]; cbn [w1 sample v_shot v_point sh_pose sh_bearing]; rewrite T1; unfold P; vunfold; f_equal; ring|].
  split; [split; [exact V2|split; [exact N2|split; [lra|]]]; cbn [w2 sample v_shot v_point sh_pose sh_bearing]; rewrite T2; unfold P; vunfold; f_equal; ring|].
  split. { unfold view_angle, angle. rewrite R1, R2. cbn [snd]. rewrite N1, N2. replace (dot _ _) with 0 by (vunfold; ring). replace (0 / (1 * 1)) with 0 by field. apply acos_0. }
  intros refine draws th a m k Hd Hm. unfold triangulate_robust. cbn [length]. destruct (decide _); [lia|]. set (rays := map world_ray [w0; w1; w2]).
  assert (B : best_inliers (ransac refine rays th a m k draws) = []).
  { unfold ransac. assert (B0 : best_inliers (State [] [] v0 false) = []) by reflexivity. revert B0. generalize (State [] [] v0 false). induction draws as [|u draws IH]; [auto|]. intros s B0. cbn [fold_left]. apply IH; [intros; apply Hd; now right|].
    unfold step. destruct (stopped s); [exact B0|]. destruct (decide _); [exact B0|].
    pose proof (random_id_bound rays u (Hd u ltac:(now left)) ltac:(cbn; lia)) as L.
    set (id := random_id rays u) in *. change (length (combinations (length rays)) - 1)%nat with 2%nat in L. change (combinations (length rays)) with [(0%nat, 1%nat); (0%nat, 2%nat); (1%nat, 2%nat)].
    assert (HT : forall j, j = 1%nat \/ j = 2%nat -> TriangulateBearingsMidpoint (select rays [0%nat; j]) (repeat th (length rays)) a m = None).
    { intros j [->| ->]; unfold select; cbn [omap list_omap rays map lookup list_lookup]; rewrite R0, ?R1, ?R2.
      - apply (behind_rejected _ _ th a m P (-5) 1); cbn [fst snd]; try assumption; try (cbn; lia); try lra; try (unfold on_line, P; cbn [fst snd]; vunfold; f_equal; field). vunfold. intros [= H]. lra.
      - apply (behind_rejected _ _ th a m P (-5) 1); cbn [fst snd]; try assumption; try (cbn; lia); try lra; try (unfold on_line, P; cbn [fst snd]; vunfold; f_equal; field). vunfold. intros [= H]. lra. }
    destruct id as [|[|id]]; [| |lia]; cbn [lookup list_lookup]; rewrite HT by auto; exact B0. }
  rewrite B. cbn [length]. destruct (decide _); [lia|reflexivity].
Qed.

(** ** All the views at once *)
(** All the views are kept, or nothing is stored. The point is the refinement of one that passed the checks of C48. *)
Theorem C49_full_sound refine views th a m k X ids : 0 < a -> 0 < m -> (forall v, In v views -> norm (world_ray v).2 = 1) -> triangulate refine views th a m k = Some (X, ids) ->
  ids = map v_id views /\ (2 <= length views)%nat /\ exists P, X = Some (refine (map world_ray views) P k) /\
  TriangulateBearingsMidpointSolve (map world_ray views) = Some P /\
  (forall v, In v views -> m <= dot (vsub P (world_ray v).1) (world_ray v).2 /\ angle (vsub P (world_ray v).1) (world_ray v).2 <= th) /\
  exists v w, In v views /\ In w views /\ a <= view_angle v w <= PI - a.
Proof.
  intros Ha Hm Hu. unfold triangulate. destruct (decide _) as [Hl|]; [|discriminate]. set (rays := map world_ray views). destruct (TriangulateBearingsMidpoint _ _ _ _) as [Y|] eqn:E; [|discriminate].
  assert (HU : unit_rays rays) by (intros r Hr; apply in_map_iff in Hr as (v & <- & Hv); auto).
  destruct (C48_triangulate_sound _ _ _ _ _ HU Ha Hm E) as (P & -> & HP & HV & _ & r & r' & Hr & Hr' & HA). intros [= <- <-]. split; [reflexivity|]. split; [exact Hl|]. exists P. split; [reflexivity|]. split; [exact HP|]. split.
  - intros v Hv. apply elem_of_list_In, elem_of_list_lookup in Hv as [i Hi]. apply (HV i); [unfold rays; rewrite list_lookup_fmap, Hi; reflexivity|]. apply lookup_lt_Some in Hi. clear - Hi.
    revert i Hi. induction (length views) as [|n IH]; intros [|i] Hi; cbn; try lia; [reflexivity|]. apply IH. lia.
  - apply in_map_iff in Hr as (v & <- & Hv). apply in_map_iff in Hr' as (w & <- & Hw). exists v, w. auto.
Qed.
Theorem C49_full_complete refine views th a m k P v w : descent refine -> 0 <= th -> 0 < a -> (2 <= length views)%nat ->
  (forall v, In v views -> exists d, m <= d /\ perfect P d v) -> In v views -> In w views -> a <= view_angle v w <= PI - a ->
  triangulate refine views th a m k = Some (Some P, map v_id views).
Proof.
  intros Hr Hth Ha Hl Hper Hv Hw Hang. unfold triangulate. destruct (decide _); [|lia]. set (rays := map world_ray views).
  assert (HU : unit_rays rays). { intros r Hin. apply in_map_iff in Hin as (q & <- & Hq). destruct (Hper q Hq) as (d & _ & Hd). apply (perfect_sees _ _ _ Hd). }
  assert (HSee : forall r, In r rays -> exists d, m <= d /\ sees r d P). { intros r Hin. apply in_map_iff in Hin as (q & <- & Hq). destruct (Hper q Hq) as (d & Hm & Hd). exists d. split; [exact Hm|]. apply (perfect_sees _ _ _ Hd). }
  assert (E : TriangulateBearingsMidpoint rays (repeat th (length views)) a m = Some (Some P)).
  { apply C48_triangulate_complete; try assumption.
    - unfold rays. rewrite map_length, repeat_length. lia.
    - intros t Ht. apply repeat_spec in Ht. subst. lra.
    - exists (world_ray v), (world_ray w). split; [now apply in_map|]. split; [now apply in_map|]. exact Hang. }
  rewrite E. do 3 f_equal. apply refine_fixed; try assumption; [|intros r Hin; destruct (HSee r Hin) as (d & _ & Hd); eauto].
  apply (C48_midpoint_defined _ HU). exists P. exact (midpoint_result _ _ _ _ _ E).
Qed.

(** ** The direct linear transform refines with the bearings of the cameras' frames. *)
Definition wrong_target : vec := Vec 0 0 2.
Definition descend (rays : list (vec * vec)) (X : vec) (k : nat) : vec :=
  if forallb (fun r => if Req_EM_T (norm (vsub wrong_target r.1)) 0 then false else true) rays
  then if Rle_dec (direction_cost rays wrong_target) (direction_cost rays X) then wrong_target else X else X.
Lemma descend_descent : descent descend.
Proof.
  intros rays X k H. unfold descend. destruct (forallb _ _) eqn:F; [|split; [assumption|lra]]. destruct (Rle_dec _ _); [|split; [assumption|lra]]. split; [|assumption].
  intros q Hq E. rewrite forallb_forall in F. specialize (F q Hq). rewrite <- E, vsub_self in F. unfold norm in F. rewrite dot_v0, sqrt_0 in F. destruct (Req_EM_T 0 0); [discriminate|lra].
Qed.
Theorem C49_dlt_frame_refuted : exists views P Q refine, descent refine /\ Q <> P /\ length views = 2%nat /\ (forall v, In v views -> perfect P 1 v) /\
  (exists v w, In v views /\ In w views /\ view_angle v w = PI / 2) /\
  (exists X, TriangulateBearingsDLTSolve (map camera_ray views) X) /\
  forall svd th a m k, TriangulateBearingsDLTSolve (map camera_ray views) (svd (map camera_ray views)) -> 0 <= th -> 0 < a <= PI / 4 -> m <= 1 ->
  triangulate_dlt svd refine views th a m k = Some (Some Q, map v_id views) /\
  triangulate refine views th a m k = Some (Some P, map v_id views).
Proof.
  set (R2 := Mat 0 0 1 0 1 0 (-1) 0 0). set (t2 := Vec (-1) 0 1). set (p2 := from_world_to_cam R2 t2).
  set (w1 := sample "a" (set_origin pose0 v0) (Vec 0 0 1)). set (w2 := sample "b" p2 (Vec 0 0 1)). set (P := Vec 0 0 1).
  assert (HR2 : rotation R2) by (split; [unfold R2; vunfold; f_equal; ring|unfold det, R2; cbn; ring]).
  assert (HV2 : valid p2) by now apply from_w2c_valid.
  assert (HO2 : get_origin p2 = Vec 1 0 1). { destruct HV2 as (_ & _ & E). unfold get_origin. rewrite E. unfold p2, from_world_to_cam, R2, t2. cbn [w_rot w_tr]. vunfold. f_equal; ring. }
  destruct unit_examples as (N1 & N2 & _). destruct (sample_at_origin "a" v0 (Vec 0 0 1)) as (R1 & V1 & T1). fold w1 in R1, V1.
  assert (RW2 : world_ray w2 = (Vec 1 0 1, Vec (-1) 0 0)). { unfold w2. rewrite sample_ray, HO2. f_equal. unfold p2, from_world_to_cam, R2. cbn [w_rot]. vunfold. f_equal; ring. }
  assert (P1 : perfect P 1 w1). { split; [exact V1|]. split; [exact N1|]. split; [lra|]. cbn [w1 sample v_shot v_point sh_pose sh_bearing]. rewrite T1. unfold P. vunfold. f_equal; ring. }
  assert (P2 : perfect P 1 w2). { split; [exact HV2|]. split; [exact N1|]. split; [lra|]. cbn [w2 sample v_shot v_point sh_pose sh_bearing]. unfold transform, p2, from_world_to_cam, R2, t2, P. cbn [w_rot w_tr]. vunfold. f_equal; ring. }
  assert (HA : view_angle w1 w2 = PI / 2). { unfold view_angle, angle. rewrite R1, RW2. cbn [snd]. rewrite N1, N2. replace (dot _ _) with 0 by (vunfold; ring). replace (0 / (1 * 1)) with 0 by field. apply acos_0. }
  exists [w1; w2], P, wrong_target, descend. split; [apply descend_descent|]. split; [unfold wrong_target, P; intros [= H]; lra|]. split; [reflexivity|].
  split; [intros v [<-|[<-|[]]]; assumption|]. split; [exists w1, w2; split; [now left|]; split; [right; now left|assumption]|].
  assert (C1 : camera_ray w1 = ((mI, v0), Vec 0 0 1)). { unfold camera_ray. cbn [w1 sample v_shot v_point sh_pose sh_bearing]. unfold set_origin, set_translation, pose0, from_world_to_cam. cbn [w_rot w_tr]. f_equal. f_equal. vunfold. f_equal; ring. }
  assert (C2 : camera_ray w2 = ((R2, t2), Vec 0 0 1)) by reflexivity.
  split.
  { assert (S0 : 0 < sqrt 2) by (apply sqrt_lt_R0; lra). assert (S2 : sqrt 2 * sqrt 2 = 2) by (apply sqrt_sqrt; lra).
    exists (Vec 0 0 (/ sqrt 2), / sqrt 2). split; [unfold norm4; cbn [fst snd]; vunfold; replace (_ + _) with (2 * / (sqrt 2 * sqrt 2)) by (field; lra); rewrite S2; field|].
    intros Y _. pose proof (residual_nonneg (map camera_ray [w1; w2]) Y). replace (dlt_residual (map camera_ray [w1; w2]) (Vec 0 0 (/ sqrt 2), / sqrt 2)) with 0; [assumption|].
    cbn [map]. rewrite C1, C2, !residual_cons. cbv zeta. unfold apply_rt, R2, t2. cbn [fst snd]. vunfold. unfold dlt_residual. cbn [foldr]. field. lra. }
  intros svd th a m k HX Hth Ha Hm. pose proof PI_RGT_0. split.
  - unfold triangulate_dlt. cbn [length]. destruct (decide _); [|lia]. rewrite (C48_dlt_complete (map camera_ray [w1; w2]) th a m P); try assumption; try lra.
    + do 3 f_equal. cbn [map]. cbn [w1 w2 sample v_shot v_point sh_pose sh_bearing]. rewrite HO2. destruct (set_origin_spec pose0 v0 valid_pose0) as (-> & _). unfold descend. 
      assert (NQ : norm (vsub wrong_target v0) = 2). { unfold norm, wrong_target. vunfold. replace (_ + _) with (2 * 2) by ring. apply sqrt_square. lra. }
      assert (NQ2 : norm (vsub wrong_target (Vec 1 0 1)) = sqrt 2). { unfold norm, wrong_target. vunfold. f_equal. ring. }
      assert (NP : norm (vsub P v0) = 1). { unfold norm, P. vunfold. replace (_ + _) with 1 by ring. apply sqrt_1. }
      assert (NP2 : norm (vsub P (Vec 1 0 1)) = 1). { unfold norm, P. vunfold. replace (_ + _) with 1 by ring. apply sqrt_1. }
      assert (S0 : 0 < sqrt 2) by (apply sqrt_lt_R0; lra). assert (S2 : sqrt 2 * sqrt 2 = 2) by (apply sqrt_sqrt; lra).
      cbn [forallb fst]. rewrite NQ, NQ2. destruct (Req_EM_T 2 0); [lra|]. destruct (Req_EM_T (sqrt 2) 0); [lra|]. cbn [andb].
      destruct (Rle_dec _ _) as [|N]; [reflexivity|]. exfalso. apply N. cbn [direction_cost fst snd]. unfold direction. rewrite NQ, NQ2, NP, NP2. unfold sqdist, wrong_target, P. vunfold.
      apply Rminus_le. set (i := / sqrt 2). assert (I : 0 < i) by (apply Rinv_0_lt_compat; assumption). assert (I2 : i * i = / 2) by (unfold i; rewrite <- S2 at 3; field; lra).
      match goal with |- ?e <= 0 => replace e with (2 * (i * i) - 2 * i - 1) by field end. rewrite I2. lra.
    + intros r [<-|[<-|[]]]; [rewrite C1|rewrite C2]; cbn [fst snd vz]; (split; [apply rotation_mI || assumption|]; split; [assumption|lra]).
    + intros r [<-|[<-|[]]]; exists 1; (split; [lra|]; split; [assumption|]); [rewrite C1|rewrite C2]; unfold apply_rt, P, R2, t2; cbn [fst snd]; vunfold; f_equal; ring.
    + exists (camera_ray w1), (camera_ray w2). split; [now left|]. split; [right; now left|].
      assert (E : angle (mvec (mT (camera_ray w1).1.1) (camera_ray w1).2) (mvec (mT (camera_ray w2).1.1) (camera_ray w2).2) = PI / 2) by exact HA. rewrite E. lra.
  - apply (C49_full_complete descend [w1; w2] th a m k P w1 w2); try assumption; try lra; [apply descend_descent|cbn; lia| |now left|right; now left].
    intros v [<-|[<-|[]]]; exists 1; auto.
Qed.

(** ** Tracks of some shots *)
Section Features.
  Context (refine : list (vec * vec) -> vec -> nat -> vec) (shots : gmap string shot) (obs : string -> list (string * (R * R))) (th a m : R) (k : nat).
  Notation features := (triangulate_shot_features refine shots obs th a m k).
  Notation track := (triangulate_track refine shots obs th a m k).
  (** The points already there do not change. *)
  Theorem C49_features_frame ty tracks pts t p : pts !! t = Some p -> features ty tracks pts !! t = Some p.
  Proof.
    intros H. unfold triangulate_shot_features. revert pts H. induction tracks as [|[t' d] tracks IH]; intros pts H; [exact H|]. cbn [fold_left]. apply IH. unfold store. cbn [fst snd].
    destruct (pts !! t') eqn:E; [exact H|]. destruct (track ty d t'); [|exact H]. rewrite lookup_insert_ne; [exact H|]. congruence.
  Qed.
  (** The new points are the triangulations of the tracks given. *)
  Theorem C49_features_new ty tracks pts t p : features ty tracks pts !! t = Some p -> pts !! t = Some p \/ (pts !! t = None /\ exists d, In (t, d) tracks /\ track ty d t = Some p).
  Proof.
    unfold triangulate_shot_features. revert pts. induction tracks as [|[t' d] tracks IH]; intros pts H; [now left|]. cbn [fold_left] in H. destruct (IH _ H) as [HS|(HN & d' & HI & HT)].
    - unfold store in HS. cbn [fst snd] in HS. destruct (pts !! t') eqn:E; [now left|]. destruct (track ty d t') as [q|] eqn:ET; [|now left].
      destruct (decide (t = t')) as [->|N]; [|rewrite lookup_insert_ne in HS by congruence; now left]. rewrite lookup_insert in HS. injection HS as ->. right. split; [exact E|]. exists d. split; [now left|exact ET].
    - right. split; [|exists d'; split; [now right|exact HT]]. unfold store in HN. cbn [fst snd] in HN. destruct (pts !! t'); [exact HN|]. destruct (track ty d t'); [|exact HN].
      destruct (decide (t = t')) as [->|N]; [rewrite lookup_insert in HN; discriminate|rewrite lookup_insert_ne in HN by congruence; exact HN].
  Qed.
  (** Every track given that is triangulated is there. *)
  Theorem C49_features_complete ty tracks pts t d : In (t, d) tracks -> track ty d t <> None -> features ty tracks pts !! t <> None.
  Proof.
    unfold triangulate_shot_features. revert pts. induction tracks as [|[t' d'] tracks IH]; intros pts HI HT; [destruct HI|]. cbn [fold_left]. destruct HI as [[= -> ->]|HI]; [|now apply IH].
    assert (HS : store refine shots obs th a m k ty pts (t, d) !! t <> None).
    { unfold store. cbn [fst snd]. destruct (pts !! t) eqn:E; [congruence|]. destruct (track ty d t); [|congruence]. rewrite lookup_insert. discriminate. }
    destruct (store refine shots obs th a m k ty pts (t, d) !! t) as [p|] eqn:E; [|congruence]. intros F. pose proof (C49_features_frame ty tracks _ t p E) as G. unfold triangulate_shot_features in G. congruence.
  Qed.
  (** Without random numbers, the order in which the set of tracks is iterated does not matter. *)
  Theorem C49_features_order tracks tracks' pts : (forall t, (exists d, In (t, d) tracks) <-> (exists d, In (t, d) tracks')) -> features FULL tracks pts = features FULL tracks' pts.
  Proof.
    intros H. apply map_eq. intros t.
    assert (G : forall l l', (forall t, (exists d, In (t, d) l) <-> (exists d, In (t, d) l')) -> forall p, features FULL l pts !! t = Some p -> features FULL l' pts !! t = Some p).
    { intros l l' HL p HP. destruct (C49_features_new _ _ _ _ _ HP) as [E|(E & d & HI & HT)]; [now apply C49_features_frame|].
      destruct (proj1 (HL t) ltac:(eauto)) as [d' HI']. pose proof (C49_features_complete FULL l' pts t d' HI' ltac:(cbn in *; congruence)) as N.
      destruct (features FULL l' pts !! t) as [q|] eqn:EQ; [|congruence]. destruct (C49_features_new _ _ _ _ _ EQ) as [F|(_ & d'' & _ & HT')]; [congruence|]. cbn in HT, HT'. congruence. }
    destruct (features FULL tracks pts !! t) as [p|] eqn:E1; [symmetry; now apply (G tracks tracks')|]. destruct (features FULL tracks' pts !! t) as [p|] eqn:E2; [|reflexivity].
    rewrite (G tracks' tracks) with (p := p) in E1; [discriminate|intros x; symmetry; apply H|exact E2].
  Qed.
  (** A triangulation type other than the two known ones does nothing. *)
  Theorem C49_unknown_type tracks pts : features Other tracks pts = pts.
  Proof. unfold triangulate_shot_features. revert pts. induction tracks as [|[t d] tracks IH]; intros pts; [reflexivity|]. cbn [fold_left]. rewrite IH. unfold store. cbn. now destruct (pts !! t). Qed.
  (** Only observations in the shots of the reconstruction are used. *)
  Theorem C49_observations t v : In v (get_observations shots obs t) <-> shots !! v_id v = Some (v_shot v) /\ In (v_id v, v_point v) (obs t).
  Proof.
    unfold get_observations. rewrite <- !elem_of_list_In, elem_of_list_omap. split.
    - intros ([s o] & HI & E). cbn in E. destruct (shots !! s) as [sh|] eqn:ES; [|discriminate]. injection E as <-. auto.
    - intros [ES HI]. exists (v_id v, v_point v). split; [exact HI|]. cbn. rewrite ES. now destruct v.
  Qed.
End Features.

(** The hypotheses are met: two cameras, at a right angle *)
Example C49_example : exists v w P, forall refine u draws, descent refine -> 0 <= u < 1 -> triangulate_robust refine (u :: draws) [v; w] (/ 100) (/ 10) (/ 10) 10 = Some (P, [v_id v; v_id w]).
Proof.
  destruct C49_last_pair_refuted as (_ & v & w & P & Hv & Hw & HA & _). exists v, w, P. intros refine u draws Hr Hu. pose proof PI2_3_2. apply C49_robust_two_views; try assumption; try lra.
  intros q [<-|[<-|[]]]; exists 1; (split; [lra|assumption]).
Qed.
Example C49_descent : descent (fun _ X _ => X) /\ descent descend.
Proof. split; [intros rays X k H; split; [assumption|lra]|apply descend_descent]. Qed.
Print Assumptions C49_robust_sound.
Print Assumptions C49_robust_best.
Print Assumptions C49_robust_complete.
Print Assumptions C49_last_pair_never_drawn.
Print Assumptions C49_last_pair_refuted.
Print Assumptions C49_full_sound.
Print Assumptions C49_full_complete.
Print Assumptions C49_dlt_frame_refuted.
Print Assumptions C49_features_frame.
Print Assumptions C49_features_new.
Print Assumptions C49_features_complete.
Print Assumptions C49_features_order.
