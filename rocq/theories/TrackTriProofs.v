(** Proofs about the triangulation of tracks. *)
From stdpp Require Import prelude gmap strings.
From Coq Require Import Reals Lra Lia Psatz.
From Verif Require Import Base Lin RotModel PoseModel PoseSpec PoseProofs TriangModel TriangSpec TriangProofs TriangProps TrackTriModel TrackTriSpec.
Local Open Scope R_scope.

Lemma nonzero_spec l k i : i ∈ nonzero k l <-> exists j, i = (k + j)%nat /\ l !! j = Some true.
Proof.
  revert k. induction l as [|b l IH]; intros k; cbn.
  - rewrite elem_of_nil. split; [tauto|]. intros (j & _ & H). now rewrite lookup_nil in H.
  - assert (H : (i ∈ nonzero (S k) l) <-> exists j, i = (k + S j)%nat /\ l !! j = Some true) by (rewrite IH; split; intros (j & -> & H); exists j; (split; [lia|assumption])).
    destruct b; [rewrite elem_of_cons|]; rewrite H; split.
    + intros [->|(j & -> & Hj)]; [exists 0%nat; split; [lia|reflexivity]|exists (S j); auto].
    + intros ([|j] & -> & Hj); [left; lia|right; exists j; auto].
    + intros (j & -> & Hj). exists (S j). auto.
    + intros ([|j] & -> & Hj); [discriminate|exists j; auto].
Qed.
Lemma nonzero_sublist {A} (l : list A) (f : A -> bool) pre : select (pre ++ l) (nonzero (length pre) (map f l)) = List.filter f l.
Proof.
  revert pre. induction l as [|a l IH]; intros pre; [reflexivity|]. cbn. specialize (IH (pre ++ [a])). rewrite <- app_assoc, app_length in IH. cbn in IH. rewrite Nat.add_1_r in IH.
  destruct (f a); [|exact IH]. unfold select in *. cbn. rewrite list_lookup_middle by reflexivity. cbn. f_equal. exact IH.
Qed.
Lemma select_nonzero {A} (l : list A) (f : A -> bool) : select l (nonzero 0 (map f l)) = List.filter f l.
Proof. apply (nonzero_sublist l f []). Qed.
Lemma nonzero_length l k : length (nonzero k l) = length (List.filter (fun b : bool => b) l).
Proof. revert k. induction l as [|[] l IH]; intros k; cbn; rewrite ?IH; reflexivity. Qed.
Lemma nonzero_all l k : Forall (fun b => b = true) l -> nonzero k l = seq k (length l).
Proof. intros H. revert k. induction H as [|b l -> H IH]; intros k; cbn; [reflexivity|]. f_equal. apply IH. Qed.
Lemma select_seq {A} (l pre : list A) : select (pre ++ l) (seq (length pre) (length l)) = l.
Proof.
  revert pre. induction l as [|a l IH]; intros pre; [reflexivity|]. cbn. rewrite list_lookup_middle by reflexivity. cbn. f_equal.
  specialize (IH (pre ++ [a])). rewrite <- app_assoc, app_length in IH. cbn in IH. rewrite Nat.add_1_r in IH. exact IH.
Qed.
Lemma select_all {A} (l : list A) : select l (seq 0 (length l)) = l. Proof. apply (select_seq l []). Qed.
Lemma filter_sublist {A} (f : A -> bool) l : List.filter f l `sublist_of` l.
Proof. induction l as [|a l IH]; cbn; [constructor|]. destruct (f a); now constructor. Qed.

Lemma reproj_ok_agrees threshold X v : reproj_ok threshold X (world_ray v) = true <-> agrees threshold X v.
Proof.
  unfold reproj_ok, agrees, direction. set (r := world_ray v). destruct (Req_EM_T (norm (vsub X r.1)) 0) as [E|N].
  - split; [discriminate|]. intros [H _]. exfalso. apply H. apply vsub_0, norm_0, E.
  - destruct (Rlt_dec _ _) as [L|L]; split; try discriminate; try tauto. intros _. split; [|exact L]. intros ->. apply N. rewrite vsub_self. unfold norm. rewrite dot_v0. apply sqrt_0.
Qed.

(** ** Pairs *)
Lemma combinations_lookup n k i j : combinations n !! k = Some (i, j) -> (i < j < n)%nat.
Proof.
  intros H. apply elem_of_list_lookup_2, elem_of_list_In in H. unfold combinations in H. apply in_flat_map in H as (a & Ha & H). apply in_map_iff in H as (b & [= -> ->] & Hb).
  apply in_seq in Ha, Hb. lia.
Qed.
Lemma combinations_In n i j : (i < j < n)%nat -> In (i, j) (combinations n).
Proof. intros H. apply in_flat_map. exists i. split; [apply in_seq; lia|]. apply in_map, in_seq. lia. Qed.
(** The last two *)
Lemma combinations_last n : (2 <= n)%nat -> exists l, combinations n = l ++ [((n - 2)%nat, (n - 1)%nat)] /\ ~ In ((n - 2)%nat, (n - 1)%nat) l.
Proof.
  intros H. destruct n as [|[|n]]; [lia|lia|]. replace (S (S n) - 2)%nat with n by lia. replace (S (S n) - 1)%nat with (S n) by lia.
  exists (flat_map (fun i => map (pair i) (seq (S i) (S (S n) - S i))) (seq 0 n)). split.
  - unfold combinations. replace (seq 0 (S (S n))) with (seq 0 n ++ [n; S n]) by (replace (S (S n)) with (n + 2)%nat by lia; rewrite (seq_app n 2 0); reflexivity). rewrite flat_map_app. f_equal. cbn [flat_map]. replace (S (S n) - S n)%nat with 1%nat by lia. replace (S (S n) - S (S n))%nat with 0%nat by lia. reflexivity.
  - intros HI. apply in_flat_map in HI as (a & Ha & Hb). apply in_map_iff in Hb as (b & [= -> ->] & _). apply in_seq in Ha. lia.
Qed.
Lemma random_id_bound rays u : 0 <= u < 1 -> (3 <= length rays)%nat -> (random_id rays u < length (combinations (length rays)) - 1)%nat.
Proof.
  intros Hu Hn. unfold random_id. set (len := length (combinations (length rays))).
  assert (Hlen : (2 <= len)%nat).
  { unfold len. destruct (combinations_last (length rays) ltac:(lia)) as (l & E & _). assert (HI : In (0%nat, 1%nat) (combinations (length rays))) by (apply combinations_In; lia).
    rewrite E in HI |- *. rewrite app_length. cbn. apply in_app_iff in HI as [HI|[[= HI1 HI2]|[]]]; [destruct l; [contradiction|cbn; lia]|lia]. }
  set (x := u * (INR len - 1)). assert (1 <= INR len - 1) by (apply le_INR in Hlen; cbn in Hlen; lra).
  assert (0 <= x < INR len - 1) by (unfold x; split; [apply Rmult_le_pos; lra|rewrite <- (Rmult_1_l (INR len - 1)) at 2; apply Rmult_lt_compat_r; lra]).
  destruct (base_Int_part x) as [B1 B2]. assert (IZR (Int_part x) < IZR (Z.of_nat len - 1)) by (rewrite minus_IZR, <- INR_IZR_INZ; lra). apply lt_IZR in H1.
  assert (-1 < IZR (Int_part x)) by lra. change (-1) with (IZR (-1)) in H2. apply lt_IZR in H2. lia.
Qed.
Lemma random_id_valid rays u : 0 <= u < 1 -> (2 <= length rays)%nat -> (random_id rays u < length (combinations (length rays)))%nat.
Proof.
  intros Hu Hn. destruct (decide (3 <= length rays)%nat) as [H3|]; [pose proof (random_id_bound rays u Hu H3); lia|].
  unfold random_id. assert (E : length rays = 2%nat) by lia. rewrite E. cbn [combinations seq flat_map map app length minus]. cbn [INR]. replace (u * (1 - 1)) with 0 by ring.
  destruct (base_Int_part 0) as [B1 B2]. assert (IZR (Int_part 0) < IZR 1) by (cbn; lra). apply lt_IZR in H. lia.
Qed.

(** ** Perfect views *)
Lemma perfect_sees P d v : perfect P d v -> norm (world_ray v).2 = 1 /\ sees (world_ray v) d P.
Proof.
  intros (Hv & Hb & Hd & E). unfold world_ray. cbn [fst snd]. set (p := sh_pose (v_shot v)) in *. set (b := sh_bearing (v_shot v) (v_point v)) in *. destruct Hv as (HR & HC & HT).
  split; [rewrite rotation_norm; [assumption|now apply rotation_T]|]. split; [exact Hd|]. unfold on_line, get_origin. cbn [fst snd]. rewrite HT. unfold transform in E.
  transitivity (mvec (mmul (mT (w_rot p)) (w_rot p)) P); [now rewrite (rotation_l _ HR), mvec_I|]. rewrite mvec_mmul.
  replace (mvec (w_rot p) P) with (vsub (vscale d b) (w_tr p)) by (rewrite <- E; generalize (mvec (w_rot p) P) (w_tr p); veq). generalize (mT (w_rot p)) (w_tr p). veq.
Qed.
Lemma direction_cost_nonneg rays X : 0 <= direction_cost rays X.
Proof. induction rays as [|r rs IH]; cbn; [lra|]. pose proof (dot_nonneg (vsub (direction r.1 X) r.2)). unfold sqdist. lra. Qed.
Lemma direction_cost_zero rays X r : direction_cost rays X = 0 -> In r rays -> direction r.1 X = r.2.
Proof.
  induction rays as [|q rs IH]; [intros _ []|]. cbn. pose proof (direction_cost_nonneg rs X). pose proof (dot_nonneg (vsub (direction q.1 X) q.2)). unfold sqdist. intros E [->|Hr]; [|apply IH; [lra|assumption]].
  apply vsub_0, dot_0. lra.
Qed.
Lemma sees_norm r d P : norm r.2 = 1 -> sees r d P -> norm (vsub P r.1) = d /\ P <> r.1 /\ direction r.1 P = r.2.
Proof.
  intros N [Hd ->]. pose proof (norm1_dot _ N) as D. assert (E : vsub (on_line r d) r.1 = vscale d r.2) by (unfold on_line; destruct r; veq).
  assert (NE : norm (vscale d r.2) = d). { unfold norm. rewrite dot_vscale, dot_comm, dot_vscale, D. replace (d * (d * 1)) with (d * d) by ring. apply sqrt_square. lra. }
  unfold direction. rewrite E, NE. split; [reflexivity|]. split; [|rewrite vscale_vscale, Rinv_l, vscale_1 by lra; reflexivity].
  intros F. rewrite F, vsub_self in E. rewrite <- E in NE. unfold norm in NE. rewrite dot_v0, sqrt_0 in NE. lra.
Qed.
Lemma direction_line r X : direction r.1 X = r.2 -> X <> r.1 -> exists t, X = on_line r t.
Proof.
  intros E N. exists (norm (vsub X r.1)). unfold direction in E. assert (norm (vsub X r.1) <> 0) by (intros Z; apply N, vsub_0, norm_0, Z).
  unfold on_line. rewrite <- E, vscale_vscale, Rinv_r, vscale_1 by assumption. destruct r as [o b]; cbn. veq.
Qed.
(** The refinement keeps the point all the rays see. *)
Lemma refine_fixed refine rays P k : descent refine -> unit_rays rays -> not_all_parallel rays -> (forall r, In r rays -> exists d, sees r d P) -> refine rays P k = P.
Proof.
  intros Hr Hu Hp Hs. destruct (Hr rays P k) as [N L]. { intros r Hin. destruct (Hs r Hin) as [d Hd]. apply (sees_norm _ _ _ (Hu r Hin) Hd). }
  assert (Z : direction_cost rays P = 0).
  { clear - Hu Hs. induction rays as [|r rs IH]; [reflexivity|]. cbn. rewrite IH; [|intros q Hq; apply Hu; now right|intros q Hq; apply Hs; now right]. destruct (Hs r ltac:(now left)) as [d Hd].
    destruct (sees_norm _ _ _ (Hu r ltac:(now left)) Hd) as (_ & _ & ->). unfold sqdist. rewrite vsub_self, dot_v0. ring. }
  rewrite Z in L. assert (Z' : direction_cost rays (refine rays P k) = 0) by (pose proof (direction_cost_nonneg rays (refine rays P k)); lra).
  assert (S1 : TriangulateBearingsMidpointSolve rays = Some (refine rays P k)).
  { apply C48_midpoint_exact; [assumption..|]. intros r Hin. apply direction_line; [now apply (direction_cost_zero rays)|now apply N]. }
  assert (S2 : TriangulateBearingsMidpointSolve rays = Some P). { apply C48_midpoint_exact; [assumption..|]. intros r Hin. destruct (Hs r Hin) as (d & _ & E). eauto. }
  congruence.
Qed.
Lemma midpoint_result rays th a m X : TriangulateBearingsMidpoint rays th a m = Some X -> TriangulateBearingsMidpointSolve rays = X.
Proof. unfold TriangulateBearingsMidpoint. destruct (decide _); [discriminate|]. destruct (negb _); [discriminate|]. destruct (existsb _ _); [discriminate|]. congruence. Qed.
