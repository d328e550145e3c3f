From stdpp Require Import prelude.
From Coq Require Import Reals Lra.
From Coquelicot Require Import Coquelicot.
From Verif Require Import Base CamModel FunctorModel ProjModel FunctorSpec FunctorProofs FunctorLeaves FunctorProj FunctorPose.
Local Open Scope R_scope.
Set Bullet Behavior "Strict Subproofs".

(** ** Calculus of derivative_at *)
Lemma derivative_at_ext n m F G x J : (forall v, length v = n -> F v = G v) -> derivative_at n m F x J -> derivative_at n m G x J.
Proof.
  intros H [HL HD]. split; [exact HL|]. intros xs t dxs Hl Hat Hv i Hi.
  specialize (HD xs t dxs Hl Hat Hv i Hi). apply is_derive_Reals in HD. apply is_derive_Reals.
  eapply is_derive_ext; [|exact HD]. intros s. cbn beta. rewrite H; [reflexivity|]. rewrite at_time_length. exact Hl.
Qed.
Lemma velocity_length xs t dxs : velocity xs t dxs -> length xs = length dxs.
Proof. apply Forall2_length. Qed.
(** in terms of sums *)
Lemma derivative_at_sum n m F x J : length J = (m * n)%nat ->
  (derivative_at n m F x J <->
   forall xs t dxs, length xs = n -> at_time xs t = x -> moving xs t dxs -> forall i, (i < m)%nat ->
   is_derive (fun s => (F (at_time xs s)).[i]) t (sum_n n (fun c => J.[i * n + c] * dxs.[c]))).
Proof.
  intros HL.
  assert (E : forall xs t dxs i, length xs = n -> moving xs t dxs -> (i < m)%nat -> scalar_product (row n i J) dxs = sum_n n (fun c => J.[i * n + c] * dxs.[c])).
  { intros xs t dxs i Hl Hm Hi. rewrite (scalar_product_sum _ _ n).
    - apply sum_n_ext. intros k Hk. rewrite nth_row by lia. reflexivity.
    - apply (length_row _ m); auto.
    - rewrite <- (moving_length _ _ _ Hm). exact Hl. }
  split.
  - intros [_ HD] xs t dxs Hl Hat Hm i Hi. rewrite <- (E xs t dxs i) by auto. apply is_derive_Reals. apply HD; auto. now apply velocity_moving.
  - intros HD. split; [exact HL|]. intros xs t dxs Hl Hat Hv i Hi. apply velocity_moving in Hv. rewrite (E xs t dxs i) by auto. apply is_derive_Reals. apply HD; auto.
Qed.
(** columns [o, o + n) *)
Definition columns (m N o n : nat) (J : list R) : list R := concat (map (fun i => map (fun k => J.[i * N + o + k]) (seq 0 n)) (seq 0 m)).
Lemma rows_length m n (f : nat -> nat -> R) : length (concat (map (fun i => map (f i) (seq 0 n)) (seq 0 m))) = (m * n)%nat.
Proof.
  rewrite (concat_length_rows n); [rewrite map_length, seq_length; reflexivity|].
  apply List.Forall_forall. intros r Hr. apply in_map_iff in Hr as (i & <- & _). rewrite map_length, seq_length. reflexivity.
Qed.
Lemma rows_nth m n (f : nat -> nat -> R) i c : (i < m)%nat -> (c < n)%nat -> (concat (map (fun i => map (f i) (seq 0 n)) (seq 0 m))).[i * n + c] = f i c.
Proof.
  intros Hi Hc. rewrite (nth_concat_rows n).
  - rewrite nth_map_seq by lia. rewrite nth_map_seq by lia. reflexivity.
  - apply List.Forall_forall. intros r Hr. apply in_map_iff in Hr as (j & <- & _). rewrite map_length, seq_length. reflexivity.
  - lia.
Qed.
Lemma moving_app xs ys t dxs dys : moving xs t dxs -> moving ys t dys -> moving (xs ++ ys) t (dxs ++ dys).
Proof. apply Forall2_app. Qed.
Lemma at_time_const p s : at_time (map (fun a _ => a) p) s = p.
Proof. unfold at_time. rewrite map_map. apply map_id. Qed.
Lemma derivative_at_block N m F x J a w b o n :
  derivative_at N m F x J -> x = a ++ w ++ b -> length a = o -> length w = n -> (o + n + length b = N)%nat ->
  derivative_at n m (fun v => F (a ++ v ++ b)) w (columns m N o n J).
Proof.
  intros HD Hx Ha Hw Hb. assert (HL : length J = (m * N)%nat) by apply HD.
  apply derivative_at_sum; [apply rows_length|]. pose proof (proj1 (derivative_at_sum N m F x J HL) HD) as D.
  intros xs t dxs Hl Hat Hm i Hi.
  specialize (D (map (fun a _ => a) a ++ xs ++ map (fun a _ => a) b) t (map (fun _ => 0) a ++ dxs ++ map (fun _ => 0) b)).
  specialize (D ltac:(rewrite !app_length, !map_length; lia) ltac:(rewrite !at_time_app, !at_time_const, Hat; auto)).
  specialize (D ltac:(apply moving_app; [apply moving_const|apply moving_app; [exact Hm|apply moving_const]]) i Hi).
  by_value.
  - eapply is_derive_ext; [|exact D]. intros s. cbn beta. rewrite !at_time_app, !at_time_const. reflexivity.
  - pose proof (moving_length _ _ _ Hm) as HLm.
    replace N with (o + (n + length b))%nat at 1 by lia. rewrite !sum_n_add.
    assert (Z1 : forall l k, (map (fun _ : R => 0) l).[k] = 0). { intros l. induction l; intros [|k]; cbn; auto. }
    rewrite (sum_n_zero o), (sum_n_zero (length b)).
    + rewrite Rplus_0_l, Rplus_0_r. apply sum_n_ext. intros k Hk. unfold columns.
      rewrite rows_nth by lia. rewrite Nat.add_assoc. f_equal.
      rewrite app_nth2 by (rewrite map_length; lia). rewrite map_length, Ha. replace (o + k - o)%nat with k by lia. rewrite app_nth1 by lia. reflexivity.
    + intros k Hk. rewrite app_nth2 by (rewrite map_length; lia). rewrite app_nth2 by (rewrite map_length; lia). rewrite Z1. ring.
    + intros k Hk. rewrite app_nth1 by (rewrite map_length; lia). rewrite Z1. ring.
Qed.
Lemma derive_residual (f : R -> R) (t d k o : R) : is_derive f t d -> is_derive (fun s => k * (f s - o)) t (k * d).
Proof. intros H. derives. ring. Qed.
Lemma derivative_at_residuals n m F x J k obs : derivative_at n m F x J -> derivative_at n m (fun v => residuals k (F v) obs m) x (map (Rmult k) J).
Proof.
  intros HD. assert (HL : length J = (m * n)%nat) by apply HD.
  apply derivative_at_sum; [rewrite map_length; exact HL|]. pose proof (proj1 (derivative_at_sum n m F x J HL) HD) as D.
  intros xs t dxs Hl Hat Hm i Hi. specialize (D xs t dxs Hl Hat Hm i Hi).
  apply (is_derive_ext (fun s => k * ((F (at_time xs s)).[i] - obs.[i]))).
  - intros s. unfold residuals. rewrite nth_map_seq by lia. reflexivity.
  - by_value; [exact (derive_residual _ _ _ k obs.[i] D)|].
    rewrite <- sum_n_scal. apply sum_n_ext. intros c Hc.
    rewrite (nth_indep (map (Rmult k) J) 0 (k * 0)) by (rewrite map_length, HL; nia). rewrite map_nth. ring.
Qed.
Lemma map_concat_rows k (m n : nat) f : map (Rmult k) (concat (map (fun i => map (f i) (seq 0 n)) (seq 0 m))) =
  concat (map (fun i => map (fun c => k * f i c) (seq 0 n)) (seq 0 m)).
Proof.
  rewrite concat_map, map_map. f_equal. apply map_ext. intros i. rewrite map_map. reflexivity.
Qed.
Lemma scaled_block_columns k m N o n J : scaled_block k m N o n J = map (Rmult k) (columns m N o n J).
Proof. unfold scaled_block, columns. rewrite map_concat_rows. reflexivity. Qed.
Lemma derivative_at_zero n m F x c : (forall v, length v = n -> F v = c) -> derivative_at n m F x (zero_block m n).
Proof.
  intros HF. apply derivative_at_sum; [unfold zero_block; apply replicate_length|].
  intros xs t dxs Hl Hat Hm i Hi. apply (is_derive_ext (fun _ => c.[i])).
  - intros s. rewrite HF; [reflexivity|]. rewrite at_time_length. exact Hl.
  - by_value; [apply is_derive_const'|]. symmetry. apply sum_n_zero. intros k Hk. unfold zero_block.
    rewrite nth_lookup, lookup_replicate_2 by nia. cbn. ring.
Qed.

(** ** Cameras *)
Definition camera_domain (t : ptype) (x : list R) : Prop :=
  match t with
  | PERSPECTIVE | BROWN | RADIAL | SIMPLE_RADIAL => x.[2] <> 0
  | FISHEYE | FISHEYE_OPENCV | FISHEYE62 | FISHEYE624 => fisheye_domain x
  | DUAL => x.[2] <> 0 /\ sqrt (SquaredNorm x) <> small
  | SPHERICAL => x.[0] <> 0 \/ 0 < x.[2]
  end.
Definition chain (t : ptype) : list functor :=
  let c := Dispatch t in [st_functor (cm_aff c); st_functor (cm_disto c); st_functor (cm_proj c)].
Lemma Generic_Compose t : t <> SPHERICAL -> Generic (Dispatch t) = Compose (chain t).
Proof. destruct t; intros H; try reflexivity. congruence. Qed.
Lemma sized_leaf t : List.Forall sized (chain t).
Proof.
  destruct t; repeat constructor; intros x p; try reflexivity; cbn; unfold Fisheye_Forward; destruct (Rlt_dec _ _); reflexivity.
Qed.
Lemma good_chain t d x p : camera_domain t x -> good (Compose (chain t)) d x p.
Proof.
  intros H. pose proof (sized_leaf t) as HS. unfold chain in *. cbn zeta in *.
  apply Forall_cons_1 in HS as [S1 HS]. apply Forall_cons_1 in HS as [S2 HS]. apply Forall_cons_1 in HS as [S3 _].
  apply good_compose; [exact S1|apply sized_compose; exact S2|destruct t; reflexivity| |].
  - apply good_compose; [exact S2|apply sized_compose; exact S3|destruct t; reflexivity| |].
    + apply good_single. destruct t; cbn in H |- *; first [now apply good_Perspective|now apply good_Fisheye|now apply good_Dual|now apply good_Spherical].
    + destruct t; first [apply good_Disto2|apply good_Disto24|apply good_Disto2468|apply good_Disto62|apply good_Disto624|apply good_DistoBrown|apply good_Identity].
  - destruct t; first [apply good_Affine|apply good_UniformScale|apply good_Identity].
Qed.
Lemma good_camera t d x p : camera_domain t x -> d = false \/ t <> SPHERICAL -> good (Generic (Dispatch t)) d x p.
Proof.
  intros H Hd. destruct (decide (t = SPHERICAL)) as [->|Hn].
  - destruct Hd as [->|]; [|congruence]. pose proof (good_chain SPHERICAL false x p H) as G.
    destruct G as [G1 G2 G3]. split; [exact G1|exact G2|].
    intros xs ps t dxs dps Hl Hlp. apply (G3 xs ps t dxs dps Hl). cbn. lia.
  - rewrite Generic_Compose by exact Hn. now apply good_chain.
Qed.
Lemma sized_camera t : sized (Generic (Dispatch t)).
Proof. intros x p. destruct t; reflexivity. Qed.
Lemma sized_Pose : sized PoseFunctor.
Proof. intros x p. cbn. unfold Pose_Forward. destruct (Rlt_dec _ _); reflexivity. Qed.
Lemma sized_Normalize : sized Normalize.
Proof. intros x p. reflexivity. Qed.
