From stdpp Require Import prelude strings.
From Coq Require Import Reals Lra Lia Psatz.
From Verif Require Import Base PyText PixelModel GpxModel GpxProofs ExtractModel ExtractSpec.
Local Open Scope R_scope.

Lemma row_sum_scale (f : R -> R) k (l : list R) : row_sum (map (fun x => f x / k) l) = row_sum (map f l) / k.
Proof. unfold row_sum. induction l as [|a l IH]; cbn [map foldr]; [unfold Rdiv; lra|]. rewrite IH. unfold Rdiv. lra. Qed.
Lemma row_sum_id_scale k (l : list R) : row_sum (map (fun x => x / k) l) = row_sum l / k.
Proof. rewrite (row_sum_scale (fun x => x)). by rewrite map_id. Qed.
Lemma row_sum_nonneg (l : list R) : (forall x, x ∈ l -> 0 <= x) -> 0 <= row_sum l.
Proof. unfold row_sum. induction l as [|a l IH]; intros H; cbn [foldr]; [lra|]. assert (0 <= a) by (apply H; left). assert (0 <= foldr Rplus 0 l) by (apply IH; intros; apply H; by right). lra. Qed.
Lemma squares_root s (l : list R) : 0 < s -> (forall x, x ∈ l -> 0 <= x) -> squares (map (fun x => sqrt (x / s)) l) = row_sum l / s.
Proof.
  intros Hs. unfold squares, row_sum. induction l as [|a l IH]; intros H; cbn [map foldr]; [unfold Rdiv; lra|]. rewrite IH by (intros; apply H; by right). assert (0 <= a) by (apply H; left).
  rewrite sqrt_sqrt; [unfold Rdiv; lra|]. apply Rmult_le_pos; [done|]. apply Rlt_le, Rinv_0_lt_compat. done.
Qed.
Lemma squares_distance (a b : list R) : length a = length b -> squares (zip_with Rminus a b) = squares a + squares b - 2 * dot_product a b.
Proof.
  revert b. unfold squares, dot_product. induction a as [|x a IH]; intros [|y b]; cbn; try done; [lra|]. intros [= H]. rewrite IH by done. ring.
Qed.
Lemma zip_roots s t (a b : list R) : 0 < s -> 0 < t -> (forall x, x ∈ a -> 0 <= x) -> (forall x, x ∈ b -> 0 <= x) ->
  zip_with Rmult (map (fun x => sqrt (x / s)) a) (map (fun x => sqrt (x / t)) b) = zip_with (fun x y => sqrt (x / s * (y / t))) a b.
Proof.
  intros Hs Ht. revert b. induction a as [|x a IH]; intros [|y b] Ha Hb; cbn; try done. assert (0 <= x) by (apply Ha; left). rewrite sqrt_mult_alt; [|apply Rmult_le_pos; [done|apply Rlt_le, Rinv_0_lt_compat; done]].
  f_equal. apply IH; [intros; apply Ha; by right|intros; apply Hb; by right].
Qed.
Lemma sign_abs x : sign x * sign x * Rabs x = Rabs x /\ sign x * Rabs x = x.
Proof. unfold sign, Rabs. destruct (Rlt_dec 0 x), (Rlt_dec x 0), (Rcase_abs x); try lra. all: assert (x = 0) as -> by lra; lra. Qed.

(** Sizes *)
Lemma floor_div a s : (0 < s)%Z -> IZR (a / s) <= IZR a / IZR s < IZR (a / s) + 1.
Proof.
  intros Hs. pose proof (Z.div_mod a s ltac:(lia)) as E. pose proof (Z.mod_pos_bound a s Hs) as B. assert (0 < IZR s) as Hp by by apply IZR_lt.
  assert (IZR a = IZR s * IZR (a / s) + IZR (a mod s)) as E' by (rewrite <- mult_IZR, <- plus_IZR; by f_equal). assert (0 <= IZR (a mod s) < IZR s) as B' by (split; [apply IZR_le|apply IZR_lt]; lia).
  assert (IZR a / IZR s = IZR (a / s) + IZR (a mod s) / IZR s) as -> by (rewrite E'; field; lra). 
  assert (0 <= IZR (a mod s) / IZR s) by (apply Rmult_le_pos; [lra|apply Rlt_le, Rinv_0_lt_compat; lra]). assert (IZR (a mod s) / IZR s < 1) by (apply (Rmult_lt_reg_r (IZR s)); [lra|]; unfold Rdiv; rewrite Rmult_assoc, Rinv_l; lra). lra.
Qed.
Lemma dims w h m : (0 < w)%Z -> (0 < h)%Z -> (0 < m < Z.max w h)%Z -> let s := Z.max w h in
  Z.max (w * m / s) (h * m / s) = m.
Proof.
  intros Hw Hh Hm s. assert (forall a, (0 < a <= s)%Z -> (0 <= a * m / s <= m)%Z) as H. { intros a Ha. split; [apply Z.div_pos; lia|]. apply Z.div_le_upper_bound; nia. }
  pose proof (H w ltac:(lia)). pose proof (H h ltac:(lia)). assert (s * m / s = m)%Z as E by (rewrite Z.mul_comm; apply Z.div_mul; lia).
  assert (w = s \/ h = s) as [Ew|Ew] by lia; rewrite <- Ew in E at 1; lia.
Qed.

(** Colours *)
Lemma round_in n x : - / 2 < x < IZR n - / 2 -> (0 <= round_even x < n)%Z.
Proof.
  intros Hx. pose proof (round_even_near x) as H. assert (- / 2 <= IZR (round_even x) - x <= / 2) as H' by (revert H; unfold Rabs; destruct (Rcase_abs _); lra). assert (IZR (-1) < IZR (round_even x)) as H1%lt_IZR by lra. assert (IZR (round_even x) < IZR n) as H2%lt_IZR by lra. lia.
Qed.
Lemma pixel_inside im x y : inside_image (i_width im) (i_height im) x y -> pixel_at im (round_even y) (round_even x) = Ok (i_pixel im (round_even y) (round_even x)).
Proof.
  intros [Hx Hy]. unfold pixel_at, numpy_index. rewrite decide_True by by apply round_in. cbn [res_bind]. by rewrite decide_True by by apply round_in.
Qed.
Lemma mapE_ok {A B} (f : A -> res B) (g : A -> B) (l : list A) : (forall a, a ∈ l -> f a = Ok (g a)) -> mapE f l = Ok (map g l).
Proof. induction l as [|a l IH]; intros H; cbn [mapE map]; [done|]. rewrite H by left. cbn [res_bind]. rewrite IH by (intros; apply H; by right). done. Qed.

(** Thresholds *)
Lemma reduced_S t n : reduced (t * 2 / 3) n = reduced t (S n).
Proof. unfold reduced. cbn [pow]. field. Qed.
Lemma reduced_small t : exists n, reduced t n <= 0.0001.
Proof.
  destruct (pow_lt_1_zero (2 / 3)) with (y := 0.0001 / (Rabs t + 1)) as [N HN].
  - rewrite Rabs_pos_eq; lra.
  - apply Rdiv_lt_0_compat; [lra|]. pose proof (Rabs_pos t). lra.
  - exists N. specialize (HN N (Nat.le_refl N)). pose proof (Rabs_pos t) as Ht. assert (0 <= (2 / 3) ^ N) as Hp by (apply pow_le; lra). rewrite Rabs_pos_eq in HN by done. unfold reduced.
    assert ((2 / 3) ^ N * (Rabs t + 1) < 0.0001) as H1. { apply (Rmult_lt_compat_r (Rabs t + 1)) in HN; [|lra]. unfold Rdiv in HN at 2. rewrite Rmult_assoc, Rinv_l in HN; lra. }
    pose proof (Rle_abs t) as H2. nra.
Qed.
Lemma threshold_run {P} (detect : R -> list P) count m t : reduced t m <= 0.0001 -> exists n, (n <= m)%nat /\ (forall fuel, (n < fuel)%nat -> threshold_loop detect count fuel t = Some (reduced t n, detect (reduced t n))) /\
  ((count <= length (detect (reduced t n)))%nat \/ reduced t n <= 0.0001) /\ forall k, (k < n)%nat -> (length (detect (reduced t k)) < count)%nat /\ 0.0001 < reduced t k.
Proof.
  revert t. induction m as [|m IH]; intros t Hm.
  - assert (reduced t 0 = t) as E by (unfold reduced; cbn; ring). rewrite E in Hm. exists 0%nat. rewrite E. split; [done|]. split; [|split; [by right|lia]]. intros [|fuel] Hf; [lia|]. cbn [threshold_loop]. cbn zeta. destruct (decide _); [|done]. destruct (Rlt_dec _ _); [lra|done].
  - assert (reduced t 0 = t) as E by (unfold reduced; cbn; ring). 
    destruct (decide (length (detect t) < count)%nat) as [Hc|Hc].
    + destruct (Rlt_dec 0.0001 t) as [Ht|Ht].
      * rewrite <- reduced_S in Hm. destruct (IH _ Hm) as (n & Hn & Hrun & Hend & Hbefore). exists (S n). rewrite reduced_S in Hrun, Hend. split; [lia|]. split; [|split; [done|]].
        -- intros [|fuel] Hf; [lia|]. cbn [threshold_loop]. cbn zeta. rewrite decide_True by done. destruct (Rlt_dec _ _); [|lra]. apply Hrun. lia.
        -- intros [|k] Hk; [by rewrite E|]. rewrite <- reduced_S. apply Hbefore. lia.
      * exists 0%nat. rewrite E. split; [lia|]. split; [|split; [right; lra|lia]]. intros [|fuel] Hf; [lia|]. cbn [threshold_loop]. cbn zeta. rewrite decide_True by done. destruct (Rlt_dec _ _); [lra|done].
    + exists 0%nat. rewrite E. split; [lia|]. split; [|split; [left; lia|lia]]. intros [|fuel] Hf; [lia|]. cbn [threshold_loop]. cbn zeta. by rewrite decide_False by done.
Qed.
