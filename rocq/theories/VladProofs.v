From stdpp Require Import prelude strings gmap.
From Coq Require Import Reals Lra Lia.
From Verif Require Import Base VladModel VladSpec.
Local Open Scope R_scope.

(** * Sums *)
Lemma component_lookup v d x : v !! d = Some x -> component v d = x.
Proof. intros H. unfold component. rewrite nth_lookup, H. done. Qed.
Lemma component_beyond v d : (length v <= d)%nat -> component v d = 0.
Proof. intros H. unfold component. by apply nth_overflow. Qed.
Lemma sum_to_ext n f g : (forall i, (i < n)%nat -> f i = g i) -> sum_to n f = sum_to n g.
Proof. intros H. induction n as [|n IH]; [done|]. cbn [sum_to]. rewrite IH, H; [done|lia|]. intros i Hi. apply H. lia. Qed.
Lemma sum_to_front n f : sum_to (S n) f = f 0%nat + sum_to n (fun i => f (S i)).
Proof. induction n as [|n IH]; [cbn [sum_to]; lra|]. change (sum_to (S (S n)) f) with (sum_to (S n) f + f (S n)). rewrite IH. cbn [sum_to]. lra. Qed.
Lemma sum_to_plus n f g : sum_to n (fun i => f i + g i) = sum_to n f + sum_to n g.
Proof. induction n as [|n IH]; cbn [sum_to]; [lra|rewrite IH; lra]. Qed.
Lemma sum_to_scale n c f : sum_to n (fun i => c * f i) = c * sum_to n f.
Proof. induction n as [|n IH]; cbn [sum_to]; [lra|rewrite IH; lra]. Qed.
Lemma sum_to_le n f g : (forall i, (i < n)%nat -> f i <= g i) -> sum_to n f <= sum_to n g.
Proof. intros H. induction n as [|n IH]; cbn [sum_to]; [lra|]. apply Rplus_le_compat; [apply IH; intros; apply H; lia|apply H; lia]. Qed.
Lemma sum_to_zero n : sum_to n (fun _ => 0) = 0.
Proof. induction n as [|n IH]; cbn [sum_to]; lra. Qed.
Lemma sum_to_nonneg n f : (forall i, (i < n)%nat -> 0 <= f i) -> 0 <= sum_to n f.
Proof. intros H. rewrite <- (sum_to_zero n). by apply sum_to_le. Qed.
Lemma sum_to_term n f i : (forall j, (j < n)%nat -> 0 <= f j) -> (i < n)%nat -> f i <= sum_to n f.
Proof.
  intros H Hi. induction n as [|n IH]; [lia|]. cbn [sum_to]. pose proof (H n ltac:(lia)). assert (0 <= sum_to n f) by (apply sum_to_nonneg; intros; apply H; lia).
  destruct (decide (i = n)) as [->|Hne]; [lra|]. assert (f i <= sum_to n f); [|lra]. apply IH; [intros; apply H; lia|lia].
Qed.
Lemma sum_to_null n f i : (forall j, (j < n)%nat -> 0 <= f j) -> sum_to n f = 0 -> (i < n)%nat -> f i = 0.
Proof. intros H E Hi. pose proof (sum_to_term n f i H Hi). pose proof (H i Hi). lra. Qed.
Lemma total_sum v : total v = sum_to (length v) (component v).
Proof. induction v as [|x v IH]; [done|]. cbn [total foldr length]. rewrite sum_to_front. change (component (x :: v) 0) with x. f_equal. exact IH. Qed.
Lemma component_map f v d : (d < length v)%nat -> component (f <$> v) d = f (component v d).
Proof. intros H. apply lookup_lt_is_Some in H as [x Hx]. rewrite (component_lookup _ _ _ Hx). apply component_lookup. by rewrite list_lookup_fmap, Hx. Qed.
Lemma component_zip f u v d : (d < length u)%nat -> (d < length v)%nat -> component (zip_with f u v) d = f (component u d) (component v d).
Proof.
  intros [x Hx]%lookup_lt_is_Some [y Hy]%lookup_lt_is_Some. rewrite (component_lookup _ _ _ Hx), (component_lookup _ _ _ Hy). apply component_lookup. by rewrite lookup_zip_with, Hx, Hy.
Qed.
Lemma squared_norm_distance n u v : length u = n -> length v = n -> squared_norm u v = distance2 n u v.
Proof.
  intros Hu Hv. unfold squared_norm, distance2. rewrite total_sum, zip_with_length_l_eq by lia. rewrite Hu. apply sum_to_ext. intros i Hi. rewrite component_zip by lia. ring.
Qed.
Lemma component_ext u v : length u = length v -> (forall d, (d < length u)%nat -> component u d = component v d) -> u = v.
Proof.
  intros Hl H. apply list_eq_same_length with (length u); [done|done|]. intros i x y Hi Hx Hy. rewrite <- (component_lookup _ _ _ Hx), <- (component_lookup _ _ _ Hy). by apply H.
Qed.

(** * The nearest center *)
Definition first_best (f : list R) (pre : list (list R)) (best : option (R * nat)) : Prop :=
  match best with
  | None => pre = []
  | Some (b, i) => exists c, pre !! i = Some c /\ b = squared_norm f c /\ forall k c', pre !! k = Some c' -> b <= squared_norm f c' /\ ((k < i)%nat -> b < squared_norm f c')
  end.
Lemma best_center_spec f cs : forall pre best, first_best f pre best -> first_best f (pre ++ cs) (best_center f cs (length pre) best).
Proof.
  induction cs as [|c cs IH]; intros pre best H; cbn [best_center]. { by rewrite app_nil_r. }
  rewrite cons_middle, app_assoc. replace (S (length pre)) with (length (pre ++ [c])) by (rewrite app_length; cbn; lia). apply IH. clear IH cs.
  destruct best as [[b i]|].
  - destruct H as (c0 & Hi & -> & H). destruct (Rlt_dec _ _) as [Hlt|Hge].
    + exists c. split; [by rewrite lookup_app_r, Nat.sub_diag|]. split; [done|]. intros k c' Hk. apply lookup_app_Some in Hk as [Hk|[Hk1 Hk]].
      * destruct (H k c' Hk). split; [lra|]. lra.
      * apply list_lookup_singleton_Some in Hk as [Hk2 <-]. split; [lra|intros; exfalso; lia].
    + exists c0. split; [by apply lookup_app_l_Some|]. split; [done|]. intros k c' Hk. apply lookup_app_Some in Hk as [Hk|[Hk1 Hk]]; [by apply H|].
      apply list_lookup_singleton_Some in Hk as [Hk2 <-]. apply lookup_lt_Some in Hi. split; [lra|intros; exfalso; lia].
  - cbn in H. subst pre. exists c. split; [done|]. split; [done|]. intros k c' Hk. apply list_lookup_singleton_Some in Hk as [-> <-]. split; [lra|intros Hx; cbn in Hx; exfalso; lia].
Qed.
Lemma best_center_nearest centers f : well_formed centers -> length f = m_cols centers -> m_rows centers <> [] ->
  exists b j, best_center f (m_rows centers) 0 None = Some (b, j) /\ nearest centers f j.
Proof.
  intros Hwf Hf Hne. pose proof (best_center_spec f (m_rows centers) [] None eq_refl) as H. cbn [length app] in H. destruct (best_center _ _ _ _) as [[b j]|]; [|done].
  exists b, j. split; [done|]. destruct H as (c & Hc & -> & H). exists c. split; [done|]. intros k c' Hk. rewrite <- !squared_norm_distance; [by apply H|done| |done|].
  - apply Hwf. by eapply elem_of_list_lookup_2.
  - apply Hwf. by eapply elem_of_list_lookup_2.
Qed.
Lemma nearest_unique centers f i j : nearest centers f i -> nearest centers f j -> i = j.
Proof.
  intros (c & Hc & H) (c' & Hc' & H'). destruct (H j c' Hc') as [A1 A2]. destruct (H' i c Hc) as [B1 B2]. destruct (lt_eq_lt_dec i j) as [[Hl|?]|Hl]; [|done|].
  - specialize (B2 Hl). lra.
  - specialize (A2 Hl). lra.
Qed.

(** * Adding to a part of a vector *)
Lemma add_segment_length v start s : (start + length s <= length v)%nat -> length (add_segment v start s) = length v.
Proof. intros H. unfold add_segment. rewrite !app_length, take_length, zip_with_length, !drop_length. lia. Qed.
Lemma add_segment_component v start s i : (start + length s <= length v)%nat ->
  component (add_segment v start s) i = component v i + if decide (start <= i < start + length s)%nat then component s (i - start) else 0.
Proof.
  intros H. unfold add_segment, component. rewrite !nth_lookup. destruct (decide (i < start)%nat) as [H1|H1].
  - rewrite decide_False by lia. rewrite lookup_app_l by (rewrite take_length; lia). rewrite lookup_take by lia. lra.
  - rewrite lookup_app_r by (rewrite take_length; lia). rewrite take_length, Nat.min_l by lia. destruct (decide _) as [H2|H2].
    + rewrite lookup_app_l by (rewrite zip_with_length, drop_length; lia).
      destruct (lookup_lt_is_Some_2 v i) as [x Hx]; [lia|]. destruct (lookup_lt_is_Some_2 s (i - start)) as [y Hy]; [lia|].
      rewrite lookup_zip_with, lookup_drop. replace (start + (i - start))%nat with i by lia. rewrite Hx, Hy. done.
    + rewrite lookup_app_r by (rewrite zip_with_length, drop_length; lia). rewrite zip_with_length, drop_length, lookup_drop.
      replace (start + length s + (i - start - min (length v - start) (length s)))%nat with i by lia. lra.
Qed.
Section descriptor.
  Context (centers : matrix) (Hwf : well_formed centers) (Hcols : m_cols centers <> 0%nat) (Hrows : m_rows centers <> []).
  Notation n := (m_cols centers).
  Lemma add_feature_spec v f : length v = (length (m_rows centers) * n)%nat -> length f = n ->
    length (add_feature centers v f) = length v /\
    exists j c, nearest centers f j /\ m_rows centers !! j = Some c /\ forall k d, (d < n)%nat ->
      component (add_feature centers v f) (k * n + d) = component v (k * n + d) + if decide (k = j) then component f d - component c d else 0.
  Proof.
    intros Hv Hf. unfold add_feature. destruct (best_center_nearest centers f Hwf Hf Hrows) as (b & j & -> & Hn). pose proof Hn as (c & Hc & _). rewrite Hc.
    assert (length c = n) as Hlc by (apply Hwf; by eapply elem_of_list_lookup_2). pose proof (lookup_lt_Some _ _ _ Hc) as Hj.
    assert (length (zip_with Rminus f c) = n) as Hls by (rewrite zip_with_length_l_eq by lia; done).
    assert (j * n + length (zip_with Rminus f c) <= length v)%nat as Hle by (rewrite Hls, Hv; nia).
    split; [by apply add_segment_length|]. exists j, c. split; [done|]. split; [done|]. intros k d Hd. rewrite add_segment_component by done. rewrite Hls. f_equal.
    destruct (decide (k = j)) as [->|Hk].
    - rewrite decide_True by lia. replace (j * n + d - j * n)%nat with d by lia. by rewrite component_zip by lia.
    - rewrite decide_False; [done|]. intros [H1 H2]. destruct (lt_eq_lt_dec k j) as [[Hl|?]|Hl]; [|done|]; nia.
  Qed.
  Lemma add_features_spec fs v : length v = (length (m_rows centers) * n)%nat -> (forall f, f ∈ fs -> length f = n) ->
    length (foldl (add_feature centers) v fs) = length v /\
    forall k d, (d < n)%nat -> (k < length (m_rows centers))%nat -> exists s, residual centers k d fs s /\ component (foldl (add_feature centers) v fs) (k * n + d) = component v (k * n + d) + s.
  Proof.
    revert v. induction fs as [|f fs IH]; intros v Hv Hf; cbn [foldl].
    - split; [done|]. intros k d _ _. exists 0. split; [constructor|lra].
    - destruct (add_feature_spec v f Hv) as (Hl & j & c & Hn & Hc & Hk); [apply Hf; left|]. destruct (IH (add_feature centers v f)) as [Hl2 H]; [lia|intros; apply Hf; by right|].
      split; [lia|]. intros k d Hd Hkl. destruct (H k d Hd Hkl) as (s & Hs & E). destruct (decide (k = j)) as [->|Hne].
      + exists (component f d - component c d + s). split; [by eapply residual_near|]. rewrite E, Hk by done. rewrite decide_True by done. lra.
      + exists s. split; [apply residual_far; [|done]; intros Hn2; by apply Hne, (nearest_unique centers f)|]. rewrite E, Hk by done. rewrite decide_False by done. lra.
  Qed.
End descriptor.
Lemma residual_unique centers j d fs s s' : residual centers j d fs s -> residual centers j d fs s' -> s = s'.
Proof.
  intros H. revert s'. induction H as [|f fs c s Hn Hc H IH|f fs s Hn H IH]; intros s' H'; inversion H'; subst; try done.
  - f_equal; [congruence|by apply IH].
  - by apply IH.
Qed.
Lemma residual_perm centers j d fs fs' s : fs ≡ₚ fs' -> residual centers j d fs s -> residual centers j d fs' s.
Proof.
  intros Hp. revert s. induction Hp as [|x l l' Hp IH|x y l|l1 l2 l3 _ IH1 _ IH2]; intros s H.
  - done.
  - inversion H; subst; [eapply residual_near|apply residual_far]; eauto.
  - inversion H; subst; match goal with H : residual _ _ _ (_ :: l) _ |- _ => inversion H; subst end.
    + match goal with |- residual _ _ _ _ (?a + (?b + ?c)) => replace (a + (b + c)) with (b + (a + c)) by lra end. do 2 (eapply residual_near; eauto).
    + apply residual_far; [done|]. eapply residual_near; eauto.
    + eapply residual_near; eauto. by apply residual_far.
    + by do 2 (apply residual_far; [done|]).
  - by apply IH2, IH1.
Qed.
Lemma residual_app centers j d fs fs' s s' : residual centers j d fs s -> residual centers j d fs' s' -> residual centers j d (fs ++ fs') (s + s').
Proof.
  intros H H'. induction H; cbn [app].
  - by rewrite Rplus_0_l.
  - rewrite Rplus_assoc. eapply residual_near; eauto.
  - by apply residual_far.
Qed.
Lemma split_index n i : n <> 0%nat -> i = (i / n * n + i mod n)%nat /\ (i mod n < n)%nat.
Proof. intros H. pose proof (Nat.div_mod i n H). pose proof (Nat.mod_upper_bound i n H). split; [lia|done]. Qed.

(** * Normalisation *)
Lemma root_abs x : sign x * sqrt (Rabs x) * (sign x * sqrt (Rabs x)) = Rabs x.
Proof.
  assert (sqrt (Rabs x) * sqrt (Rabs x) = Rabs x) as E by apply sqrt_sqrt, Rabs_pos. unfold sign. destruct (Rlt_dec x 0); [lra|]. destruct (Rlt_dec 0 x); [lra|]. assert (x = 0) as -> by lra. rewrite Rabs_R0. lra.
Qed.
Lemma root_signed x : sign x * sqrt (Rabs x) * Rabs (sign x * sqrt (Rabs x)) = x.
Proof.
  assert (sqrt (Rabs x) * sqrt (Rabs x) = Rabs x) as E by apply sqrt_sqrt, Rabs_pos. rewrite Rabs_mult, (Rabs_right (sqrt _)) by (apply Rle_ge, sqrt_pos).
  unfold sign. destruct (Rlt_dec x 0). { rewrite (Rabs_left (-1)) by lra. rewrite (Rabs_left x) in * by lra. lra. }
  destruct (Rlt_dec 0 x). { rewrite (Rabs_right 1) by lra. rewrite (Rabs_right x) in * by lra. lra. } assert (x = 0) as -> by lra. lra.
Qed.
Lemma norm_root v : norm_of ((fun x => sign x * sqrt (Rabs x)) <$> v) = sqrt (sum_to (length v) (fun d => Rabs (component v d))).
Proof.
  unfold norm_of. f_equal. rewrite total_sum, !fmap_length. apply sum_to_ext. intros i Hi. rewrite component_map by (rewrite fmap_length; lia). rewrite component_map by done. apply root_abs.
Qed.
Lemma normalize_spec v :
  match signed_square_root_normalize v with
  | Some h => length h = length v /\ unit_length h /\ forall d, component h d * Rabs (component h d) * sum_to (length v) (fun i => Rabs (component v i)) = component v d
  | None => forall d, component v d = 0
  end.
Proof.
  unfold signed_square_root_normalize. rewrite norm_root. set (S := sum_to _ _). assert (0 <= S) as HS by (apply sum_to_nonneg; intros; apply Rabs_pos). pose proof (sqrt_sqrt S HS) as E. pose proof (sqrt_pos S) as Hp.
  destruct (Req_EM_T (sqrt S) 0) as [E0|E0].
  - rewrite E0 in E. intros d. destruct (decide (d < length v)%nat) as [Hd|Hd]; [|apply component_beyond; lia]. assert (Rabs (component v d) = 0) as H.
    { apply (sum_to_null (length v) (fun i => Rabs (component v i)) d); [intros; apply Rabs_pos| |done]. fold S. lra. }
    destruct (Req_EM_T (component v d) 0) as [|Hn]; [done|]. by apply Rabs_no_R0 in Hn.
  - assert (0 < sqrt S) as Hps by lra. rewrite !fmap_length. split; [done|].
    assert (forall d, (d < length v)%nat -> component ((fun x => x / sqrt S) <$> ((fun x => sign x * sqrt (Rabs x)) <$> v)) d = sign (component v d) * sqrt (Rabs (component v d)) / sqrt S) as Hd.
    { intros d Hd. rewrite component_map by (rewrite fmap_length; lia). by rewrite component_map. }
    split.
    + unfold unit_length. rewrite !fmap_length. rewrite (sum_to_ext _ _ (fun d => / S * Rabs (component v d))).
      * rewrite sum_to_scale. fold S. rewrite Rinv_l; [done|nra].
      * intros i Hi. rewrite Hd by done. pose proof (root_abs (component v i)) as Er. revert Er. generalize (sign (component v i) * sqrt (Rabs (component v i))). intros y <-. clearbody S. clear Hd. revert E. generalize (sqrt S) E0. intros q Hq <-. field. done.
    + intros d. destruct (decide (d < length v)%nat) as [Hlt|Hge].
      * rewrite Hd by done. set (x := component v d). unfold Rdiv. rewrite Rabs_mult, (Rabs_right (/ sqrt S)) by (apply Rle_ge, Rlt_le, Rinv_0_lt_compat; lra).
        pose proof (root_signed x) as Er. revert Er. generalize (sign x * sqrt (Rabs x)). intros y <-. clearbody S. clear Hd. revert E. generalize (sqrt S) E0. intros q Hq <-. field. done.
      * rewrite !component_beyond by (rewrite ?fmap_length; lia). lra.
Qed.

(** * Distances *)
Lemma norm_distance n u v : length u = n -> length v = n -> norm_of (zip_with Rminus u v) = sqrt (distance2 n u v).
Proof.
  intros Hu Hv. unfold norm_of, distance2. f_equal. rewrite total_sum, fmap_length, zip_with_length_l_eq by lia. rewrite Hu. apply sum_to_ext. intros i Hi.
  rewrite component_map by (rewrite zip_with_length_l_eq; lia). rewrite component_zip by lia. ring.
Qed.
Lemma distance2_nonneg n u v : 0 <= distance2 n u v.
Proof. apply sum_to_nonneg. intros. apply pow2_ge_0. Qed.
Lemma distance2_sym n u v : distance2 n u v = distance2 n v u.
Proof. apply sum_to_ext. intros. ring. Qed.
Lemma distance2_units n u v : length u = n -> length v = n -> unit_length u -> unit_length v -> distance2 n u v <= 4.
Proof.
  unfold unit_length. intros -> Hv Eu Ev. rewrite Hv in Ev. unfold distance2.
  eapply Rle_trans; [apply (sum_to_le _ _ (fun d => 2 * component u d ^ 2 + 2 * component v d ^ 2))|].
  - intros i _. pose proof (pow2_ge_0 (component u i + component v i)). lra.
  - rewrite sum_to_plus, !sum_to_scale, Eu, Ev. lra.
Qed.
Lemma vlad_distances_spec descriptors image others reference : descriptors !! image = Some reference ->
  let kept := filter (fun c => c <> image /\ is_Some (descriptors !! c)) others in
  compute_vlad_distances descriptors image others = ((fun c => norm_of (zip_with Rminus reference (default [] (descriptors !! c)))) <$> kept, kept).
Proof.
  intros Hr. cbn zeta. unfold compute_vlad_distances. rewrite Hr.
  assert (forall acc, foldl (fun acc candidate => if decide (candidate = image) then acc else match descriptors !! candidate with None => acc | Some v => (acc.1 ++ [norm_of (zip_with Rminus reference v)], acc.2 ++ [candidate]) end) acc others =
    (acc.1 ++ ((fun c => norm_of (zip_with Rminus reference (default [] (descriptors !! c)))) <$> filter (fun c => c <> image /\ is_Some (descriptors !! c)) others), acc.2 ++ filter (fun c => c <> image /\ is_Some (descriptors !! c)) others)) as H; [|by rewrite H].
  induction others as [|c others IH]; intros [a1 a2]; cbn [foldl fst snd]; [by rewrite !app_nil_r|]. rewrite IH. clear IH.
  destruct (decide (c = image)) as [->|Hc]; [rewrite filter_cons_False by tauto; done|]. destruct (descriptors !! c) as [v|] eqn:Ev.
  - rewrite filter_cons_True by eauto. cbn [fst snd fmap list_fmap]. rewrite Ev. cbn [default from_option Datatypes.id]. by rewrite <- !app_assoc.
  - rewrite filter_cons_False; [done|]. intros [_ [x Hx]]. by rewrite Ev in Hx.
Qed.

(** * Words *)
Definition counts (words : list Z) (n : nat) : list R := (fun i => INR (length (filter (fun w => w = Z.of_nat i) words))) <$> seq 0 n.
Lemma max_word words n : (foldr (fun w n => Nat.max (S (Z.to_nat w)) n) n words = n)%nat <-> Forall (fun w => (Z.to_nat w < n)%nat) words.
Proof.
  assert (forall l, n <= foldr (fun w n => Nat.max (S (Z.to_nat w)) n) n l)%nat as Hge. { induction l; cbn [foldr]; lia. }
  induction words as [|w words IH]; cbn [foldr]; [done|]. rewrite Forall_cons, <- IH. pose proof (Hge words). lia.
Qed.
Lemma bow_histogram_cases frequencies words :
  let n := length frequencies in let h := zip_with Rmult (counts words n) (word_weights frequencies) in
  (Forall (fun w => (0 <= w < Z.of_nat n)%Z) words /\ bow_histogram frequencies words = Ok (if Req_EM_T (total h) 0 then None else Some ((fun x => x / total h) <$> h))) \/
  (~ Forall (fun w => (0 <= w < Z.of_nat n)%Z) words /\ bow_histogram frequencies words = Err ValueError).
Proof.
  cbn zeta. unfold bow_histogram, bincount. destruct (decide _) as [Hneg|Hpos].
  - right. split; [|done]. intros Hall. apply Exists_exists in Hneg as (w & Hw & Hlt). rewrite Forall_forall in Hall. specialize (Hall w Hw). lia.
  - cbn [res_bind]. set (m := foldr _ _ _). rewrite fmap_length, seq_length. destruct (decide (m = length frequencies)) as [E|E].
    + left. split; [|by rewrite E]. apply max_word in E. rewrite Forall_forall in E |- *. intros w Hw. specialize (E w Hw). destruct (Z_lt_dec w 0) as [Hlt|]; [|lia]. exfalso. apply Hpos. apply Exists_exists. eauto.
    + right. split; [|done]. intros Hall. apply E. apply max_word. eapply Forall_impl; [exact Hall|]. cbn. intros. lia.
Qed.
Lemma counts_component words n i : (i < n)%nat -> component (counts words n) i = INR (length (filter (fun w => w = Z.of_nat i) words)).
Proof. intros Hi. apply component_lookup. unfold counts. rewrite list_lookup_fmap. rewrite lookup_seq_lt by done. done. Qed.
Lemma weights_component frequencies i : (i < length frequencies)%nat -> component (word_weights frequencies) i = ln (sum_to (length frequencies) (component frequencies) / component frequencies i).
Proof. intros Hi. unfold word_weights. rewrite component_map by done. by rewrite total_sum. Qed.
Lemma histogram_component words frequencies i : (i < length frequencies)%nat -> component (zip_with Rmult (counts words (length frequencies)) (word_weights frequencies)) i =
  INR (length (filter (fun w => w = Z.of_nat i) words)) * ln (sum_to (length frequencies) (component frequencies) / component frequencies i).
Proof.
  intros Hi. rewrite component_zip; [by rewrite counts_component, weights_component|unfold counts; rewrite fmap_length, seq_length; lia|unfold word_weights; rewrite fmap_length; lia].
Qed.
Lemma histogram_length words frequencies : length (zip_with Rmult (counts words (length frequencies)) (word_weights frequencies)) = length frequencies.
Proof. rewrite zip_with_length_l_eq; unfold counts, word_weights; rewrite ?fmap_length, ?seq_length; done. Qed.
(** A frequency below the sum of all *)
Lemma frequency_share frequencies i : (2 <= length frequencies)%nat -> (forall j, (j < length frequencies)%nat -> 0 < component frequencies j) -> (i < length frequencies)%nat ->
  component frequencies i < sum_to (length frequencies) (component frequencies).
Proof.
  set (n := length frequencies). generalize (component frequencies). intros f Hn Hf Hi. clearbody n.
  assert (exists j, (j < n)%nat /\ j <> i) as (j & Hj & Hne). { destruct (decide (i = 0%nat)); [exists 1%nat|exists 0%nat]; lia. }
  assert (forall m, (forall k, (k < m)%nat -> 0 <= f k) -> forall a b, (a < b)%nat -> (b < m)%nat -> f a + f b <= sum_to m f) as H.
  { induction m as [|m IH]; intros Hk a b Hab Hb; [lia|]. cbn [sum_to]. destruct (decide (b = m)) as [->|].
    - apply Rplus_le_compat_r. apply sum_to_term; [intros; apply Hk; lia|done].
    - assert (f a + f b <= sum_to m f); [apply IH; [intros; apply Hk; lia|done|lia]|]. pose proof (Hk m ltac:(lia)). lra. }
  assert (forall k, (k < n)%nat -> 0 <= f k) as Hf0 by (intros; apply Rlt_le, Hf; lia). pose proof (Hf j Hj). destruct (lt_eq_lt_dec i j) as [[Hl|?]|Hl]; [|lia|].
  - pose proof (H n Hf0 i j Hl Hj). lra.
  - pose proof (H n Hf0 j i Hl Hi). lra.
Qed.
Lemma ln_pos x : 1 < x -> 0 < ln x.
Proof. intros H. rewrite <- ln_1. apply ln_increasing; lra. Qed.
Lemma bow_histogram_spec frequencies words : (2 <= length frequencies)%nat -> (forall j, (j < length frequencies)%nat -> 0 < component frequencies j) ->
  Forall (fun w => (0 <= w < Z.of_nat (length frequencies))%Z) words -> words <> [] ->
  exists h, bow_histogram frequencies words = Ok (Some h) /\ length h = length frequencies /\ (forall i, 0 <= component h i) /\ sum_to (length h) (component h) = 1 /\
    let score i := INR (length (filter (fun w => w = Z.of_nat i) words)) * ln (sum_to (length frequencies) (component frequencies) / component frequencies i) in
    forall i, (i < length frequencies)%nat -> component h i * sum_to (length frequencies) score = score i.
Proof.
  intros Hn Hf Hall Hne. destruct (bow_histogram_cases frequencies words) as [[_ E]|[H _]]; [|done]. rewrite E. clear E. set (h := zip_with Rmult _ _).
  assert (length h = length frequencies) as Hl by apply histogram_length. set (score := fun i : nat => _).
  assert (forall i, (i < length frequencies)%nat -> component h i = score i) as Hc by (intros; by apply histogram_component).
  assert (forall i, (i < length frequencies)%nat -> 0 < ln (sum_to (length frequencies) (component frequencies) / component frequencies i)) as Hw.
  { intros i Hi. apply ln_pos. pose proof (frequency_share frequencies i Hn Hf Hi). pose proof (Hf i Hi). apply (Rmult_lt_reg_r (component frequencies i)); [done|]. unfold Rdiv. rewrite Rmult_assoc, Rinv_l by lra. lra. }
  assert (forall i, (i < length frequencies)%nat -> 0 <= score i) as Hs0. { intros i Hi. unfold score. apply Rmult_le_pos; [apply pos_INR|by apply Rlt_le, Hw]. }
  assert (0 < sum_to (length frequencies) score) as Hs.
  { destruct words as [|w words]; [done|]. apply Forall_cons in Hall as Hw0. destruct Hw0 as [Hw0 _]. eapply Rlt_le_trans; [|apply (sum_to_term _ score (Z.to_nat w) Hs0); lia].
    unfold score. apply Rmult_lt_0_compat; [|apply Hw; lia]. apply lt_0_INR. rewrite filter_cons_True by lia. cbn. lia. }
  assert (total h = sum_to (length frequencies) score) as Et. { rewrite total_sum, Hl. by apply sum_to_ext. }
  rewrite Et. destruct (Req_EM_T _ _) as [|_]; [lra|]. eexists. split; [reflexivity|]. rewrite fmap_length. split; [done|].
  assert (forall i, (i < length frequencies)%nat -> component ((fun x => x / sum_to (length frequencies) score) <$> h) i = / sum_to (length frequencies) score * score i) as Hd.
  { intros i Hi. rewrite component_map by lia. rewrite Hc by done. unfold Rdiv. lra. }
  split; [|split].
  - intros i. destruct (decide (i < length frequencies)%nat) as [Hi|Hi]; [|rewrite component_beyond by (rewrite fmap_length; lia); lra]. rewrite Hd by done. apply Rmult_le_pos; [apply Rlt_le, Rinv_0_lt_compat; done|by apply Hs0].
  - rewrite Hl. rewrite (sum_to_ext _ _ _ Hd), sum_to_scale. rewrite Rinv_l; lra.
  - cbn zeta. intros i Hi. rewrite Hd by done. fold score. field. lra.
Qed.
Lemma bow_distance_sum n u v : length u = n -> length v = n -> bow_distance u v = sum_to n (fun i => Rabs (component u i - component v i)).
Proof. intros Hu Hv. unfold bow_distance. rewrite total_sum, zip_with_length_l_eq by lia. rewrite Hu. apply sum_to_ext. intros i Hi. by rewrite component_zip by lia. Qed.
