From stdpp Require Import prelude strings gmap.
From Coq Require Import Reals Lra Lia Sorted.
From Verif Require Import Base Lin RotModel RotProofs PoseModel PoseSpec PoseProofs RigModel RigCalModel RigCalSpec.
Local Open Scope R_scope.

(** Poses *)
Lemma vector_valid r t : valid (pose_of_vector r t).
Proof. apply built_valid. constructor. Qed.
Lemma set_origin_valid p o : valid p -> valid (set_origin p o).
Proof. intros (H1 & H2 & _). by apply valid_translation. Qed.
Lemma w_tr_origin p : valid p -> w_tr p = vopp (mvec (w_rot p) (get_origin p)).
Proof. intros (H & _ & E). unfold get_origin. rewrite E, mvec_opp, <- mvec_mmul, (rotation_r _ H), mvec_I. by rewrite vopp_opp. Qed.
Lemma origin_ext p q : valid p -> valid q -> w_rot p = w_rot q -> get_origin p = get_origin q -> p = q.
Proof. intros Hp Hq Hr Ho. apply valid_ext; try done. by rewrite (w_tr_origin p Hp), (w_tr_origin q Hq), Hr, Ho. Qed.
Lemma codec p : valid p -> set_origin (pose_of_vector (get_rotation p) v0) (get_origin p) = p.
Proof.
  intros Hp. pose proof (vector_valid (get_rotation p) v0) as Hv. destruct (set_origin_spec _ (get_origin p) Hv) as (H1 & H2 & _). apply origin_ext; try done; [by apply set_origin_valid|]. rewrite H2. cbn. by apply rotation_codec.
Qed.
Lemma frame_valid l : valid (instance_frame l).
Proof. apply set_origin_valid, vector_valid. Qed.
Lemma relative_cancel p1 p2 f : valid p1 -> valid p2 -> valid f -> relative_to (relative_to p1 f) (relative_to p2 f) = relative_to p1 p2.
Proof.
  intros H1 H2 Hf. pose proof (valid_relative p1 f H1 Hf). pose proof (valid_relative p2 f H2 Hf) as Hq. pose proof (valid_inverse f Hf) as Hi. pose proof (valid_inverse p2 H2) as Hi2. 
  rewrite (relative_compose (relative_to p1 f)), (relative_compose p1 p2) by done. 
  assert (relative_to p1 f = compose (compose p1 (inverse p2)) (relative_to p2 f)) as ->.
  { rewrite !relative_compose by done. rewrite <- compose_assoc by (try done; by apply valid_compose). by rewrite cancel_l by done. }
  rewrite <- compose_assoc; [|by apply valid_compose|done|by apply valid_inverse]. rewrite compose_inverse_r by done. apply compose_0_r. by apply valid_compose.
Qed.

(** Averages *)
Lemma vscale_S n v : vscale (INR (S n)) v = vadd (vscale (INR n) v) v.
Proof. rewrite S_INR. vring. Qed.
Lemma dom_add acc s : dom (add_pose acc s) = {[s.2]} ∪ dom acc.
Proof. unfold add_pose. destruct (default _ _) as [[o r] n]. by rewrite dom_insert_L. Qed.
Lemma dom_adds l acc : dom (foldl add_pose acc l) = dom acc ∪ list_to_set l.*2.
Proof. revert acc. induction l as [|s l IH]; intros acc; cbn [foldl fmap list_fmap list_to_set]; [set_solver|]. rewrite IH, dom_add. set_solver. Qed.
Lemma foldl_foldl {A B} (f : A -> B -> A) (ll : list (list B)) acc : foldl (foldl f) acc ll = foldl f acc (concat ll).
Proof. revert acc. induction ll as [|l ll IH]; intros acc; cbn [foldl concat]; [done|]. by rewrite IH, foldl_app. Qed.
Lemma elem_of_concat {A} (x : A) ll : x ∈ concat ll <-> exists l, x ∈ l /\ l ∈ ll.
Proof. induction ll as [|l ll IH]; cbn [concat]; [rewrite elem_of_nil; split; [done|intros (l & _ & H); by apply elem_of_nil in H]|]. rewrite elem_of_app, IH. split; [intros [H|(l' & H & Hl)]; [exists l; split; [done|left]|exists l'; split; [done|by right]]|intros (l' & H & Hl); apply elem_of_cons in Hl as [-> | Hl]; [by left|right; by exists l']]. Qed.
Lemma centered_ids i : (centered i).*2 = i.*2.
Proof. unfold centered. rewrite <- list_fmap_compose. by apply list_fmap_ext. Qed.
Lemma compute_dom instances c : is_Some (compute_relative_pose instances !! c) <-> exists i p, i ∈ instances /\ (p, c) ∈ i.
Proof.
  unfold compute_relative_pose. rewrite lookup_fmap, fmap_is_Some, <- elem_of_dom, foldl_foldl, dom_adds, dom_empty_L, elem_of_union, elem_of_empty, elem_of_list_to_set, elem_of_list_fmap. split.
  - intros [[]|((q & c') & -> & Hq)]. apply elem_of_concat in Hq as (l & Hq & Hl). apply elem_of_list_fmap in Hl as (i & -> & Hi). unfold centered in Hq. apply elem_of_list_fmap in Hq as ([p c''] & [= -> ->] & Hp). by exists i, p.
  - intros (i & p & Hi & Hp). right. exists (relative_to p (instance_frame i.*1), c). split; [done|]. apply elem_of_concat. exists (centered i). split; [|by apply elem_of_list_fmap_1]. unfold centered. apply elem_of_list_fmap. by exists (p, c).
Qed.
Lemma adds_same (rel : string -> pose) l acc : (forall q c, (q, c) ∈ l -> q = rel c) ->
  (forall c a, acc !! c = Some a -> exists n, (0 < n)%nat /\ a = (vscale (INR n) (get_origin (rel c)), vscale (INR n) (get_rotation (rel c)), n)) ->
  forall c a, foldl add_pose acc l !! c = Some a -> exists n, (0 < n)%nat /\ a = (vscale (INR n) (get_origin (rel c)), vscale (INR n) (get_rotation (rel c)), n).
Proof.
  revert acc. induction l as [|[q d] l IH]; intros acc Hl Hacc; cbn [foldl]; [done|]. apply IH; [intros; apply Hl; by right|]. intros c a. unfold add_pose. cbn [fst snd].
  assert (q = rel d) as -> by (apply Hl; left). destruct (acc !! d) as [[[o r] n]|] eqn:Ed; cbn [default from_option Datatypes.id].
  - destruct (Hacc d _ Ed) as (m & Hm & [= -> -> ->]). destruct (decide (d = c)) as [-> |Hne]; [rewrite lookup_insert; intros [= <-]|rewrite lookup_insert_ne by done; apply Hacc]. exists (S m). split; [lia|]. by rewrite !vscale_S.
  - destruct (decide (d = c)) as [-> |Hne]; [rewrite lookup_insert; intros [= <-]|rewrite lookup_insert_ne by done; apply Hacc]. exists 1%nat. split; [lia|]. cbn [INR]. apply pair_equal_spec. split; [apply pair_equal_spec; split|done]; [generalize (get_origin (rel c))|generalize (get_rotation (rel c))]; vring.
Qed.
Lemma vscale_mean n v : (0 < n)%nat -> vscale (/ INR n) (vscale (INR n) v) = v.
Proof. intros Hn. assert (INR n <> 0) by (apply not_0_INR; lia). destruct v as [x y z]. unfold vscale. cbn [vx vy vz]. f_equal; field; done. Qed.
Lemma compute_same (rel : string -> pose) instances : (forall i p c, i ∈ instances -> (p, c) ∈ i -> valid (rel c) /\ relative_to p (instance_frame i.*1) = rel c) ->
  forall i p c, i ∈ instances -> (p, c) ∈ i -> compute_relative_pose instances !! c = Some (rel c).
Proof.
  intros H i p c Hi Hp. assert (is_Some (compute_relative_pose instances !! c)) as [q Hq] by (apply compute_dom; by exists i, p). rewrite Hq. unfold compute_relative_pose in Hq. rewrite lookup_fmap in Hq. apply fmap_Some in Hq as (a & Ha & ->). rewrite foldl_foldl in Ha.
  destruct (adds_same rel (concat (centered <$> instances)) ∅) with (c := c) (a := a) as (n & Hn & ->); [| |done|].
  - intros q d Hqd. apply elem_of_concat in Hqd as (l & Hqd & Hl). apply elem_of_list_fmap in Hl as (j & -> & Hj). unfold centered in Hqd. apply elem_of_list_fmap in Hqd as ([p' d'] & [= -> ->] & Hp'). cbn [fst snd]. by apply (H j p' d').
  - intros d a'. by rewrite lookup_empty.
  - unfold mean_pose. rewrite !vscale_mean by done. f_equal. apply codec. by apply (H i p c).
Qed.
Lemma describes_same rel cameras (i : list (pose * string)) f : valid f -> (forall p c, (p, c) ∈ i -> valid p /\ relative_to p f = rel c /\ cameras !! c = Some (rel c)) -> describes cameras i.
Proof.
  intros Hf H p1 c1 p2 c2 H1 H2. destruct (H _ _ H1) as (V1 & E1 & L1). destruct (H _ _ H2) as (V2 & E2 & L2). exists (rel c1), (rel c2). split; [done|]. split; [done|]. rewrite <- E1, <- E2. split; [by apply valid_relative|]. split; [by apply valid_relative|]. by apply relative_cancel.
Qed.

(** Moved instances *)
Lemma vsum_fold (l : list vec) acc : foldl vadd acc l = vadd acc (vsum l).
Proof.
  unfold vsum. revert acc. induction l as [|v l IH]; intros acc; cbn [foldl]; [by rewrite vadd_0_r|]. rewrite IH, (IH (vadd v0 v)). rewrite vadd_0_l. generalize (foldl vadd v0 l). vring.
Qed.
Lemma vsum_cons v l : vsum (v :: l) = vadd v (vsum l).
Proof. unfold vsum at 1. cbn [foldl]. by rewrite vsum_fold, vadd_0_l. Qed.
Lemma moved_frame d a b : (forall p c, (p, c) ∈ a -> valid p) -> (forall p c, (p, c) ∈ b -> valid p) -> moved d a b -> a <> [] ->
  get_rotation <$> b.*1 = get_rotation <$> a.*1 /\ vscale (/ INR (length b)) (vsum (get_origin <$> b.*1)) = vadd (vscale (/ INR (length a)) (vsum (get_origin <$> a.*1))) d.
Proof.
  intros Ha Hb Hm Hne. pose proof (Forall2_length _ _ _ Hm) as Hl. split.
  - clear Hne Hl. induction Hm as [|[p c] [q e] a b (Hc & Hr & Ho) _ IH]; [done|]. cbn [fmap list_fmap fst snd] in *. f_equal; [|apply IH; intros; [eapply Ha|eapply Hb]; by right].
    assert (valid p) as (_ & E1 & _) by (eapply Ha; left). assert (valid q) as (_ & E2 & _) by (eapply Hb; left). unfold get_rotation. by rewrite E1, E2, Hr.
  - assert (vsum (get_origin <$> b.*1) = vadd (vsum (get_origin <$> a.*1)) (vscale (INR (length a)) d)) as ->.
    { clear -Hm. induction Hm as [|[p c] [q e] a b (Hc & Hr & Ho) _ IH]; [cbn; vring|]. cbn [fmap list_fmap fst snd length] in *. rewrite !vsum_cons, Ho, IH, vscale_S. generalize (vsum (get_origin <$> a.*1)), (vscale (INR (length a)) d), (get_origin p). vring. }
    rewrite <- Hl. assert (INR (length a) <> 0) as Hn by (apply not_0_INR; destruct a; [done|cbn; lia]). generalize (vsum (get_origin <$> a.*1)). intros [x y z]. destruct d as [e f g]. unfold vadd, vscale. cbn [vx vy vz]. f_equal; field; done.
Qed.
Lemma relative_frame p r o : valid p -> let f := set_origin (pose_of_vector r v0) o in
  w_rot (relative_to p f) = mmul (w_rot p) (mT (vector_to_rotation r)) /\ w_tr (relative_to p f) = mvec (w_rot p) (vadd o (vopp (get_origin p))).
Proof.
  intros Hp f. assert (valid f) as Hf by apply set_origin_valid, vector_valid. destruct (set_origin_spec (pose_of_vector r v0) o (vector_valid _ _)) as (Ho & Hr & _). fold f in Ho, Hr.
  unfold relative_to, from_world_to_cam. cbn [w_rot w_tr]. destruct Hf as (_ & E & _). rewrite E, Hr. split; [done|]. unfold get_origin in Ho. rewrite Ho, (w_tr_origin p Hp). generalize (get_origin p), (w_rot p). clear. vring.
Qed.
Lemma moved_relative d a b p q : (forall p c, (p, c) ∈ a -> valid p) -> (forall p c, (p, c) ∈ b -> valid p) -> moved d a b -> a <> [] -> valid p -> valid q -> w_rot q = w_rot p -> get_origin q = vadd (get_origin p) d -> 
  relative_to q (instance_frame b.*1) = relative_to p (instance_frame a.*1).
Proof.
  intros Ha Hb Hm Hne Hp Hq Hr Ho. destruct (moved_frame d a b Ha Hb Hm Hne) as (E1 & E2). unfold instance_frame. cbn zeta. rewrite E1, !fmap_length, E2. rewrite <- (Forall2_length _ _ _ Hm). set (r := vscale _ (vsum (get_rotation <$> a.*1))). set (o := vscale _ (vsum (get_origin <$> a.*1))).
  destruct (relative_frame p r o Hp) as (R1 & T1). destruct (relative_frame q r (vadd o d) Hq) as (R2 & T2). cbn zeta in *. apply valid_ext; [apply valid_relative; [done|]; apply set_origin_valid, vector_valid..| |].
  - by rewrite R1, R2, Hr.
  - rewrite T1, T2, Hr, Ho. f_equal. generalize (get_origin p). clear. vring.
Qed.
Lemma lookup_pose (i : list (pose * string)) p c : NoDup i.*2 -> (p, c) ∈ i -> (list_to_map ((fun s => (s.2, s.1)) <$> i) : gmap string pose) !! c = Some p.
Proof.
  intros Hn Hp. apply elem_of_list_to_map_1; [|by apply elem_of_list_fmap; exists (p, c)]. by rewrite <- list_fmap_compose.
Qed.

(** The groups *)
Lemma with_key_app k a b : with_key k (a ++ b) = with_key k a ++ with_key k b.
Proof. apply filter_app. Qed.
Lemma add_keys key i g : (add_to_group key i g).*1 = if decide (key ∈ g.*1) then g.*1 else g.*1 ++ [key].
Proof.
  induction g as [|[k l] g IH]; cbn [add_to_group fmap list_fmap fst].
  - rewrite decide_False by apply not_elem_of_nil. done.
  - destruct (decide (k = key)) as [-> |Hk]; cbn [fmap list_fmap fst]; [rewrite decide_True by left; done|]. rewrite IH.
    destruct (decide (key ∈ g.*1)) as [H|H]; [rewrite decide_True by (by right)|rewrite decide_False by (intros [-> | ?]%elem_of_cons; [by destruct Hk|done])]; done.
Qed.
Lemma add_elem key i g k l : NoDup g.*1 ->
  (k, l) ∈ add_to_group key i g <-> (k <> key /\ (k, l) ∈ g) \/ (k = key /\ ((exists l0, (key, l0) ∈ g /\ l = l0 ++ [i]) \/ (key ∉ g.*1 /\ l = [i]))).
Proof.
  induction g as [|[k0 l0] g IH]; cbn [add_to_group fmap list_fmap fst]; intros Hn.
  - rewrite elem_of_list_singleton. split; [intros [= -> ->]; right; split; [done|]; right; split; [apply not_elem_of_nil|done]|].
    intros [[_ H%elem_of_nil]|(-> & [(? & H%elem_of_nil & _)|(_ & ->)])]; done.
  - apply NoDup_cons in Hn as [Hk0 Hn]. destruct (decide (k0 = key)) as [-> |Hk].
    + rewrite !elem_of_cons. split.
      * intros [[= -> ->]|H]; [right; split; [done|]; left; exists l0; split; [left|done]|]. destruct (decide (k = key)) as [-> |Hne]; [|left; split; [done|by right]]. destruct Hk0. apply elem_of_list_fmap. by exists (key, l).
      * intros [[Hne [[= -> ->]|H]]|(-> & [(l1 & [[= ->]|H]%elem_of_cons & ->)|(H & ->)])]; [done|by right|by left| |].
        -- destruct Hk0. apply elem_of_list_fmap. by exists (key, l1).
        -- destruct H. by left.
    + rewrite !elem_of_cons, (IH Hn). split.
      * intros [[= -> ->]|[[Hne H]|(-> & [(l1 & H & ->)|(H & ->)])]]; [left; split; [done|by left]|left; split; [done|by right]|right; split; [done|left; exists l1; split; [by right|done]]|].
        right. split; [done|]. right. split; [|done]. intros [E|E]; [by apply Hk|done].
      * intros [[Hne [[= -> ->]|H]]|(-> & [(l1 & [[= -> ->]|H]%elem_of_cons & ->)|(H & ->)])]; [by left|right; left; by split|done|right; right; split; [done|left; by exists l1]|].
        right. right. split; [done|]. right. split; [|done]. intros E. apply H. by right.
Qed.
Lemma groups_spec instances : NoDup (groups_in_order instances).*1 /\ forall k l, (k, l) ∈ groups_in_order instances <-> l <> [] /\ l = with_key k instances.
Proof.
  unfold groups_in_order. induction instances as [|i instances [Hn IH]] using rev_ind; [cbn; split; [constructor|]; intros k l; rewrite elem_of_nil; split; [done|intros [H1 H2]; by rewrite H2 in H1]|].
  rewrite foldl_app. cbn [foldl]. set (g := foldl _ [] instances) in *. split.
  - rewrite add_keys. case_decide as H; [done|]. apply NoDup_app. split; [done|]. split; [|apply NoDup_singleton]. intros x Hx ->%elem_of_list_singleton. done.
  - intros k l. rewrite add_elem by done. rewrite with_key_app. change (with_key k [i]) with (if decide (group_key i = k) then [i] else []) at 1. split.
    + intros [[Hne H]|(-> & H)].
      * apply IH in H as [H1 ->]. rewrite decide_False by done. by rewrite app_nil_r.
      * rewrite decide_True by done. destruct H as [(l0 & H & ->)|(H & ->)].
        -- apply IH in H as [H1 ->]. split; [by destruct (with_key (group_key i) instances)|done].
        -- split; [done|]. destruct (with_key (group_key i) instances) as [|x r] eqn:E; [done|]. destruct H. apply elem_of_list_fmap. exists (group_key i, x :: r). split; [done|]. by apply IH.
    + destruct (decide (group_key i = k)) as [<-|Hne]; intros [H1 H2].
      * right. split; [done|]. destruct (with_key (group_key i) instances) as [|x r] eqn:E.
        -- right. split; [|done]. intros ([k' l'] & Hk & H)%elem_of_list_fmap. cbn in Hk. subst k'. apply IH in H as [H3 H4]. by rewrite E in H4.
        -- left. exists (x :: r). split; [|done]. by apply IH.
      * left. rewrite app_nil_r in H2. split; [done|]. by apply IH.
Qed.
Definition longer (a b : list rig_instance) : Prop := (length b <= length a)%nat.
Lemma insert_perm g l : insert_group g l ≡ₚ g :: l.
Proof. induction l as [|x l IH]; cbn [insert_group]; [done|]. case_decide; [done|]. rewrite IH. constructor. Qed.
Lemma sort_perm l : sort_groups l ≡ₚ l.
Proof.
  unfold sort_groups. assert (forall acc, foldl (fun acc g => insert_group g acc) acc l ≡ₚ acc ++ l) as H; [|apply (H [])].
  induction l as [|g l IH]; intros acc; cbn [foldl]; [by rewrite app_nil_r|]. rewrite IH, insert_perm. cbn. apply Permutation_middle.
Qed.
Lemma insert_sorted g l : StronglySorted longer l -> StronglySorted longer (insert_group g l).
Proof.
  induction 1 as [|x l Hs IH Hx]; cbn [insert_group]; [repeat constructor|]. case_decide as H.
  - constructor; [by constructor|]. constructor; [unfold longer; lia|]. eapply Forall_impl; [exact Hx|]. unfold longer. intros y Hy. lia.
  - constructor; [done|]. rewrite insert_perm. constructor; [unfold longer; lia|done].
Qed.
Lemma sort_sorted l : StronglySorted longer (sort_groups l).
Proof.
  unfold sort_groups. assert (forall acc, StronglySorted longer acc -> StronglySorted longer (foldl (fun acc g => insert_group g acc) acc l)) as H; [|apply H; constructor].
  induction l as [|g l IH]; intros acc Ha; cbn [foldl]; [done|]. apply IH. by apply insert_sorted.
Qed.
Lemma first_found (f : list rig_instance -> gmap string pose) l m c : foldl (fun m g => m ∪ f g) m l !! c = match m !! c with Some q => Some q | None => foldl (fun m g => m ∪ f g) ∅ l !! c end.
Proof.
  revert m. induction l as [|g l IH]; intros m; cbn [foldl]; [rewrite lookup_empty; by destruct (m !! c)|]. rewrite IH, (IH (∅ ∪ f g)), !lookup_union, lookup_empty.
  destruct (m !! c) as [q|], (f g !! c) as [q'|]; done.
Qed.
Lemma found_first (f : list rig_instance -> gmap string pose) l c q : foldl (fun m g => m ∪ f g) ∅ l !! c = Some q <->
  exists l1 g l2, l = l1 ++ g :: l2 /\ f g !! c = Some q /\ forall g', g' ∈ l1 -> f g' !! c = None.
Proof.
  induction l as [|g l IH]; cbn [foldl].
  - rewrite lookup_empty. split; [done|]. by intros ([] & g & l2 & ? & _).
  - rewrite first_found, lookup_union, lookup_empty. destruct (f g !! c) as [q'|] eqn:E; cbn.
    + split.
      * intros [= ->]. exists [], g, l. split; [done|]. split; [done|]. by intros ? ?%elem_of_nil.
      * intros ([|x l1] & g' & l2 & [= -> ->] & H & Hl); [congruence|]. rewrite Hl in E by left. done.
    + rewrite IH. split.
      * intros (l1 & g' & l2 & -> & H & Hl). exists (g :: l1), g', l2. split; [done|]. split; [done|]. intros ? [-> |?]%elem_of_cons; [done|by apply Hl].
      * intros ([|x l1] & g' & l2 & [= -> ->] & H & Hl); [congruence|]. exists l1, g', l2. split; [done|]. split; [done|]. intros ? ?. apply Hl. by right.
Qed.
Lemma poses_some shots i l : instance_poses shots i = Some l <-> poses_of shots i l.
Proof.
  unfold instance_poses, poses_of. rewrite mapM_Some. split; intros H; (eapply Forall2_impl; [exact H|]); cbn; intros [s c] [p d]; cbn.
  - intros (p' & E & [= <- <-])%fmap_Some. done.
  - intros [-> ->]. done.
Qed.
Lemma poses_elem_l shots i l s c : poses_of shots i l -> (s, c) ∈ i -> exists p, (p, c) ∈ l /\ shots !! s = Some p.
Proof. intros H [n Hn]%elem_of_list_lookup. destruct (Forall2_lookup_l _ _ _ _ _ H Hn) as ([p d] & Hp & E & F). cbn in *. subst d. exists p. split; [by eapply elem_of_list_lookup_2|done]. Qed.
Lemma poses_elem_r shots i l p c : poses_of shots i l -> (p, c) ∈ l -> exists s, (s, c) ∈ i /\ shots !! s = Some p.
Proof. intros H [n Hn]%elem_of_list_lookup. destruct (Forall2_lookup_r _ _ _ _ _ H Hn) as ([s d] & Hp & E & F). cbn in *. subst d. exists s. split; [by eapply elem_of_list_lookup_2|done]. Qed.
Lemma poses_complete shots i : complete shots i <-> is_Some (instance_poses shots i).
Proof.
  unfold complete. split.
  - intros H. unfold instance_poses. apply mapM_is_Some. apply Forall_forall. intros [s c] Hs. apply fmap_is_Some. by apply (H s c).
  - intros [l Hl] s c Hs. apply poses_some in Hl. destruct (poses_elem_l _ _ _ _ _ Hl Hs) as (p & _ & ->). done.
Qed.
Lemma group_cameras shots g c : is_Some (compute_relative_pose (omap (instance_poses shots) g) !! c) <-> exists i s, i ∈ g /\ complete shots i /\ (s, c) ∈ i.
Proof.
  rewrite compute_dom. split.
  - intros (l & p & Hl & Hp). apply elem_of_list_omap in Hl as (i & Hi & E). exists i. assert (complete shots i) by (apply poses_complete; by exists l). apply poses_some in E. destruct (poses_elem_r _ _ _ _ _ E Hp) as (s & Hs & _). by exists s.
  - intros (i & s & Hi & Hc & Hs). apply poses_complete in Hc as [l Hl]. pose proof Hl as E. apply poses_some in E. destruct (poses_elem_l _ _ _ _ _ E Hs) as (p & Hp & _). exists l, p. split; [|done]. apply elem_of_list_omap. by exists i.
Qed.
Lemma member_group i instances : i ∈ instances -> with_key (group_key i) instances ∈ (groups_in_order instances).*2.
Proof.
  intros Hi. apply elem_of_list_fmap. exists (group_key i, with_key (group_key i) instances). split; [done|]. apply groups_spec. split; [|done]. intros E. assert (i ∈ with_key (group_key i) instances) as H by (by apply elem_of_list_filter). rewrite E in H. by apply elem_of_nil in H.
Qed.
Lemma cameras_found shots instances c q : create_rig_cameras_from_reconstruction shots instances !! c = Some q ->
  exists k, compute_relative_pose (omap (instance_poses shots) (with_key k instances)) !! c = Some q /\
    forall j s, j ∈ instances -> complete shots j -> (s, c) ∈ j -> (length (with_key (group_key j) instances) <= length (with_key k instances))%nat.
Proof.
  unfold create_rig_cameras_from_reconstruction. intros (l1 & g & l2 & El & Hg & Hl1)%(found_first (fun g => compute_relative_pose (omap (instance_poses shots) g))).
  assert (g ∈ (groups_in_order instances).*2) as Hin by (rewrite <- (sort_perm (groups_in_order instances).*2), El, elem_of_app, elem_of_cons; right; by left).
  apply elem_of_list_fmap in Hin as ([k g'] & -> & Hk). cbn in *. apply groups_spec in Hk as [Hne ->]. exists k. split; [done|]. intros j s Hj Hc Hs.
  pose proof (member_group j instances Hj) as Hm. rewrite <- (sort_perm (groups_in_order instances).*2), El, elem_of_app, elem_of_cons in Hm.
  destruct Hm as [Hm|[-> |Hm]]; [|done|].
  - apply Hl1 in Hm. assert (is_Some (compute_relative_pose (omap (instance_poses shots) (with_key (group_key j) instances)) !! c)) as [x Hx]; [|by rewrite Hx in Hm].
    apply group_cameras. exists j, s. split; [|done]. by apply elem_of_list_filter.
  - pose proof (sort_sorted (groups_in_order instances).*2) as Hs'. rewrite El in Hs'. clear -Hs' Hm. induction l1 as [|x l1 IH]; cbn [app] in Hs'; inversion Hs' as [|? ? H1 H2]; subst; [|by apply IH]. by apply (proj1 (Forall_forall _ _) H2) in Hm.
Qed.
Lemma cameras_dom shots instances c : is_Some (create_rig_cameras_from_reconstruction shots instances !! c) <-> exists i s, i ∈ instances /\ complete shots i /\ (s, c) ∈ i.
Proof.
  split.
  - intros [q Hq]. apply cameras_found in Hq as (k & Hq & _). assert (is_Some (compute_relative_pose (omap (instance_poses shots) (with_key k instances)) !! c)) as H by by rewrite Hq. apply group_cameras in H as (i & s & Hi & H). apply elem_of_list_filter in Hi as [_ Hi]. by exists i, s.
  - intros (i & s & Hi & Hc & Hs). destruct (create_rig_cameras_from_reconstruction shots instances !! c) as [q|] eqn:E; [done|exfalso].
    unfold create_rig_cameras_from_reconstruction in E. pose proof (member_group i instances Hi) as Hm. rewrite <- (sort_perm (groups_in_order instances).*2) in Hm.
    assert (is_Some (compute_relative_pose (omap (instance_poses shots) (with_key (group_key i) instances)) !! c)) as [x Hx] by (apply group_cameras; exists i, s; split; [by apply elem_of_list_filter|done]).
    revert Hm E. generalize (sort_groups (groups_in_order instances).*2). intros l. induction l as [|g l IH]; [by intros ?%elem_of_nil|]. cbn [foldl]. rewrite (first_found (fun g => compute_relative_pose (omap (instance_poses shots) g))), lookup_union, lookup_empty. intros [<- |Hm]%elem_of_cons; [rewrite Hx; done|].
    destruct (compute_relative_pose (omap (instance_poses shots) g) !! c); [done|]. by apply IH.
Qed.

(** Turns about z *)
Lemma about_z a : vector_to_rotation (Vec 0 0 a) = rotation_about_z a.
Proof.
  assert (norm (Vec 0 0 a) = Rabs a) as En by (unfold norm, dot; cbn [vx vy vz]; replace (0 * 0 + 0 * 0 + a * a) with (Rsqr a) by (unfold Rsqr; ring); apply sqrt_Rsqr_abs).
  unfold vector_to_rotation. rewrite En. unfold rotation_about_z. destruct (Req_EM_T (Rabs a) 0) as [Ha|Ha].
  - assert (a = 0) as -> by (destruct (Rcase_abs a); [rewrite Rabs_left in Ha|rewrite Rabs_right in Ha]; lra). unfold angle_axis_matrix, vscale. cbn [vx vy vz]. rewrite sin_0, cos_0. f_equal; ring.
  - assert (a <> 0) as Hz by (intros ->; by rewrite Rabs_R0 in Ha). unfold angle_axis_matrix, vscale. cbn [vx vy vz]. destruct (Rcase_abs a) as [H|H]; [rewrite (Rabs_left _ H)|rewrite (Rabs_right _ H)]; rewrite ?cos_neg, ?sin_neg; f_equal; try field; lra.
Qed.
Lemma about_z_norm a : - PI < a < PI -> norm (Vec 0 0 a) < PI.
Proof.
  intros Ha. unfold norm, dot; cbn [vx vy vz]; replace (0 * 0 + 0 * 0 + a * a) with (Rsqr a) by (unfold Rsqr; ring). rewrite sqrt_Rsqr_abs. apply Rabs_def1; lra.
Qed.
Definition zpose (a : R) : pose := pose_of_vector (Vec 0 0 a) v0.
Lemma z_origin a : get_origin (zpose a) = v0.
Proof. unfold zpose, pose_of_vector, from_world_to_cam, get_origin, inv_tr. cbn [c_tr]. vring. Qed.
Lemma z_rotation a : - PI < a < PI -> get_rotation (zpose a) = Vec 0 0 a.
Proof. intros H. by apply vector_get_rotation, about_z_norm. Qed.
Lemma z_frame a : set_origin (zpose a) v0 = zpose a.
Proof. apply origin_ext; [apply set_origin_valid, vector_valid|apply vector_valid| |]; destruct (set_origin_spec (zpose a) v0 (vector_valid _ _)) as (H1 & H2 & _); [done|]. by rewrite z_origin. Qed.
Lemma z_relative a b : relative_to (zpose a) (zpose b) = zpose (a - b).
Proof.
  apply valid_ext; [apply valid_relative; apply vector_valid|apply vector_valid| |].
  - unfold relative_to. cbn [w_rot from_world_to_cam]. destruct (vector_valid (Vec 0 0 b) v0) as (_ & E & _). fold (zpose b) in E. rewrite E. unfold zpose, pose_of_vector. cbn [w_rot from_world_to_cam]. rewrite !about_z. unfold rotation_about_z, mmul, mT. cbn. rewrite sin_minus, cos_minus. f_equal; ring.
  - unfold relative_to. cbn [w_tr from_world_to_cam]. fold (get_origin (zpose b)). rewrite z_origin. unfold zpose, pose_of_vector. cbn [w_tr from_world_to_cam]. generalize (w_rot (from_world_to_cam (vector_to_rotation (Vec 0 0 a)) v0)). vring.
Qed.
