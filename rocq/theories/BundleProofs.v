(** Proofs about the set up of bundle adjustment problems. *)
From stdpp Require Import prelude gmap strings sorting.
From Coq Require Import Reals Lra.
From Verif Require Import Base Lin NeighModel NeighSpec NeighProofs BundleModel BundleSpec.
Open Scope nat_scope.

Lemma foldM_inv {A X} (f : A -> X -> res A) (l : list X) (I : list X -> A -> Prop) a : I [] a ->
  (forall pre x a, x ∈ l -> (exists post, l = pre ++ x :: post) -> I pre a -> exists a', f a x = Ok a' /\ I (pre ++ [x]) a') ->
  exists a', foldM f a l = Ok a' /\ I l a'.
Proof.
  intros H0 Hs. assert (forall post pre a, l = pre ++ post -> I pre a -> exists a', foldM f a post = Ok a' /\ I l a') as H.
  { induction post as [|x post IH]; intros pre b E Hb; cbn [foldM].
    - exists b. rewrite app_nil_r in E. by subst.
    - destruct (Hs pre x b) as (b' & -> & Hb'); [rewrite E; set_solver|eauto|done|]. cbn [res_bind].
      apply (IH (pre ++ [x])); [by rewrite <- app_assoc|done]. }
  by apply (H l []).
Qed.
Lemma foldM_foldl {A X} (f : A -> X -> res A) (g : A -> X -> A) (l : list X) a : (forall a x, x ∈ l -> f a x = Ok (g a x)) -> foldM f a l = Ok (foldl g a l).
Proof.
  revert a. induction l as [|x l IH]; intros a H; cbn [foldM foldl]; [done|]. rewrite H by set_solver. cbn [res_bind]. apply IH. intros b y Hy. apply H. set_solver.
Qed.
Lemma foldM_app {A X} (f : A -> X -> res A) l k a : foldM f a (l ++ k) = (try b := foldM f a l in foldM f b k).
Proof. revert a. induction l as [|x l IH]; intros a; cbn [foldM app]; [done|]. destruct (f a x); cbn [res_bind]; auto. Qed.

Section Proofs.
Context {C B P V E O : Type} (bias0 : B) (accuracy0 : R).
Notation scene := (@scene C B P V E O). Notation problem := (@problem C B P V O).
Context (enum : gset string -> list string) (Henum : forall s, enum s ≡ₚ elements s).
Context (camera_priors rig_camera_priors : gset string) (use_gps : bool).
Context (s : scene) (Hs : well_formed camera_priors rig_camera_priors s).

Lemma enum_in x (l : gset string) : x ∈ enum l <-> x ∈ l.
Proof. by rewrite Henum, elem_of_elements. Qed.
Lemma enum_nodup (l : gset string) : NoDup (enum l).
Proof. rewrite Henum. apply NoDup_elements. Qed.

Lemma in_members x i : x ∈ members_of s i <-> shot_in s x i.
Proof.
  unfold members_of, shot_in. rewrite elem_of_members. unfold shot_instances. rewrite lookup_fmap. destruct (shots s !! x) as [d|]; cbn.
  - split; [intros [= <-]; eauto|]. intros (d' & [= <-] & <-). done.
  - split; [done|]. by intros (? & ? & _).
Qed.

(** the part of a map that is visited, as constant or free blocks *)
Definition blocks {T} (constant : string -> bool) (ids : gset string) (m : gmap string T) : gmap string (T * bool) :=
  map_imap (fun id v => if decide (id ∈ ids) then Some (v, constant id) else None) m.
Lemma blocks_lookup {T} constant ids (m : gmap string T) id : blocks constant ids m !! id = if decide (id ∈ ids) then (fun v => (v, constant id)) <$> m !! id else None.
Proof. unfold blocks. rewrite map_lookup_imap. destruct (m !! id); cbn; destruct (decide _); done. Qed.

Lemma add_cameras_ok constant ids p : ids ⊆ dom (cameras s) -> p_cameras p = ∅ -> p_biases p = ∅ ->
  add_cameras bias0 enum camera_priors s constant ids p = Ok (set_cameras p (blocks (fun _ => constant) ids (cameras s)) (gset_to_gmap (bias0, true) ids)).
Proof.
  intros Hi H1 H2. unfold add_cameras.
  edestruct (foldM_inv (fun (p0 : problem) id => try c := of_option RuntimeError (cameras s !! id) in if decide (id ∈ camera_priors) then Ok (add_camera bias0 p0 id c constant) else Err IndexError)
    (enum ids) (fun pre q => q = set_cameras p (blocks (fun _ => constant) (list_to_set pre) (cameras s)) (gset_to_gmap (bias0, true) (list_to_set pre))) p) as (q & -> & ->).
  - destruct p; cbn in *. subst. unfold set_cameras. cbn. f_equal; apply map_eq; intros id; [rewrite blocks_lookup|rewrite lookup_gset_to_gmap]; rewrite lookup_empty; [rewrite decide_False by set_solver|rewrite option_guard_False by set_solver]; done.
  - intros pre x q Hx (post & Epost) ->. apply enum_in in Hx. assert (x ∈ dom (cameras s)) as Hd by set_solver. pose proof Hd as Hd'. apply elem_of_dom in Hd' as [c Hc]. rewrite Hc. cbn [of_option res_bind].
    rewrite decide_True by (by apply (w_camera_priors _ _ s Hs)). eexists. split; [done|]. unfold add_camera, set_cameras. cbn.
    assert (x ∉ pre) as Hnew. { pose proof (enum_nodup ids) as Hn. rewrite Epost in Hn. apply NoDup_app in Hn as (_ & Hn & _). intros H. apply (Hn x H). set_solver. }
    f_equal.
    + unfold emplace_block. rewrite blocks_lookup. rewrite decide_False by set_solver. apply map_eq. intros id. rewrite blocks_lookup. destruct (decide (id = x)) as [->|Hne].
      * rewrite lookup_insert. rewrite decide_True by set_solver. by rewrite Hc.
      * rewrite lookup_insert_ne by done. rewrite blocks_lookup. destruct (decide (id ∈ list_to_set pre)); [rewrite decide_True by set_solver|rewrite decide_False by set_solver]; done.
    + unfold emplace_block. rewrite lookup_gset_to_gmap. rewrite option_guard_False by set_solver. apply map_eq. intros id. rewrite lookup_gset_to_gmap. destruct (decide (id = x)) as [->|Hne].
      * rewrite lookup_insert. rewrite option_guard_True by set_solver. done.
      * rewrite lookup_insert_ne by done. rewrite lookup_gset_to_gmap. destruct (decide (id ∈ (list_to_set pre : gset string))); [rewrite !option_guard_True by set_solver|rewrite !option_guard_False by set_solver]; done.
  - f_equal. f_equal.
    + apply map_eq. intros id. rewrite !blocks_lookup. destruct (decide (id ∈ ids)) as [Hi'|Hi']; [rewrite decide_True by (by apply elem_of_list_to_set, enum_in)|rewrite decide_False by (by rewrite elem_of_list_to_set, enum_in)]; done.
    + f_equal. apply set_eq. intros id. by rewrite elem_of_list_to_set, enum_in.
Qed.
Lemma add_rig_cameras_ok constant ids p : ids ⊆ dom (rig_cameras s) -> p_rig_cameras p = ∅ ->
  add_rig_cameras enum rig_camera_priors s constant ids p = Ok (set_rig_cameras p (blocks constant ids (rig_cameras s))).
Proof.
  intros Hi H1. unfold add_rig_cameras.
  edestruct (foldM_inv (fun (p0 : problem) id => try pose := of_option RuntimeError (rig_cameras s !! id) in if decide (id ∈ rig_camera_priors) then add_rig_camera p0 id pose (constant id) else Err IndexError)
    (enum ids) (fun pre q => q = set_rig_cameras p (blocks constant (list_to_set pre) (rig_cameras s))) p) as (q & -> & ->).
  - destruct p; cbn in *. subst. unfold set_rig_cameras. cbn. f_equal. apply map_eq. intros id. rewrite blocks_lookup, lookup_empty. rewrite decide_False by set_solver. done.
  - intros pre x q Hx (post & Epost) ->. apply enum_in in Hx. assert (x ∈ dom (rig_cameras s)) as Hd by set_solver. pose proof Hd as Hd'. apply elem_of_dom in Hd' as [c Hc]. rewrite Hc. cbn [of_option res_bind].
    rewrite decide_True by (by apply (w_rig_camera_priors _ _ s Hs)).
    assert (x ∉ pre) as Hnew. { pose proof (enum_nodup ids) as Hn. rewrite Epost in Hn. apply NoDup_app in Hn as (_ & Hn & _). intros H. apply (Hn x H). set_solver. }
    unfold add_rig_camera. cbn [p_rig_cameras set_rig_cameras]. rewrite blocks_lookup. rewrite decide_False by set_solver. eexists. split; [done|].
    unfold set_rig_cameras. cbn. f_equal. apply map_eq. intros id. rewrite blocks_lookup. destruct (decide (id = x)) as [->|Hne].
    + rewrite lookup_insert. rewrite decide_True by set_solver. by rewrite Hc.
    + rewrite lookup_insert_ne by done. rewrite blocks_lookup. destruct (decide (id ∈ list_to_set pre)); [rewrite decide_True by set_solver|rewrite decide_False by set_solver]; done.
  - f_equal. f_equal. apply map_eq. intros id. rewrite !blocks_lookup. destruct (decide (id ∈ ids)) as [Hi'|Hi']; [rewrite decide_True by (by apply elem_of_list_to_set, enum_in)|rewrite decide_False by (by rewrite elem_of_list_to_set, enum_in)]; done.
Qed.

(** the sets collected from shots *)
Lemma collect_set (f : shot -> gset string) l : (forall x, x ∈ l -> x ∈ dom (shots s)) ->
  exists r, foldM (fun acc id => try x := of_option RuntimeError (shots s !! id) in Ok (f x ∪ acc)) ∅ (enum l) = Ok r /\
    forall y, y ∈ r <-> exists x d, x ∈ l /\ shots s !! x = Some d /\ y ∈ f (d : @shot O).
Proof.
  intros Hl. edestruct (foldM_inv (fun acc id => try x := of_option RuntimeError (shots s !! id) in Ok (f x ∪ acc)) (enum l)
    (fun pre r => forall y, y ∈ r <-> exists x d, x ∈ pre /\ shots s !! x = Some d /\ y ∈ f d) ∅) as (r & -> & Hr).
  - intros y. split; [set_solver|]. intros (? & ? & ?%elem_of_nil & _). done.
  - intros pre x r Hx _ Hr. apply enum_in in Hx. apply Hl in Hx as Hd. apply elem_of_dom in Hd as [d Hd]. rewrite Hd. cbn [of_option res_bind]. eexists. split; [done|].
    intros y. rewrite elem_of_union, Hr. split.
    + intros [Hy|(x' & d' & H1 & H2)]; [exists x, d; split; [set_solver|done]|exists x', d'; split; [set_solver|done]].
    + intros (x' & d' & [H1|H1]%elem_of_app & H2 & H3); [right; eauto|]. apply elem_of_list_singleton in H1 as ->. left. congruence.
  - exists r. split; [done|]. intros y. rewrite Hr. split; intros (x & d & H1 & H2); exists x, d; (split; [by apply enum_in|done]).
Qed.


(** the shots of instances, as they are put in the problem *)
Definition shot_map (ids : gset string) : gmap string (string * string * string) :=
  omap (fun d => if decide (s_instance d ∈ ids) then Some (s_camera d, s_rig_camera d, s_instance d) else None) (shots s).
Lemma shot_map_lookup ids x : shot_map ids !! x = (d ← shots s !! x; if decide (s_instance d ∈ ids) then Some (s_camera d, s_rig_camera d, s_instance d) else None).
Proof. unfold shot_map. by rewrite lookup_omap. Qed.
Definition prior_map (prior : string -> option (vec * R)) (ids : gset string) : gmap string (vec * R) :=
  map_imap (fun i _ => if decide (i ∈ ids) then prior i else None) (instances s).
Lemma prior_map_lookup prior ids i : i ∈ dom (instances s) -> prior_map prior ids !! i = if decide (i ∈ ids) then prior i else None.
Proof. intros [v Hv]%elem_of_dom. unfold prior_map. rewrite map_lookup_imap, Hv. done. Qed.
Lemma prior_map_lookup' prior ids i : i ∉ dom (instances s) -> prior_map prior ids !! i = None.
Proof. intros Hv%not_elem_of_dom. unfold prior_map. rewrite map_lookup_imap, Hv. done. Qed.
Definition with_instances (p : problem) (fixed : string -> bool) (prior : string -> option (vec * R)) (ids : gset string) : problem :=
  Problem (p_cameras p) (p_biases p) (p_rig_cameras p) (blocks fixed ids (instances s)) (prior_map prior ids) (shot_map ids) (p_points p) (p_obs p).

(** what AddRigInstance is given for shots *)
Definition triple (x : string) : string * string * string := match shots s !! x with Some d => (x, s_camera d, s_rig_camera d) | None => (x, "", "") end.
(** the shots in the problem after adding [xs] for instance [i] *)
Lemma add_members_ok i xs (p : problem) : (forall x, x ∈ xs -> exists d, shots s !! x = Some d /\ is_Some (p_cameras p !! s_camera d) /\ is_Some (p_rig_cameras p !! s_rig_camera d)) ->
  exists m, foldM (fun (p : problem) '(shot_id, camera_id, rig_camera_id) =>
    if decide (is_Some (p_cameras p !! camera_id)) then
      if decide (is_Some (p_rig_cameras p !! rig_camera_id)) then
        Ok (set_instances p (p_instances p)
              (match p_shots p !! shot_id with Some _ => p_shots p | None => <[shot_id := (camera_id, rig_camera_id, i)]> (p_shots p) end))
      else Err RuntimeError
    else Err RuntimeError) p (map triple xs) = Ok (set_instances p (p_instances p) m) /\
  forall y, m !! y = match p_shots p !! y with Some v => Some v | None => if decide (y ∈ xs) then (fun d => (s_camera d, s_rig_camera d, i)) <$> shots s !! y else None end.
Proof.
  revert p. induction xs as [|x xs IH]; intros p Hx; cbn [map foldM].
  - exists (p_shots p). split; [by destruct p|]. intros y. rewrite decide_False by set_solver. by destruct (p_shots p !! y).
  - destruct (Hx x) as (d & Hd & Hc & Hr); [set_solver|]. unfold triple at 1. rewrite Hd. rewrite decide_True by done. rewrite decide_True by done. cbn [res_bind].
    destruct (IH (set_instances p (p_instances p) (match p_shots p !! x with Some _ => p_shots p | None => <[x := (s_camera d, s_rig_camera d, i)]> (p_shots p) end))) as (m & -> & Hm).
    { intros y Hy. apply Hx. set_solver. }
    exists m. split; [done|]. intros y. rewrite Hm. cbn [p_shots set_instances]. destruct (p_shots p !! x) eqn:Ex.
    + destruct (p_shots p !! y) eqn:Ey; [done|]. destruct (decide (y ∈ xs)); [rewrite decide_True by set_solver; done|]. rewrite decide_False; [done|]. rewrite elem_of_cons. intros [->|?]; congruence.
    + destruct (decide (y = x)) as [->|Hne].
      * rewrite lookup_insert, Ex. rewrite decide_True by set_solver. by rewrite Hd.
      * rewrite lookup_insert_ne by done. destruct (p_shots p !! y); [done|]. destruct (decide (y ∈ xs)); [rewrite decide_True by set_solver; done|]. rewrite decide_False; [done|]. rewrite elem_of_cons. by intros [->|?].
Qed.

(** one more instance *)
Lemma instance_step p fixed prior ids i pose xs : i ∉ ids -> instances s !! i = Some pose -> (forall x, x ∈ xs <-> shot_in s x i) ->
  (forall x d, shots s !! x = Some d -> s_instance d = i -> is_Some (p_cameras p !! s_camera d) /\ is_Some (p_rig_cameras p !! s_rig_camera d)) ->
  (try p := add_rig_instance (with_instances p fixed prior ids) i pose (map triple xs) (fixed i) in
   match prior i with Some (g, std) => add_position_prior p i g std | None => Ok p end) = Ok (with_instances p fixed prior ({[i]} ∪ ids)).
Proof.
  intros Hi Hpose Hxs Hok. unfold add_rig_instance, emplace_block. cbn [p_instances with_instances]. rewrite blocks_lookup. rewrite decide_False by done.
  edestruct (add_members_ok i xs) as (m & -> & Hm); [|cbn [res_bind set_instances p_instances p_priors p_cameras p_biases p_rig_cameras p_points p_obs p_shots with_instances] in *].
  { intros x Hx. apply Hxs in Hx as (d & Hd & Ed). exists d. split; [done|]. apply (Hok x d Hd Ed). }
  assert (<[i := (pose, fixed i)]> (blocks fixed ids (instances s)) = blocks fixed ({[i]} ∪ ids) (instances s)) as E1.
  { apply map_eq. intros j. rewrite blocks_lookup. destruct (decide (j = i)) as [->|Hne].
    - rewrite lookup_insert. rewrite decide_True by set_solver. by rewrite Hpose.
    - rewrite lookup_insert_ne by done. rewrite blocks_lookup. destruct (decide (j ∈ ids)); [rewrite decide_True by set_solver|rewrite decide_False by set_solver]; done. }
  assert (m = shot_map ({[i]} ∪ ids)) as ->.
  { apply map_eq. intros y. rewrite Hm. unfold set_instances, with_instances. cbn [p_shots]. rewrite !shot_map_lookup. destruct (shots s !! y) as [d|] eqn:Ed; cbn.
    - destruct (decide (s_instance d ∈ ids)); [rewrite decide_True by set_solver; done|]. destruct (decide (s_instance d = i)) as [Ei|Ei].
      + rewrite decide_True by (apply Hxs; by exists d). rewrite decide_True by set_solver. by rewrite Ei.
      + rewrite decide_False; [|rewrite Hxs; intros (d' & Hd' & ?); congruence]. rewrite decide_False by set_solver. done.
    - by destruct (decide _). }
  unfold with_instances, set_instances. cbn [p_instances p_priors p_cameras p_biases p_rig_cameras p_points p_obs p_shots].
  assert (i ∈ dom (instances s)) as Hdom by (apply elem_of_dom; eauto).
  destruct (prior i) as [[g std]|] eqn:Ep.
  - unfold add_position_prior. cbn [p_instances]. rewrite lookup_insert. unfold set_priors. cbn. rewrite E1. f_equal. f_equal.
    apply map_eq. intros j. destruct (decide (j = i)) as [->|Hne].
    + rewrite lookup_insert. rewrite prior_map_lookup by done. rewrite decide_True by set_solver. done.
    + rewrite lookup_insert_ne by done. destruct (decide (j ∈ dom (instances s))); [|by rewrite !prior_map_lookup' by done]. rewrite !prior_map_lookup by done.
      destruct (decide (j ∈ ids)); [rewrite decide_True by set_solver|rewrite decide_False by set_solver]; done.
  - rewrite E1. f_equal. f_equal. apply map_eq. intros j. destruct (decide (j ∈ dom (instances s))); [|by rewrite !prior_map_lookup' by done]. rewrite !prior_map_lookup by done.
    destruct (decide (j = i)) as [->|Hne].
    + rewrite decide_False by done. rewrite decide_True by set_solver. done.
    + destruct (decide (j ∈ ids)); [rewrite decide_True by set_solver|rewrite decide_False by set_solver]; done.
Qed.
(** all of them *)
Lemma instances_fold p fixed prior ids (f : problem -> string -> res problem) : p_instances p = ∅ -> p_priors p = ∅ -> p_shots p = ∅ -> ids ⊆ dom (instances s) ->
  (forall done_ i pose, i ∈ ids -> i ∉ done_ -> instances s !! i = Some pose -> f (with_instances p fixed prior done_) i = Ok (with_instances p fixed prior ({[i]} ∪ done_))) ->
  foldM f p (enum ids) = Ok (with_instances p fixed prior ids).
Proof.
  intros H1 H2 H3 Hids Hf. edestruct (foldM_inv f (enum ids) (fun pre q => q = with_instances p fixed prior (list_to_set pre)) p) as (q & -> & ->).
  - destruct p; cbn in *. subst. unfold with_instances. cbn. f_equal; apply map_eq; intros j; rewrite lookup_empty.
    + rewrite blocks_lookup. by rewrite decide_False by set_solver.
    + destruct (decide (j ∈ dom (instances s))); [|by rewrite prior_map_lookup' by done]. rewrite prior_map_lookup by done. by rewrite decide_False by set_solver.
    + rewrite shot_map_lookup. destruct (shots s !! j); [|done]. cbn. by rewrite decide_False by set_solver.
  - intros pre i q Hi (post & Epost) ->. apply enum_in in Hi. destruct (proj1 (elem_of_dom (instances s) i) (Hids i Hi)) as [pose Hpose].
    assert (i ∉ pre) as Hnew. { pose proof (enum_nodup ids) as Hn. rewrite Epost in Hn. apply NoDup_app in Hn as (_ & Hn & _). intros H. apply (Hn i H). set_solver. }
    eexists. split; [apply (Hf _ i pose Hi); [by rewrite elem_of_list_to_set|done]|]. f_equal. rewrite list_to_set_app_L. cbn. set_solver.
  - f_equal. f_equal. apply set_eq. intros id. by rewrite elem_of_list_to_set, enum_in.
Qed.

(** positions *)
Lemma members_perm i : enum (members_of s i) ≡ₚ (map_to_list (filter (fun '(_, d) => s_instance d = i) (shots s))).*1.
Proof.
  apply NoDup_Permutation; [apply enum_nodup|apply NoDup_fst_map_to_list|]. intros x. rewrite enum_in, in_members, elem_of_list_fmap. split.
  - intros (d & Hd & Ei). exists (x, d). split; [done|]. apply elem_of_map_to_list, map_filter_lookup_Some. done.
  - intros ([y d] & -> & [Hd Hi]%elem_of_map_to_list%map_filter_lookup_Some). by exists d.
Qed.
Lemma omap_perm {A X} (f : A -> option X) l k : l ≡ₚ k -> omap f l ≡ₚ omap f k.
Proof. induction 1 as [|x l k _ IH|x y l|]; cbn; [done| | |by etrans]; [destruct (f x); [by constructor|done]|destruct (f x), (f y); try done; by constructor]. Qed.
Lemma gps_perm (g : shot -> option (vec * R)) i : omap (fun x => shots s !! x ≫= g) (enum (members_of s i)) ≡ₚ gps_list g s i.
Proof.
  etrans; [apply omap_perm, members_perm|]. unfold gps_list.
  assert (forall x d, (x, d) ∈ map_to_list (filter (fun '(_, d) => s_instance d = i) (shots s)) -> shots s !! x = Some d) as H.
  { intros x d [Hd Hi]%elem_of_map_to_list%map_filter_lookup_Some. done. }
  induction (map_to_list (filter (fun '(_, d) => s_instance d = i) (shots s))) as [|[x d] l IH]; cbn; [done|]. rewrite (H x d) by set_solver. cbn.
  destruct (g d); [constructor|]; apply IH; intros y e Hy; apply H; set_solver.
Qed.
Lemma mean_perm l k : l ≡ₚ k -> mean l = mean k.
Proof.
  intros Hp. assert (length l = length k) as El by (by apply Permutation_length).
  assert (sum_positions l = sum_positions k /\ sum_accuracies l = sum_accuracies k) as [E1 E2].
  { clear El. induction Hp as [|x l k _ [IH1 IH2]|x y l|l k m _ [IH1 IH2] _ [IH3 IH4]]; cbn; [done| | |split; congruence].
    - unfold sum_positions, sum_accuracies in *. cbn. by rewrite IH1, IH2.
    - destruct x as [[x1 x2 x3] x4], y as [[y1 y2 y3] y4]. unfold sum_positions, sum_accuracies, vadd. cbn. split; [f_equal; ring|ring]. }
  destruct l, k; try done. unfold mean. by rewrite E1, E2, El.
Qed.
Definition gsum (l : list (vec * R)) : gps_sum := GpsSum (sum_positions l) (sum_accuracies l) (length l).
Lemma gps_add_sum l g : gps_add (gsum l) g.1 g.2 = gsum (l ++ [g]).
Proof.
  unfold gps_add, gsum, sum_positions, sum_accuracies. cbn. f_equal.
  - induction l as [|[[a b c] x] l IH]; cbn; [destruct g as [[? ? ?] ?]; unfold vadd; cbn; f_equal; ring|]. rewrite <- IH. destruct (foldr _ _ l). unfold vadd. cbn. f_equal; ring.
  - induction l as [|[? x] l IH]; cbn; [ring|]. rewrite <- IH. cbn. ring.
  - rewrite app_length. cbn. lia.
Qed.
Lemma mean_sum l : mean l = if decide (0 < g_count (gsum l)) then Some (g_position (gps_divide (gsum l)), g_std (gps_divide (gsum l))) else None.
Proof. destruct l; cbn; [done|]. by rewrite decide_True by lia. Qed.

(** ** the local adjustment *)
Definition loc (d : @shot O) : option (vec * R) := if use_gps then located accuracy0 d else None.
Definition fixed_by (boundary : gset string) (i : string) : bool := bool_decide (members_of s i ∩ boundary <> ∅).
Definition local_prior (boundary : gset string) (i : string) : option (vec * R) := if fixed_by boundary i then None else mean (gps_list loc s i).
Lemma local_members boundary xs : (forall x, x ∈ xs -> x ∈ dom (shots s)) -> foldM (local_member accuracy0 use_gps s boundary) (gps0, false, []) xs =
  Ok (gsum (omap (fun x => if decide (x ∈ boundary) then None else shots s !! x ≫= loc) xs), existsb (fun x => bool_decide (x ∈ boundary)) xs, map triple xs).
Proof.
  intros Hxs. edestruct (foldM_inv (local_member accuracy0 use_gps s boundary) xs
    (fun pre a => a = (gsum (omap (fun x => if decide (x ∈ boundary) then None else shots s !! x ≫= loc) pre), existsb (fun x => bool_decide (x ∈ boundary)) pre, map triple pre)) (gps0, false, [])) as (a & -> & ->); [done| |done].
  intros pre x a Hx _ ->. apply Hxs, elem_of_dom in Hx as [d Hd]. unfold local_member. rewrite Hd. cbn [of_option res_bind].
  rewrite omap_app, existsb_app, map_app. cbn [omap list_omap existsb map]. assert (triple x = (x, s_camera d, s_rig_camera d)) as -> by (unfold triple; by rewrite Hd).
  destruct (decide (x ∈ boundary)) as [Hb|Hb].
  - rewrite (bool_decide_eq_true_2 (x ∈ boundary)) by done. cbn [orb]. rewrite app_nil_r, orb_true_r. eexists. split; reflexivity.
  - rewrite (bool_decide_eq_false_2 (x ∈ boundary)) by done. cbn [orb]. rewrite orb_false_r. rewrite Hd. change (Some d ≫= loc) with (loc d). assert (match (if use_gps then s_gps d else None) with Some g => loc d = Some (g, default accuracy0 (s_accuracy d)) | None => loc d = None end) as Hl by (unfold loc, located; destruct use_gps, (s_gps d); done).
    destruct (if use_gps then s_gps d else None) as [g|]; rewrite Hl; [|rewrite app_nil_r; eexists; split; reflexivity]. eexists. split; [reflexivity|]. rewrite <- gps_add_sum. done.
Qed.
Lemma local_fixed boundary i : existsb (fun x => bool_decide (x ∈ boundary)) (enum (members_of s i)) = fixed_by boundary i.
Proof.
  unfold fixed_by. destruct (existsb _ _) eqn:Ex; symmetry.
  - apply existsb_exists in Ex as (x & Hx & Hb). apply bool_decide_eq_true_1 in Hb. apply elem_of_list_In, enum_in in Hx. apply bool_decide_eq_true_2. set_solver.
  - apply bool_decide_eq_false_2. intros Hne. apply set_choose_L in Hne as [x Hx]. apply elem_of_intersection in Hx as [Hx Hb].
    apply not_true_iff_false in Ex. apply Ex. apply existsb_exists. exists x. split; [by apply elem_of_list_In, enum_in|by apply bool_decide_eq_true_2].
Qed.
Lemma members_dom i x : x ∈ enum (members_of s i) -> x ∈ dom (shots s).
Proof. rewrite enum_in, in_members. intros (d & Hd & _). apply elem_of_dom. eauto. Qed.
Lemma local_instance_ok p boundary done_ i pose : i ∉ done_ -> instances s !! i = Some pose ->
  (forall x d, shots s !! x = Some d -> s_instance d = i -> is_Some (p_cameras p !! s_camera d) /\ is_Some (p_rig_cameras p !! s_rig_camera d)) ->
  local_instance accuracy0 enum use_gps s boundary (with_instances p (fixed_by boundary) (local_prior boundary) done_) i = Ok (with_instances p (fixed_by boundary) (local_prior boundary) ({[i]} ∪ done_)).
Proof.
  intros Hi Hpose Hok. unfold local_instance. rewrite Hpose. cbn [of_option res_bind]. rewrite local_members by apply members_dom. cbn [res_bind]. rewrite local_fixed.
  rewrite <- (instance_step p _ _ done_ i pose (enum (members_of s i)) Hi Hpose); [|intros x; by rewrite enum_in, in_members|done].
  destruct (add_rig_instance _ _ _ _ _) as [q|]; [|done]. cbn [res_bind]. unfold local_prior. destruct (fixed_by boundary i) eqn:Ef.
  - by rewrite decide_False by naive_solver.
  - assert (forall x, x ∈ enum (members_of s i) -> x ∉ boundary) as Hn.
    { intros x Hx Hb. unfold fixed_by in Ef. apply bool_decide_eq_false_1 in Ef. apply Ef. apply enum_in in Hx. set_solver. }
    assert (omap (fun x => if decide (x ∈ boundary) then None else shots s !! x ≫= loc) (enum (members_of s i)) = omap (fun x => shots s !! x ≫= loc) (enum (members_of s i))) as ->.
    { induction (enum (members_of s i)) as [|x l IH]; cbn; [done|]. rewrite decide_False by (apply Hn; set_solver). rewrite IH; [done|]. intros y Hy. apply Hn. set_solver. }
    rewrite <- (mean_perm _ _ (gps_perm loc i)). rewrite mean_sum. destruct (decide (0 < _)) as [Hc|Hc]; [rewrite decide_True by done|rewrite decide_False by naive_solver]; done.
Qed.

(** observations *)
Definition obs_list (sel : string -> bool) (x : string) : list (string * string * O) :=
  match shots s !! x with
  | Some d => omap (fun lm => if sel lm then (fun o => (x, lm, o)) <$> s_obs d !! lm else None) (enum (dom (s_obs d)))
  | None => []
  end.
Lemma obs_list_in sel x y lm o : (y, lm, o) ∈ obs_list sel x <-> y = x /\ sel lm = true /\ observes s x lm o.
Proof.
  unfold obs_list, observes. destruct (shots s !! x) as [d|]; [|split; [by intros ?%elem_of_nil|by intros (_ & _ & ? & ? & _)]].
  rewrite elem_of_list_omap. split.
  - intros (lm' & _ & H). destruct (sel lm') eqn:Es; [|done]. destruct (s_obs d !! lm') eqn:Eo; [|done]. cbn in H. injection H as -> -> ->. eauto.
  - intros (-> & Es & d' & [= <-] & Ho). exists lm. split; [apply enum_in, elem_of_dom; eauto|]. by rewrite Es, Ho.
Qed.
Lemma obs_list_nodup sel x : NoDup (obs_list sel x).*1.
Proof.
  unfold obs_list. destruct (shots s !! x) as [d|]; [|constructor]. pose proof (enum_nodup (dom (s_obs d))) as Hn.
  induction Hn as [|lm l Hno _ IH]; cbn; [constructor|]. destruct (sel lm); [|done]. destruct (s_obs d !! lm) as [o|]; [|done]. cbn. constructor; [|done].
  rewrite elem_of_list_fmap. intros ([[y lm'] o'] & E1 & H). cbn in E1. injection E1 as <- <-. apply elem_of_list_omap in H as (lm' & Hlm & H). destruct (sel lm'); [|done]. destruct (s_obs d !! lm'); [|done]. cbn in H. by injection H as -> ->.
Qed.
Lemma concat_in sel xs y lm o : (y, lm, o) ∈ concat (map (obs_list sel) xs) <-> y ∈ xs /\ sel lm = true /\ observes s y lm o.
Proof.
  induction xs as [|x xs IH]; cbn; [split; [by intros ?%elem_of_nil|by intros (?%elem_of_nil & _)]|]. rewrite elem_of_app, IH, obs_list_in, elem_of_cons. naive_solver.
Qed.
Lemma concat_nodup sel xs : NoDup xs -> NoDup (concat (map (obs_list sel) xs)).*1.
Proof.
  induction 1 as [|x xs Hx _ IH]; cbn; [constructor|]. rewrite fmap_app. apply NoDup_app. split; [apply obs_list_nodup|]. split; [|done].
  intros [y lm] ([[? ?] o] & E1 & H1)%elem_of_list_fmap ([[? ?] o'] & E2 & H2)%elem_of_list_fmap. cbn in E1, E2. injection E1 as <- <-. injection E2 as <- <-.
  apply obs_list_in in H1 as (-> & _). apply concat_in in H2 as (? & _). done.
Qed.
Lemma set_obs_id (p : problem) : set_obs p (p_obs p) = p.
Proof. by destruct p. Qed.
Lemma add_obs_ok sel x d (p : problem) : shots s !! x = Some d -> is_Some (p_shots p !! x) -> (forall lm, lm ∈ dom (s_obs d) -> sel lm = true -> is_Some (p_points p !! lm)) ->
  foldM (fun p lm => try o := of_option RuntimeError (s_obs d !! lm) in if sel lm then add_observation p x lm o else Ok p) p (enum (dom (s_obs d))) = Ok (set_obs p (p_obs p ++ obs_list sel x)).
Proof.
  intros Hd Hx Hp. unfold obs_list. rewrite Hd. assert (forall lm, lm ∈ enum (dom (s_obs d)) -> is_Some (s_obs d !! lm)) as Hl by (intros lm Hlm; by apply enum_in, elem_of_dom in Hlm).
  assert (forall lm, lm ∈ enum (dom (s_obs d)) -> sel lm = true -> is_Some (p_points p !! lm)) as Hp' by (intros lm Hlm; by apply Hp, enum_in).
  clear Hp. destruct p as [c b r i pr sh pt ob]. cbn [p_shots p_points p_obs] in *. revert ob. induction (enum (dom (s_obs d))) as [|lm l IH]; intros ob; cbn [foldM omap list_omap].
  - rewrite app_nil_r. done.
  - destruct (Hl lm) as [o Ho]; [set_solver|]. rewrite Ho. cbn [of_option res_bind].
    assert (forall ob, foldM (fun p lm => try o := of_option RuntimeError (s_obs d !! lm) in if sel lm then add_observation p x lm o else Ok p) (Problem c b r i pr sh pt ob) l =
      Ok (set_obs (Problem c b r i pr sh pt ob) (ob ++ omap (fun lm0 => if sel lm0 then (λ o0 : O, (x, lm0, o0)) <$> s_obs d !! lm0 else None) l))) as IH'.
    { apply IH; intros lm' H'; [apply Hl|apply Hp']; set_solver. }
    destruct (sel lm) eqn:Es; [|cbn [res_bind]; apply IH'].
    unfold add_observation. cbn [p_shots p_points]. destruct Hx as [? ->]. destruct (Hp' lm) as [? ->]; [set_solver|done|]. cbn [res_bind set_obs p_cameras p_biases p_rig_cameras p_instances p_priors p_shots p_points p_obs].
    etrans; [apply IH'|]. unfold set_obs. cbn. by rewrite <- app_assoc.
Qed.
Lemma add_all_obs_ok sel xs (p : problem) : (forall x, x ∈ xs -> exists d, shots s !! x = Some d /\ is_Some (p_shots p !! x) /\ forall lm, lm ∈ dom (s_obs d) -> sel lm = true -> is_Some (p_points p !! lm)) ->
  foldM (fun p x => try d := of_option RuntimeError (shots s !! x) in foldM (fun p lm => try o := of_option RuntimeError (s_obs d !! lm) in if sel lm then add_observation p x lm o else Ok p) p (enum (dom (s_obs d)))) p xs
  = Ok (set_obs p (p_obs p ++ concat (map (obs_list sel) xs))).
Proof.
  revert p. induction xs as [|x xs IH]; intros p Hx; cbn [foldM map concat].
  - rewrite app_nil_r. by rewrite set_obs_id.
  - destruct (Hx x) as (d & Hd & H1 & H2); [set_solver|]. rewrite Hd. cbn [of_option res_bind]. rewrite (add_obs_ok sel x d p Hd H1 H2). cbn [res_bind].
    rewrite IH; [unfold set_obs; cbn; by rewrite <- app_assoc|]. intros y Hy. apply Hx. set_solver.
Qed.
Lemma foldM_ext {A X} (f g : A -> X -> res A) a l : (forall a x, x ∈ l -> f a x = g a x) -> foldM f a l = foldM g a l.
Proof. revert a. induction l as [|x l IH]; intros a H; cbn; [done|]. rewrite H by set_solver. destruct (g a x); cbn; [|done]. apply IH. intros b y Hy. apply H. set_solver. Qed.

(** the points seen from shots *)
Definition seen (xs : list string) : gset string := ⋃ (map (fun x => match shots s !! x with Some d => dom (s_obs d) | None => ∅ end) xs).
Lemma seen_in xs lm : lm ∈ seen xs <-> exists x o, x ∈ xs /\ observes s x lm o.
Proof.
  unfold seen, observes. induction xs as [|x xs IH]; cbn; [split; [set_solver|by intros (? & ? & ?%elem_of_nil & _)]|]. rewrite elem_of_union, IH. split.
  - intros [H|(y & o & Hy & H)]; [|exists y, o; split; [by right|done]]. destruct (shots s !! x) as [d|] eqn:Ed; [|set_solver]. apply elem_of_dom in H as [o Ho]. exists x, o. split; [by left|eauto].
  - intros (y & o & [->|Hy]%elem_of_cons & d & Hd & Ho); [left; rewrite Hd; apply elem_of_dom; eauto|right; exists y, o; eauto].
Qed.
Lemma local_interior_ok p xs : (forall x, x ∈ xs -> exists d, shots s !! x = Some d /\ is_Some (p_shots p !! x)) -> p_points p = ∅ -> p_obs p = [] ->
  foldM (local_interior enum s) (p, ∅) xs = Ok (set_obs (set_points p (blocks (fun _ => false) (seen xs) (fst <$> landmarks s))) (concat (map (obs_list (fun _ => true)) xs)), seen xs).
Proof.
  intros Hxs Hp1 Hp2. edestruct (foldM_inv (local_interior enum s) xs
    (fun pre a => a = (set_obs (set_points p (blocks (fun _ => false) (seen pre) (fst <$> landmarks s))) (concat (map (obs_list (fun _ => true)) pre)), seen pre)) (p, ∅)) as (a & -> & ->); [| |done].
  - destruct p; cbn in *. subst. unfold set_obs, set_points, seen. cbn. f_equal. f_equal. apply map_eq. intros j. rewrite blocks_lookup. by rewrite decide_False by set_solver.
  - intros pre x a Hx _ ->. destruct (Hxs x Hx) as (d & Hd & Hsh). unfold local_interior. rewrite Hd. cbn [of_option res_bind].
    eexists. split; [|reflexivity].
    match goal with |- foldM ?f ?a0 ?l = _ => edestruct (foldM_inv f l
      (fun pre' a => a = (set_obs (set_points p (blocks (fun _ => false) (seen pre ∪ list_to_set pre') (fst <$> landmarks s)))
        (concat (map (obs_list (fun _ => true)) pre) ++ omap (fun lm => (fun o => (x, lm, o)) <$> s_obs d !! lm) pre'), seen pre ∪ list_to_set pre')) a0) as (a & -> & ->) end.
    + cbn. rewrite app_nil_r. by rewrite (right_id_L ∅ (∪)).
    + intros pre' lm a Hlm _ ->. apply enum_in in Hlm. pose proof Hlm as Ho. apply elem_of_dom in Ho as [o Ho]. rewrite Ho. cbn [of_option res_bind].
      apply (w_landmarks _ _ s Hs x d Hd), elem_of_dom in Hlm as [v Hv].
      assert ((if decide (lm ∈ seen pre ∪ list_to_set pre') then
          Ok (set_obs (set_points p (blocks (fun _ => false) (seen pre ∪ list_to_set pre') (fst <$> landmarks s))) (concat (map (obs_list (fun _ => true)) pre) ++ omap (fun lm => (fun o => (x, lm, o)) <$> s_obs d !! lm) pre'), seen pre ∪ list_to_set pre')
        else try v := of_option RuntimeError (landmarks s !! lm) in
          Ok (add_point (set_obs (set_points p (blocks (fun _ => false) (seen pre ∪ list_to_set pre') (fst <$> landmarks s))) (concat (map (obs_list (fun _ => true)) pre) ++ omap (fun lm => (fun o => (x, lm, o)) <$> s_obs d !! lm) pre')) lm v.1 false, {[lm]} ∪ (seen pre ∪ list_to_set pre')))
        = Ok (set_obs (set_points p (blocks (fun _ => false) (seen pre ∪ list_to_set (pre' ++ [lm])) (fst <$> landmarks s))) (concat (map (obs_list (fun _ => true)) pre) ++ omap (fun lm => (fun o => (x, lm, o)) <$> s_obs d !! lm) pre'), seen pre ∪ list_to_set (pre' ++ [lm]))) as ->.
      { rewrite list_to_set_app_L. cbn [list_to_set]. rewrite (right_id_L ∅ (∪)). destruct (decide _) as [Hin|Hin].
        - replace (seen pre ∪ (list_to_set pre' ∪ {[lm]})) with (seen pre ∪ list_to_set pre') by set_solver. done.
        - rewrite Hv. cbn [of_option res_bind]. unfold add_point, emplace_block. cbn [p_points set_obs set_points]. rewrite blocks_lookup. rewrite decide_False by done.
          replace ({[lm]} ∪ (seen pre ∪ list_to_set pre')) with (seen pre ∪ (list_to_set pre' ∪ {[lm]})) by set_solver. unfold set_obs, set_points. cbn. f_equal. f_equal. f_equal.
          apply map_eq. intros j. rewrite blocks_lookup, lookup_fmap. destruct (decide (j = lm)) as [->|Hne].
          + rewrite lookup_insert. rewrite decide_True by set_solver. by rewrite Hv.
          + rewrite lookup_insert_ne by done. rewrite blocks_lookup, lookup_fmap. destruct (decide (j ∈ seen pre ∪ list_to_set pre')); [rewrite decide_True by set_solver|rewrite decide_False by set_solver]; done. }
      cbn [res_bind]. unfold add_observation. cbn [p_shots p_points set_obs set_points]. destruct Hsh as [? ->]. rewrite blocks_lookup. rewrite decide_True by (rewrite list_to_set_app_L; set_solver).
      rewrite lookup_fmap, Hv. cbn [fmap option_fmap option_map res_bind]. eexists. split; [reflexivity|]. f_equal. unfold set_obs, set_points. cbn. f_equal. rewrite omap_app. cbn. rewrite Ho. cbn. by rewrite <- app_assoc.
    + assert (seen pre ∪ list_to_set (enum (dom (s_obs d))) = seen (pre ++ [x])) as ->.
      { unfold seen. rewrite map_app, union_list_app_L. cbn. rewrite Hd, (right_id_L ∅ (∪)). f_equal. apply set_eq. intros lm. by rewrite elem_of_list_to_set, enum_in. }
      rewrite map_app, concat_app. cbn [map concat]. rewrite app_nil_r. assert (obs_list (fun _ => true) x = omap (fun lm => (fun o => (x, lm, o)) <$> s_obs d !! lm) (enum (dom (s_obs d)))) as -> by (unfold obs_list; by rewrite Hd). done.
Qed.

Lemma local_problem_ok interior boundary : interior ∪ boundary ⊆ dom (shots s) ->
  (forall x y i, x ∈ interior ∪ boundary -> shot_in s x i -> shot_in s y i -> y ∈ interior ∪ boundary) ->
  exists ids rcs, (forall i, i ∈ ids <-> exists x, x ∈ interior ∪ boundary /\ shot_in s x i) /\
    local_problem bias0 accuracy0 enum camera_priors rig_camera_priors use_gps s interior boundary =
      Ok (Problem (blocks (fun _ => true) (dom (cameras s)) (cameras s)) (gset_to_gmap (bias0, true) (dom (cameras s))) (blocks (fun _ => true) rcs (rig_cameras s))
            (blocks (fixed_by boundary) ids (instances s)) (prior_map (local_prior boundary) ids) (shot_map ids)
            (blocks (fun _ => false) (seen (enum interior)) (fst <$> landmarks s))
            (concat (map (obs_list (fun _ => true)) (enum interior)) ++ concat (map (obs_list (fun lm => bool_decide (lm ∈ seen (enum interior)))) (enum boundary))),
          ids, seen (enum interior)).
Proof.
  intros Hd Hw. unfold local_problem.
  rewrite add_cameras_ok by done. cbn [res_bind].
  destruct (collect_set (fun d => {[s_rig_camera d]}) (interior ∪ boundary)) as (rcs & Ercs & Hrcs); [set_solver|].
  destruct (collect_set (fun d => {[s_instance d]}) (interior ∪ boundary)) as (ids & Eids & Hids); [set_solver|].
  unfold rig_cameras_of, instances_of. rewrite Ercs. cbn [res_bind]. rewrite Eids. cbn [res_bind].
  rewrite add_rig_cameras_ok; [|intros rc (x & d & _ & Hx & ->%elem_of_singleton)%Hrcs; by eapply w_rig_camera|done]. cbn [res_bind].
  assert (forall i, i ∈ ids <-> exists x, x ∈ interior ∪ boundary /\ shot_in s x i) as Hids'.
  { intros i. rewrite Hids. unfold shot_in. split; [intros (x & d & H1 & H2 & ->%elem_of_singleton); eauto|intros (x & H1 & d & H2 & <-); exists x, d; set_solver]. }
  clear Hids. assert (ids ⊆ dom (instances s)) as Hsub. { intros i (x & _ & d & Hx & <-)%Hids'. by eapply w_instance. }
  rewrite (instances_fold _ (fixed_by boundary) (local_prior boundary) ids); [|done|done|done|done|].
  2: { intros done_ i pose Hi Hno Hp. apply (local_instance_ok _ _ _ _ pose); [done|done|]. intros x d Hx Ei. cbn [p_cameras p_rig_cameras set_cameras set_rig_cameras]. rewrite !blocks_lookup.
       apply Hids' in Hi as (x0 & Hx0 & Hi0). assert (x ∈ interior ∪ boundary) as Hxin. { eapply (Hw x0 x i); [done|done|by exists d]. }
       assert (s_camera d ∈ dom (cameras s)) as Hc by (by eapply w_camera). assert (s_rig_camera d ∈ dom (rig_cameras s)) as Hr by (by eapply w_rig_camera).
       rewrite decide_True by done. rewrite decide_True by (apply Hrcs; exists x, d; set_solver). apply elem_of_dom in Hc as [? ->]. apply elem_of_dom in Hr as [? ->]. cbn. eauto. }
  cbn [res_bind].
  assert (forall x, x ∈ interior ∪ boundary -> exists d, shots s !! x = Some d /\ is_Some (shot_map ids !! x)) as Hshots.
  { intros x Hx. pose proof (Hd x Hx) as [d Hxd]%elem_of_dom. exists d. split; [done|]. rewrite shot_map_lookup, Hxd. cbn. rewrite decide_True; [eauto|]. apply Hids'. exists x. split; [done|by exists d]. }
  rewrite local_interior_ok; [|intros x Hx%enum_in; apply Hshots; set_solver|done|done]. cbn [res_bind].
  rewrite (foldM_ext (local_boundary enum s (seen (enum interior))) (fun p x => try d := of_option RuntimeError (shots s !! x) in
    foldM (fun p lm => try o := of_option RuntimeError (s_obs d !! lm) in if bool_decide (lm ∈ seen (enum interior)) then add_observation p x lm o else Ok p) p (enum (dom (s_obs d))))).
  2: { intros a x _. unfold local_boundary. destruct (shots s !! x) as [d|]; [|done]. cbn [of_option res_bind]. apply foldM_ext. intros b lm _. destruct (s_obs d !! lm); [|done]. cbn [of_option res_bind].
    destruct (decide _); [by rewrite bool_decide_eq_true_2|by rewrite bool_decide_eq_false_2]. }
  rewrite (add_all_obs_ok (fun lm => bool_decide (lm ∈ seen (enum interior)))).
  - cbn [res_bind]. exists ids, rcs. split; [done|]. done.
  - intros x Hx%enum_in. destruct (Hshots x) as (d & Hxd & H); [set_solver|]. exists d. split; [done|]. split; [done|]. intros lm Hlm Hb%bool_decide_eq_true_1.
    cbn [p_points set_obs set_points]. rewrite blocks_lookup, decide_True by done. rewrite lookup_fmap. apply (w_landmarks _ _ s Hs x d Hxd), elem_of_dom in Hlm as [? ->]. cbn. eauto.
Qed.

(** writing back *)
Lemma write_instances_ok (s0 : scene) (z : problem) ids : ids ⊆ dom (instances s0) -> ids ⊆ dom (p_instances z) ->
  exists m, write_instances enum s0 z ids = Ok (Scene (cameras s0) (biases s0) (rig_cameras s0) m (shots s0) (landmarks s0)) /\
    forall i, m !! i = if decide (i ∈ ids) then fst <$> p_instances z !! i else instances s0 !! i.
Proof.
  intros H1 H2. unfold write_instances. match goal with |- context [foldM ?f ?a ?l] => edestruct (foldM_inv f l (fun pre q => exists m, q = Scene (cameras s0) (biases s0) (rig_cameras s0) m (shots s0) (landmarks s0) /\
    forall i, m !! i = if decide (i ∈ pre) then fst <$> p_instances z !! i else instances s0 !! i) a) as (q & -> & m & -> & Hm) end.
  - exists (instances s0). split; [by destruct s0|]. intros i. by rewrite decide_False by set_solver.
  - intros pre i q Hi _ (m & -> & Hm). apply enum_in in Hi. pose proof (H1 i Hi) as [v Hv]%elem_of_dom. pose proof (H2 i Hi) as [w Hw]%elem_of_dom.
    rewrite Hw. cbn [of_option res_bind instances]. assert (is_Some (m !! i)) as [? ->]. { rewrite Hm. destruct (decide _); [rewrite Hw|rewrite Hv]; cbn; eauto. }
    cbn [of_option res_bind]. eexists. split; [done|]. exists (<[i := w.1]> m). split; [done|]. intros j. destruct (decide (j = i)) as [->|Hne].
    + rewrite lookup_insert. rewrite decide_True by set_solver. by rewrite Hw.
    + rewrite lookup_insert_ne by done. rewrite Hm. destruct (decide (j ∈ pre)); [rewrite decide_True by set_solver|rewrite decide_False by set_solver]; done.
  - exists m. split; [done|]. intros i. rewrite Hm. destruct (decide (i ∈ ids)); [rewrite decide_True by (by apply enum_in)|rewrite decide_False by (by rewrite enum_in)]; done.
Qed.
Lemma write_points_ok (errors : problem -> string -> E) (s0 : scene) (z : problem) ids : ids ⊆ dom (p_points z) ->
  exists m, write_points enum errors s0 z ids = Ok (Scene (cameras s0) (biases s0) (rig_cameras s0) (instances s0) (shots s0) m) /\
    forall i, m !! i = if decide (i ∈ ids) then (fun v => (v.1, errors z i)) <$> p_points z !! i else landmarks s0 !! i.
Proof.
  intros H2. unfold write_points. match goal with |- context [foldM ?f ?a ?l] => edestruct (foldM_inv f l (fun pre q => exists m, q = Scene (cameras s0) (biases s0) (rig_cameras s0) (instances s0) (shots s0) m /\
    forall i, m !! i = if decide (i ∈ pre) then (fun v => (v.1, errors z i)) <$> p_points z !! i else landmarks s0 !! i) a) as (q & -> & m & -> & Hm) end.
  - exists (landmarks s0). split; [by destruct s0|]. intros i. by rewrite decide_False by set_solver.
  - intros pre i q Hi _ (m & -> & Hm). apply enum_in in Hi. pose proof (H2 i Hi) as [w Hw]%elem_of_dom.
    rewrite Hw. cbn [of_option res_bind landmarks]. eexists. split; [done|]. exists (<[i := (w.1, errors z i)]> m). split; [done|]. intros j. destruct (decide (j = i)) as [->|Hne].
    + rewrite lookup_insert. rewrite decide_True by set_solver. by rewrite Hw.
    + rewrite lookup_insert_ne by done. rewrite Hm. destruct (decide (j ∈ pre)); [rewrite decide_True by set_solver|rewrite decide_False by set_solver]; done.
  - exists m. split; [done|]. intros i. rewrite Hm. destruct (decide (i ∈ ids)); [rewrite decide_True by (by apply enum_in)|rewrite decide_False by (by rewrite enum_in)]; done.
Qed.

(** ** the full adjustment *)
Definition measured_if (d : @shot O) : option (vec * R) := if use_gps then measured d else None.
Definition full_prior (i : string) : option (vec * R) := mean (gps_list measured_if s i).
Lemma full_members xs : (forall x, x ∈ xs -> exists d, shots s !! x = Some d /\ forall p a, measured_if d = Some (p, a) -> (0 < a)%R) ->
  foldM (full_member use_gps s) (gps0, []) xs = Ok (gsum (omap (fun x => shots s !! x ≫= measured_if) xs), map triple xs).
Proof.
  intros Hxs. edestruct (foldM_inv (full_member use_gps s) xs
    (fun pre a => a = (gsum (omap (fun x => shots s !! x ≫= measured_if) pre), map triple pre)) (gps0, [])) as (a & -> & ->); [done| |done].
  intros pre x a Hx _ ->. destruct (Hxs x Hx) as (d & Hd & Hpos). unfold full_member. rewrite Hd. cbn [of_option res_bind].
  rewrite omap_app, map_app. cbn [omap list_omap map]. assert (triple x = (x, s_camera d, s_rig_camera d)) as -> by (unfold triple; by rewrite Hd). rewrite Hd. change (Some d ≫= measured_if) with (measured_if d).
  assert (match use_gps, s_gps d, s_accuracy d with true, Some p, Some a => measured_if d = Some (p, a) | _, _, _ => measured_if d = None end) as Hl by (unfold measured_if, measured; destruct use_gps, (s_gps d), (s_accuracy d); done).
  destruct use_gps; [|rewrite Hl, app_nil_r; eexists; split; reflexivity]. destruct (s_gps d) as [p|]; [|rewrite Hl, app_nil_r; eexists; split; reflexivity].
  destruct (s_accuracy d) as [a|]; [|rewrite Hl, app_nil_r; eexists; split; reflexivity]. rewrite Hl. specialize (Hpos p a Hl). destruct (Rle_dec a 0) as [?|_]; [lra|].
  eexists. split; [reflexivity|]. rewrite <- gps_add_sum. done.
Qed.

Lemma full_instance_ok p done_ i pose : i ∉ done_ -> instances s !! i = Some pose -> (forall x d p a, shots s !! x = Some d -> measured_if d = Some (p, a) -> (0 < a)%R) ->
  (forall x d, shots s !! x = Some d -> s_instance d = i -> is_Some (p_cameras p !! s_camera d) /\ is_Some (p_rig_cameras p !! s_rig_camera d)) ->
  full_instance enum use_gps s (with_instances p (fun _ => false) full_prior done_) i = Ok (with_instances p (fun _ => false) full_prior ({[i]} ∪ done_)).
Proof.
  intros Hi Hpose Hpos Hok. unfold full_instance. rewrite Hpose. cbn [of_option res_bind]. rewrite full_members.
  2: { intros x Hx. apply members_dom, elem_of_dom in Hx as [d Hd]. exists d. split; [done|]. intros p' a. by apply Hpos with (x := x). }
  cbn [res_bind].
  rewrite <- (instance_step p _ _ done_ i pose (enum (members_of s i)) Hi Hpose); [|intros x; by rewrite enum_in, in_members|done].
  destruct (add_rig_instance _ _ _ _ _) as [q|]; [|done]. cbn [res_bind]. unfold full_prior. rewrite <- (mean_perm _ _ (gps_perm measured_if i)). rewrite mean_sum.
  destruct (decide (0 < _)) as [Hc|Hc].
  - rewrite decide_True; [done|]. split; [|done]. assert (use_gps = true \/ use_gps = false) as [Hu|Hu] by (destruct use_gps; auto); [done|]. exfalso.
    assert (omap (fun x => shots s !! x ≫= measured_if) (enum (members_of s i)) = []) as E0; [|rewrite E0 in Hc; cbn in Hc; lia].
    assert (forall d, measured_if d = None) as Hn by (intros d; unfold measured_if; by rewrite Hu).
    clear Hc. induction (enum (members_of s i)) as [|x l IH]; cbn; [done|]. destruct (shots s !! x); cbn; [rewrite Hn|]; done.
  - rewrite decide_False by naive_solver. done.
Qed.
Lemma add_points_ok constant ids (p : problem) : ids ⊆ dom (landmarks s) -> p_points p = ∅ ->
  foldM (fun p lm => try v := of_option RuntimeError (landmarks s !! lm) in Ok (add_point p lm v.1 constant)) p (enum ids) = Ok (set_points p (blocks (fun _ => constant) ids (fst <$> landmarks s))).
Proof.
  intros Hi Hp. match goal with |- context [foldM ?f ?a ?l] => edestruct (foldM_inv f l (fun pre q => q = set_points p (blocks (fun _ => constant) (list_to_set pre) (fst <$> landmarks s))) a) as (q & -> & ->) end.
  - destruct p; cbn in *. subst. unfold set_points. cbn. f_equal. apply map_eq. intros j. rewrite blocks_lookup, lookup_empty. by rewrite decide_False by set_solver.
  - intros pre lm q Hlm (post & Epost) ->. apply enum_in in Hlm. pose proof (Hi lm Hlm) as [v Hv]%elem_of_dom. rewrite Hv. cbn [of_option res_bind]. eexists. split; [reflexivity|].
    assert (lm ∉ pre) as Hnew. { pose proof (enum_nodup ids) as Hn. rewrite Epost in Hn. apply NoDup_app in Hn as (_ & Hn & _). intros H. apply (Hn lm H). set_solver. }
    unfold add_point, emplace_block, set_points. cbn. rewrite blocks_lookup. rewrite decide_False by (by rewrite elem_of_list_to_set). f_equal. apply map_eq. intros j. rewrite blocks_lookup, lookup_fmap. destruct (decide (j = lm)) as [->|Hne].
    + rewrite lookup_insert. rewrite decide_True by set_solver. by rewrite Hv.
    + rewrite lookup_insert_ne by done. rewrite blocks_lookup, lookup_fmap. destruct (decide (j ∈ list_to_set pre)); [rewrite decide_True by set_solver|rewrite decide_False by set_solver]; done.
  - f_equal. f_equal. apply map_eq. intros id. rewrite !blocks_lookup. destruct (decide (id ∈ ids)) as [Hi'|Hi']; [rewrite decide_True by (by apply elem_of_list_to_set, enum_in)|rewrite decide_False by (by rewrite elem_of_list_to_set, enum_in)]; done.
Qed.
Lemma poses_observations_all xs (p : problem) : (forall x, x ∈ xs -> exists d, shots s !! x = Some d /\ is_Some (p_shots p !! x) /\ forall lm, lm ∈ dom (s_obs d) -> is_Some (p_points p !! lm)) ->
  foldM (poses_observations enum s) p xs = Ok (set_obs p (p_obs p ++ concat (map (obs_list (fun _ => true)) xs))).
Proof.
  intros H. rewrite <- add_all_obs_ok; [done|]. intros x Hx. destruct (H x Hx) as (d & H1 & H2 & H3). eauto.
Qed.
Lemma bias_ok (p : problem) : dom (p_biases p) = dom (cameras s) ->
  foldM (fun p id => try b := of_option IndexError (biases s !! id) in set_camera_bias p id b) p (enum (dom (cameras s))) = Ok (set_cameras p (p_cameras p) (blocks (fun _ => false) (dom (cameras s)) (biases s))).
Proof.
  intros Hp. match goal with |- context [foldM ?f ?a ?l] => edestruct (foldM_inv f l (fun pre q => exists m, q = set_cameras p (p_cameras p) m /\
    forall i, m !! i = if decide (i ∈ pre) then (fun b => (b, false)) <$> biases s !! i else p_biases p !! i) a) as (q & -> & m & -> & Hm) end.
  - exists (p_biases p). split; [by destruct p|]. intros i. by rewrite decide_False by set_solver.
  - intros pre i q Hi _ (m & -> & Hm). apply enum_in in Hi. pose proof Hi as Hi'. rewrite <- (w_biases _ _ s Hs) in Hi'. apply elem_of_dom in Hi' as [b Hb]. rewrite Hb. cbn [of_option res_bind].
    unfold set_camera_bias. cbn [p_biases set_cameras]. assert (is_Some (m !! i)) as [? ->]. { rewrite Hm. destruct (decide _); [rewrite Hb; cbn; eauto|]. rewrite <- Hp in Hi. by apply elem_of_dom in Hi. }
    eexists. split; [done|]. exists (<[i := (b, false)]> m). split; [done|]. intros j. destruct (decide (j = i)) as [->|Hne].
    + rewrite lookup_insert. rewrite decide_True by set_solver. by rewrite Hb.
    + rewrite lookup_insert_ne by done. rewrite Hm. destruct (decide (j ∈ pre)); [rewrite decide_True by set_solver|rewrite decide_False by set_solver]; done.
  - f_equal. f_equal. apply map_eq. intros i. rewrite Hm, blocks_lookup. destruct (decide (i ∈ dom (cameras s))) as [Hd|Hd]; [rewrite decide_True by (by apply enum_in); done|rewrite decide_False by (by rewrite enum_in)].
    rewrite <- Hp in Hd. by apply not_elem_of_dom in Hd.
Qed.
Lemma full_problem_ok fix_ compensate : (forall x d p a, shots s !! x = Some d -> measured_if d = Some (p, a) -> (0 < a)%R) ->
  full_problem bias0 enum camera_priors rig_camera_priors use_gps s fix_ compensate =
    Ok (Problem (blocks (fun _ => fix_) (dom (cameras s)) (cameras s)) (if compensate then blocks (fun _ => false) (dom (cameras s)) (biases s) else gset_to_gmap (bias0, true) (dom (cameras s)))
          (blocks (lock_rig_camera s) (dom (rig_cameras s)) (rig_cameras s)) (blocks (fun _ => false) (dom (instances s)) (instances s)) (prior_map full_prior (dom (instances s))) (shot_map (dom (instances s)))
          (blocks (fun _ => false) (dom (landmarks s)) (fst <$> landmarks s)) (concat (map (obs_list (fun _ => true)) (enum (dom (shots s)))))).
Proof.
  intros Hpos. unfold full_problem. rewrite add_cameras_ok by done. cbn [res_bind]. rewrite add_points_ok by done. cbn [res_bind]. rewrite add_rig_cameras_ok by done. cbn [res_bind].
  rewrite (instances_fold _ (fun _ => false) full_prior (dom (instances s))); [|done|done|done|done|].
  2: { intros done_ i pose Hi Hno Hp. apply (full_instance_ok _ _ _ pose); [done|done|done|]. intros x d Hx Ei. cbn [p_cameras p_rig_cameras set_cameras set_rig_cameras set_points]. rewrite !blocks_lookup.
       assert (s_camera d ∈ dom (cameras s)) as Hc by (by eapply w_camera). assert (s_rig_camera d ∈ dom (rig_cameras s)) as Hr by (by eapply w_rig_camera).
       rewrite !decide_True by done. apply elem_of_dom in Hc as [? ->]. apply elem_of_dom in Hr as [? ->]. cbn. eauto. }
  cbn [res_bind]. rewrite poses_observations_all.
  2: { intros x Hx%enum_in. apply elem_of_dom in Hx as [d Hd]. exists d. split; [done|]. cbn [p_shots p_points with_instances set_points set_rig_cameras]. split.
       - rewrite shot_map_lookup, Hd. cbn. rewrite decide_True by (by eapply w_instance). eauto.
       - intros lm Hlm. apply (w_landmarks _ _ s Hs x d Hd) in Hlm. rewrite blocks_lookup, decide_True by done. rewrite lookup_fmap. apply elem_of_dom in Hlm as [? ->]. cbn. eauto. }
  cbn [res_bind]. destruct compensate; [|done]. rewrite bias_ok; [done|]. cbn. apply set_eq. intros i. rewrite elem_of_dom, lookup_gset_to_gmap. unfold is_Some.
  split; [intros [? H]; by apply option_guard_Some_1 in H || (case_option_guard; [done|done])|]. intros Hi. rewrite option_guard_True by done. eauto.
Qed.
Lemma write_fold {T W} (valid : T -> bool) (upd : string -> T -> W) (z : gmap string (T * bool)) l : (forall i, i ∈ l -> is_Some (z !! i)) -> forall m : gmap string W,
  (exists m', foldM (fun m id => try v := of_option RuntimeError (z !! id) in if valid v.1 then Ok (<[id := upd id v.1]> m) else Err RuntimeError) m l = Ok m' /\
     (forall i, m' !! i = if decide (i ∈ l) then (fun v => upd i v.1) <$> z !! i else m !! i) /\ forall i v, i ∈ l -> z !! i = Some v -> valid v.1 = true) \/
  (foldM (fun m id => try v := of_option RuntimeError (z !! id) in if valid v.1 then Ok (<[id := upd id v.1]> m) else Err RuntimeError) m l = Err RuntimeError /\
     exists i v, i ∈ l /\ z !! i = Some v /\ valid v.1 = false).
Proof.
  intros Hl. induction l as [|x l IH]; intros m; cbn [foldM].
  - left. exists m. split; [done|]. split; [intros i; by rewrite decide_False by set_solver|]. by intros ? ? ?%elem_of_nil.
  - destruct (Hl x) as [v Hv]; [set_solver|]. rewrite Hv. cbn [of_option res_bind]. destruct (valid v.1) eqn:Ev; cbn [res_bind].
    + destruct (IH (fun i Hi => Hl i ltac:(set_solver)) (<[x := upd x v.1]> m)) as [(m' & -> & H1 & H2)|(-> & i & w & H1 & H2 & H3)]; [left|right].
      * exists m'. split; [done|]. split.
        -- intros i. rewrite H1. destruct (decide (i ∈ l)) as [Hi|Hi]; [by rewrite decide_True by set_solver|]. destruct (decide (i = x)) as [->|Hne].
           ++ rewrite lookup_insert. rewrite decide_True by set_solver. by rewrite Hv.
           ++ rewrite lookup_insert_ne by done. rewrite decide_False by set_solver. done.
        -- intros i w [->|Hi]%elem_of_cons Hw; [congruence|by eapply H2].
      * split; [done|]. exists i, w. split; [by right|done].
    + right. split; [done|]. exists x, v. split; [by left|done].
Qed.
(** BundleToMap *)
Lemma bundle_to_map_ok (errors : problem -> string -> E) (pose_valid : P -> bool) (bias_valid : B -> bool) (point_valid : V -> bool) (z : problem) update :
  dom (cameras s) ⊆ dom (p_cameras z) -> dom (biases s) ⊆ dom (p_biases z) -> dom (rig_cameras s) ⊆ dom (p_rig_cameras z) -> dom (instances s) ⊆ dom (p_instances z) -> dom (landmarks s) ⊆ dom (p_points z) ->
  (exists s', bundle_to_map enum errors pose_valid bias_valid point_valid s z update = Ok s' /\ shots s' = shots s /\
    (forall i, cameras s' !! i = if update then (if decide (i ∈ dom (cameras s)) then fst <$> p_cameras z !! i else None) else cameras s !! i) /\
    (forall i, biases s' !! i = if decide (i ∈ dom (biases s)) then fst <$> p_biases z !! i else None) /\
    (forall i, rig_cameras s' !! i = if decide (i ∈ dom (rig_cameras s)) then fst <$> p_rig_cameras z !! i else None) /\
    (forall i, instances s' !! i = if decide (i ∈ dom (instances s)) then fst <$> p_instances z !! i else None) /\
    (forall i, landmarks s' !! i = if decide (i ∈ dom (landmarks s)) then (fun v => (v.1, errors z i)) <$> p_points z !! i else None) /\
    (forall i v, biases s' !! i = Some v -> bias_valid v = true) /\ (forall i v, rig_cameras s' !! i = Some v -> pose_valid v = true) /\
    (forall i v, instances s' !! i = Some v -> pose_valid v = true) /\ (forall i v, landmarks s' !! i = Some v -> point_valid v.1 = true)) \/
  (bundle_to_map enum errors pose_valid bias_valid point_valid s z update = Err RuntimeError /\
    ((exists i v, i ∈ dom (biases s) /\ p_biases z !! i = Some v /\ bias_valid v.1 = false) \/ (exists i v, i ∈ dom (instances s) /\ p_instances z !! i = Some v /\ pose_valid v.1 = false) \/
     (exists i v, i ∈ dom (rig_cameras s) /\ p_rig_cameras z !! i = Some v /\ pose_valid v.1 = false) \/ (exists i v, i ∈ dom (landmarks s) /\ p_points z !! i = Some v /\ point_valid v.1 = false))).
Proof.
  intros Hc Hb Hr Hi Hl. unfold bundle_to_map.
  assert (exists cams, (if update then write_block enum (fun _ : C => true) (cameras s) (p_cameras z) else Ok (cameras s)) = Ok cams /\
    forall i, cams !! i = if update then (if decide (i ∈ dom (cameras s)) then fst <$> p_cameras z !! i else None) else cameras s !! i) as (cams & -> & Hcams).
  { destruct update; [|eauto]. unfold write_block. destruct (write_fold (fun _ : C => true) (fun _ v => v) (p_cameras z) (enum (dom (cameras s)))) with (m := cameras s) as [(m' & -> & H1 & _)|(_ & ? & ? & _ & _ & ?)]; [|eauto|done].
    - intros i Hi'%enum_in. by apply elem_of_dom, Hc.
    - exists m'. split; [done|]. intros i. rewrite H1. destruct (decide (i ∈ dom (cameras s))) as [Hd|Hd]; [by rewrite decide_True by (by apply enum_in)|]. rewrite decide_False by (by rewrite enum_in). by apply not_elem_of_dom in Hd. }
  cbn [res_bind].
  assert (forall T (valid : T -> bool) (m : gmap string T) z, dom m ⊆ dom z ->
    (exists m', write_block enum valid m z = Ok m' /\ (forall i, m' !! i = if decide (i ∈ dom m) then fst <$> z !! i else None) /\ forall i v, m' !! i = Some v -> valid v = true) \/
    (write_block enum valid m z = Err RuntimeError /\ exists i v, i ∈ dom m /\ z !! i = Some v /\ valid v.1 = false)) as Hblock.
  { intros T valid m z' Hm. unfold write_block. destruct (write_fold valid (fun _ v => v) z' (enum (dom m))) with (m := m) as [(m' & -> & H1 & Hv)|(-> & i & v & H1 & H2 & H3)].
    - intros i Hi'%enum_in. by apply elem_of_dom, Hm.
    - left. exists m'. split; [done|]. split.
      2: { intros i v. rewrite H1. destruct (decide (i ∈ enum (dom m))) as [Hin|Hin]; [|rewrite enum_in in Hin; apply not_elem_of_dom in Hin; congruence]. destruct (z' !! i) as [w|] eqn:Ew; [|done]. cbn. intros [= <-]. by eapply Hv. }
      intros i. rewrite H1. destruct (decide (i ∈ dom m)) as [Hd|Hd]; [by rewrite decide_True by (by apply enum_in)|]. rewrite decide_False by (by rewrite enum_in). by apply not_elem_of_dom in Hd.
    - right. split; [done|]. exists i, v. split; [by apply enum_in|done]. }
  destruct (Hblock _ bias_valid (biases s) (p_biases z) Hb) as [(bs & -> & Hbs & Hbsv)|(-> & H)]; cbn [res_bind]; [|right; eauto].
  destruct (Hblock _ pose_valid (instances s) (p_instances z) Hi) as [(is_ & -> & His & Hisv)|(-> & H)]; cbn [res_bind]; [|right; eauto].
  destruct (Hblock _ pose_valid (rig_cameras s) (p_rig_cameras z) Hr) as [(rs & -> & Hrs & Hrsv)|(-> & H)]; cbn [res_bind]; [|right; eauto].
  destruct (write_fold point_valid (fun id v => (v, errors z id)) (p_points z) (enum (dom (landmarks s)))) with (m := landmarks s) as [(m' & -> & H1 & Hv)|(-> & i & v & H1 & H2 & H3)].
  - intros i Hi'%enum_in. by apply elem_of_dom, Hl.
  - left. cbn [res_bind]. eexists. split; [done|]. cbn [shots cameras biases rig_cameras instances landmarks]. split; [done|]. split; [done|]. split; [done|]. split; [done|]. split; [done|]. split; [|split; [done|split; [done|split; [done|]]]].
    2: { intros i v. rewrite H1. destruct (decide (i ∈ enum (dom (landmarks s)))) as [Hin|Hin]; [|rewrite enum_in in Hin; apply not_elem_of_dom in Hin; congruence]. destruct (p_points z !! i) as [w|] eqn:Ew; [|done]. cbn. intros [= <-]. by eapply Hv. }
    intros i. rewrite H1. destruct (decide (i ∈ dom (landmarks s))) as [Hd|Hd]; [by rewrite decide_True by (by apply enum_in)|]. rewrite decide_False by (by rewrite enum_in). by apply not_elem_of_dom in Hd.
  - right. cbn [res_bind]. split; [done|]. right. right. right. exists i, v. split; [by apply enum_in|done].
Qed.

(** ** the adjustment of some shots *)
Definition measures (shot_ids : gset string) (x : string) : option (vec * R) := if decide (x ∈ shot_ids) then shots s !! x ≫= measured_if else None.
(** sums and prior after the shots [xs] of an instance *)
Definition poses_step (shot_ids : gset string) (a : gps_sum * bool * option (vec * R)) (x : string) : gps_sum * bool * option (vec * R) :=
  let '(g, fixed, prior) := a in
  let g := match measures shot_ids x with Some (p, a) => gps_add g p a | None => g end in
  let fixed := fixed || negb (bool_decide (x ∈ shot_ids)) in
  if decide (fixed = false /\ 0 < g_count g) then let g := gps_divide g in (g, fixed, Some (g_position g, g_std g)) else (g, fixed, prior).
Definition poses_run (shot_ids : gset string) (xs : list string) : gps_sum * bool * option (vec * R) := foldl (poses_step shot_ids) (gps0, false, None) xs.
Definition poses_prior (shot_ids : gset string) (i : string) : option (vec * R) := (poses_run shot_ids (enum (members_of s i))).2.
Definition outside (shot_ids : gset string) (i : string) : bool := bool_decide (~ members_of s i ⊆ shot_ids).
Lemma poses_fixed shot_ids xs : (poses_run shot_ids xs).1.2 = existsb (fun x => negb (bool_decide (x ∈ shot_ids))) xs.
Proof.
  unfold poses_run. induction xs as [|x xs IH] using rev_ind; [done|]. rewrite foldl_app, existsb_app. cbn [foldl existsb]. rewrite orb_false_r, <- IH.
  destruct (foldl _ _ xs) as [[g f] pr]. cbn [poses_step fst snd]. destruct (decide _); done.
Qed.
Lemma poses_outside shot_ids i : (poses_run shot_ids (enum (members_of s i))).1.2 = outside shot_ids i.
Proof.
  rewrite poses_fixed. unfold outside. destruct (existsb _ _) eqn:Ex; symmetry.
  - apply existsb_exists in Ex as (x & Hx & Hb). apply negb_true_iff, bool_decide_eq_false_1 in Hb. apply elem_of_list_In, enum_in in Hx. apply bool_decide_eq_true_2. set_solver.
  - apply bool_decide_eq_false_2. intros Hne. apply Hne. intros x Hx. destruct (decide (x ∈ shot_ids)) as [|Hn]; [done|]. exfalso. apply not_true_iff_false in Ex. apply Ex. apply existsb_exists.
    exists x. split; [by apply elem_of_list_In, enum_in|]. by rewrite bool_decide_eq_false_2.
Qed.
(** the state inside the loop over the shots of an instance *)
Definition poses_state (p : problem) (shot_ids : gset string) (i : string) (pose : P) (xs : list string) (m : gmap string (string * string * string)) : problem :=
  Problem (p_cameras p) (p_biases p) (p_rig_cameras p) (if decide (xs = []) then p_instances p else <[i := (pose, (poses_run shot_ids xs).1.2)]> (p_instances p))
    (match (poses_run shot_ids xs).2 with Some v => <[i := v]> (p_priors p) | None => p_priors p end) m (p_points p) (p_obs p).
Lemma poses_members_ok (p : problem) shot_ids i pose xs : p_instances p !! i = None ->
  (forall x, x ∈ xs -> exists d, shots s !! x = Some d /\ is_Some (p_cameras p !! s_camera d) /\ is_Some (p_rig_cameras p !! s_rig_camera d)) ->
  exists m, foldM (poses_member use_gps s shot_ids i pose) (p, gps0, false, []) xs = Ok (poses_state p shot_ids i pose xs m, (poses_run shot_ids xs).1.1, (poses_run shot_ids xs).1.2, map triple xs) /\
    forall y, m !! y = match p_shots p !! y with Some v => Some v | None => if decide (y ∈ xs) then (fun d => (s_camera d, s_rig_camera d, i)) <$> shots s !! y else None end.
Proof.
  intros Hi Hxs. edestruct (foldM_inv (poses_member use_gps s shot_ids i pose) xs (fun pre a => exists m, a = (poses_state p shot_ids i pose pre m, (poses_run shot_ids pre).1.1, (poses_run shot_ids pre).1.2, map triple pre) /\
    forall y, m !! y = match p_shots p !! y with Some v => Some v | None => if decide (y ∈ pre) then (fun d => (s_camera d, s_rig_camera d, i)) <$> shots s !! y else None end) (p, gps0, false, [])) as (a & -> & m & -> & Hm); [| |eauto].
  - exists (p_shots p). split; [by destruct p|]. intros y. rewrite decide_False by set_solver. by destruct (p_shots p !! y).
  - intros pre x a Hx (post & Epost) (m & -> & Hm). destruct (Hxs x Hx) as (d & Hd & Hc & Hr). unfold poses_member. rewrite Hd. cbn [of_option res_bind].
    set (R0 := poses_run shot_ids pre) in *.
    assert (poses_run shot_ids (pre ++ [x]) = poses_step shot_ids R0 x) as Erun by (unfold poses_run; by rewrite foldl_app).
    destruct R0 as [[g f] pr] eqn:ER0. cbn [fst snd] in *.
    assert ((if decide (x ∈ shot_ids) then match use_gps, s_gps d, s_accuracy d with true, Some position, Some accuracy => (gps_add g position accuracy, f) | _, _, _ => (g, f) end else (g, true)) =
      (match measures shot_ids x with Some (p, a) => gps_add g p a | None => g end, f || negb (bool_decide (x ∈ shot_ids)))) as ->.
    { unfold measures, measured_if, measured. rewrite Hd. cbn [mbind option_bind]. destruct (decide (x ∈ shot_ids)) as [Hin|Hin].
      - rewrite bool_decide_eq_true_2 by done. rewrite orb_false_r. destruct use_gps, (s_gps d), (s_accuracy d); done.
      - rewrite bool_decide_eq_false_2 by done. by rewrite orb_true_r. }
    cbn [poses_step] in Erun. set (g' := match measures shot_ids x with Some (p, a) => gps_add g p a | None => g end) in *. set (f' := f || negb (bool_decide (x ∈ shot_ids))) in *.
    assert (triple x = (x, s_camera d, s_rig_camera d)) as Et by (unfold triple; by rewrite Hd).
    assert (map triple pre ++ [(x, s_camera d, s_rig_camera d)] = map triple (pre ++ [x])) as -> by (rewrite map_app, <- Et; done).
    unfold add_rig_instance.
    assert (emplace_block i pose f' (p_instances (poses_state p shot_ids i pose pre m)) = <[i := (pose, f')]> (p_instances p)) as ->.
    { unfold emplace_block, poses_state. cbn [p_instances]. fold R0. rewrite ER0. cbn [fst snd]. destruct (decide (pre = [])); [by rewrite Hi|]. rewrite lookup_insert. rewrite insert_insert.
      f_equal. f_equal. unfold f'. destruct f; done. }
    edestruct (add_members_ok i (pre ++ [x])) as (m2 & -> & Hm2).
    { intros y Hy. apply Hxs. rewrite Epost. set_solver. }
    cbn [res_bind]. assert (forall y, m2 !! y = match p_shots p !! y with Some v => Some v | None => if decide (y ∈ pre ++ [x]) then (fun d => (s_camera d, s_rig_camera d, i)) <$> shots s !! y else None end) as Hm2'.
    { intros y. rewrite Hm2. cbn [p_shots set_instances poses_state]. rewrite Hm. destruct (p_shots p !! y); [done|]. destruct (decide (y ∈ pre)); [|done]. rewrite decide_True by set_solver. by destruct (shots s !! y). }
    destruct (decide (f' = false /\ 0 < g_count g')) as [Hdo|Hno].
    + unfold add_position_prior. cbn [p_instances set_instances poses_state]. rewrite lookup_insert. cbn [res_bind]. eexists. split; [reflexivity|]. exists m2. rewrite Erun. cbn [fst snd]. split; [|done].
      unfold poses_state. rewrite Erun. cbn [fst snd]. rewrite (decide_False (P := pre ++ [x] = [])) by (by intros [_ ?]%app_eq_nil). unfold set_priors, set_instances. cbn. f_equal. f_equal. f_equal. f_equal. fold R0. rewrite ER0. cbn [snd]. destruct pr; [by rewrite insert_insert|done].
    + eexists. split; [reflexivity|]. exists m2. rewrite Erun. cbn [fst snd]. split; [|done].
      unfold poses_state. rewrite Erun. cbn [fst snd]. rewrite (decide_False (P := pre ++ [x] = [])) by (by intros [_ ?]%app_eq_nil). unfold set_instances. cbn. fold R0. rewrite ER0. done.
Qed.
Lemma poses_instance_ok p shot_ids done_ i pose x0 : i ∉ done_ -> instances s !! i = Some pose -> shot_in s x0 i ->
  (forall x d, shots s !! x = Some d -> s_instance d = i -> is_Some (p_cameras p !! s_camera d) /\ is_Some (p_rig_cameras p !! s_rig_camera d)) ->
  poses_instance enum use_gps s shot_ids (with_instances p (outside shot_ids) (poses_prior shot_ids) done_) i = Ok (with_instances p (outside shot_ids) (poses_prior shot_ids) ({[i]} ∪ done_)).
Proof.
  intros Hi Hpose Hx0 Hok. unfold poses_instance. rewrite Hpose. cbn [of_option res_bind].
  destruct (poses_members_ok (with_instances p (outside shot_ids) (poses_prior shot_ids) done_) shot_ids i pose (enum (members_of s i))) as (m & -> & Hm).
  - cbn. rewrite blocks_lookup. by rewrite decide_False.
  - intros x Hx. apply enum_in, in_members in Hx as (d & Hd & Ed). exists d. split; [done|]. by apply (Hok x d).
  - cbn [res_bind]. f_equal. unfold poses_state, with_instances. cbn [p_cameras p_biases p_rig_cameras p_instances p_priors p_shots p_points p_obs].
    assert (i ∈ dom (instances s)) as Hdom by (apply elem_of_dom; eauto). rewrite poses_outside. f_equal.
    + rewrite decide_False. 2: { intros E0. apply in_members, enum_in in Hx0. rewrite E0 in Hx0. by apply elem_of_nil in Hx0. }
      apply map_eq. intros j. rewrite blocks_lookup. destruct (decide (j = i)) as [->|Hne].
      * rewrite lookup_insert. rewrite decide_True by set_solver. by rewrite Hpose.
      * rewrite lookup_insert_ne by done. rewrite blocks_lookup. destruct (decide (j ∈ done_)); [rewrite decide_True by set_solver|rewrite decide_False by set_solver]; done.
    + fold (poses_prior shot_ids i). apply map_eq. intros j. destruct (decide (j ∈ dom (instances s))) as [Hj|Hj].
      * rewrite (prior_map_lookup _ ({[i]} ∪ done_)) by done. destruct (decide (j = i)) as [->|Hne].
        -- rewrite decide_True by set_solver. destruct (poses_prior shot_ids i); [by rewrite lookup_insert|]. rewrite prior_map_lookup by done. by rewrite decide_False.
        -- assert (prior_map (poses_prior shot_ids) done_ !! j = if decide (j ∈ {[i]} ∪ done_) then poses_prior shot_ids j else None) as Ej.
           { rewrite prior_map_lookup by done. destruct (decide (j ∈ done_)); [rewrite decide_True by set_solver|rewrite decide_False by set_solver]; done. }
           destruct (poses_prior shot_ids i); [by rewrite lookup_insert_ne|done].
      * rewrite (prior_map_lookup' _ ({[i]} ∪ done_)) by done. assert (j <> i) by (intros ->; done). destruct (poses_prior shot_ids i); [rewrite lookup_insert_ne by done|]; by apply prior_map_lookup'.
    + apply map_eq. intros y. rewrite Hm. cbn [p_shots with_instances]. rewrite !shot_map_lookup. destruct (shots s !! y) as [d|] eqn:Ed; cbn.
      * destruct (decide (s_instance d ∈ done_)); [rewrite decide_True by set_solver; done|]. destruct (decide (s_instance d = i)) as [Ei|Ei].
        -- rewrite decide_True by (apply enum_in, in_members; by exists d). rewrite decide_True by set_solver. by rewrite Ei.
        -- rewrite decide_False; [|rewrite enum_in, in_members; intros (d' & Hd' & ?); congruence]. rewrite decide_False by set_solver. done.
      * by destruct (decide _).
Qed.
Lemma shots_of_in ids x : x ∈ shots_of enum s ids <-> exists i, i ∈ ids /\ shot_in s x i.
Proof.
  unfold shots_of. rewrite elem_of_union_list. split.
  - intros (m & (i & -> & Hi)%elem_of_list_fmap & Hx). apply enum_in in Hi. exists i. split; [done|by apply in_members].
  - intros (i & Hi & Hx). exists (members_of s i). split; [|by apply in_members]. apply elem_of_list_fmap. exists i. split; [done|by apply enum_in].
Qed.
Lemma poses_problem_ok shot_ids : shot_ids ⊆ dom (shots s) ->
  exists ids rcs cams lms, (forall i, i ∈ ids <-> exists x, x ∈ shot_ids /\ shot_in s x i) /\ (forall lm, lm ∈ lms <-> exists x o, x ∈ shot_ids /\ observes s x lm o) /\
    poses_problem bias0 enum camera_priors rig_camera_priors use_gps s shot_ids =
      Ok (Problem (blocks (fun _ => true) cams (cameras s)) (gset_to_gmap (bias0, true) cams) (blocks (fun _ => true) rcs (rig_cameras s))
            (blocks (outside shot_ids) ids (instances s)) (prior_map (poses_prior shot_ids) ids) (shot_map ids)
            (blocks (fun _ => true) lms (fst <$> landmarks s)) (concat (map (obs_list (fun _ => true)) (enum shot_ids))), ids).
Proof.
  intros Hd. unfold poses_problem, instances_of, rig_cameras_of, cameras_of, landmarks_of.
  destruct (collect_set (fun d => {[s_instance d]}) shot_ids) as (ids & Eids & Hids); [set_solver|]. rewrite Eids. cbn [res_bind].
  assert (forall i, i ∈ ids <-> exists x, x ∈ shot_ids /\ shot_in s x i) as Hids'.
  { intros i. rewrite Hids. unfold shot_in. split; [intros (x & d & H1 & H2 & ->%elem_of_singleton); eauto|intros (x & H1 & d & H2 & <-); exists x, d; set_solver]. }
  clear Hids. assert (ids ⊆ dom (instances s)) as Hsub. { intros i (x & _ & d & Hx & <-)%Hids'. by eapply w_instance. }
  assert (forall x, x ∈ shots_of enum s ids -> x ∈ dom (shots s)) as Hall. { intros x (i & _ & d & Hx & _)%shots_of_in. apply elem_of_dom. eauto. }
  destruct (collect_set (fun d => {[s_rig_camera d]}) (shots_of enum s ids) Hall) as (rcs & Ercs & Hrcs). rewrite Ercs. cbn [res_bind].
  destruct (collect_set (fun d => {[s_camera d]}) (shots_of enum s ids) Hall) as (cams & Ecams & Hcams). rewrite Ecams. cbn [res_bind].
  rewrite add_rig_cameras_ok; [|intros rc (x & d & _ & Hx & ->%elem_of_singleton)%Hrcs; by eapply w_rig_camera|done]. cbn [res_bind].
  rewrite add_cameras_ok; [|intros rc (x & d & _ & Hx & ->%elem_of_singleton)%Hcams; by eapply w_camera|done|done]. cbn [res_bind].
  destruct (collect_set (fun d => dom (s_obs d)) shot_ids) as (lms & Elms & Hlms); [set_solver|]. rewrite Elms. cbn [res_bind].
  assert (lms ⊆ dom (landmarks s)) as Hlsub. { intros lm (x & d & _ & Hx & Hlm)%Hlms. by apply (w_landmarks _ _ s Hs x d Hx). }
  rewrite add_points_ok by done. cbn [res_bind].
  rewrite (instances_fold _ (outside shot_ids) (poses_prior shot_ids) ids); [|done|done|done|done|].
  2: { intros done_ i pose Hi Hno Hp. pose proof Hi as (x0 & Hx0 & Hi0)%Hids'. apply (poses_instance_ok _ _ _ _ pose x0); [done|done|done|]. intros x d Hx Ei.
       cbn [p_cameras p_rig_cameras set_cameras set_rig_cameras set_points]. rewrite !blocks_lookup. assert (x ∈ shots_of enum s ids) as Hin by (apply shots_of_in; exists i; split; [done|by exists d]).
       assert (s_camera d ∈ dom (cameras s)) as Hc by (by eapply w_camera). assert (s_rig_camera d ∈ dom (rig_cameras s)) as Hr by (by eapply w_rig_camera).
       rewrite decide_True by (apply Hcams; exists x, d; set_solver). rewrite decide_True by (apply Hrcs; exists x, d; set_solver). apply elem_of_dom in Hc as [? ->]. apply elem_of_dom in Hr as [? ->]. cbn. eauto. }
  cbn [res_bind]. rewrite poses_observations_all.
  2: { intros x Hx%enum_in. pose proof (Hd x Hx) as [d Hxd]%elem_of_dom. exists d. split; [done|]. cbn [p_shots p_points with_instances set_points set_rig_cameras]. split.
       - rewrite shot_map_lookup, Hxd. cbn. rewrite decide_True; [eauto|]. apply Hids'. exists x. split; [done|by exists d].
       - intros lm Hlm. assert (lm ∈ lms) as Hin by (apply Hlms; eauto). rewrite blocks_lookup, decide_True by done. rewrite lookup_fmap. apply Hlsub, elem_of_dom in Hin as [? ->]. cbn. eauto. }
  cbn [res_bind]. exists ids, rcs, cams, lms. split; [done|]. split; [|done].
  intros lm. rewrite Hlms. unfold observes. split; [intros (x & d & H1 & H2 & [o Ho]%elem_of_dom); exists x, o; eauto|intros (x & o & H1 & d & H2 & Ho); exists x, d; split; [done|]; split; [done|apply elem_of_dom; eauto]].
Qed.
(** with at most two shots the prior is the mean *)
Lemma poses_step_in shot_ids x g pr : x ∈ shot_ids -> poses_step shot_ids (g, false, pr) x =
  let g := match shots s !! x ≫= measured_if with Some (p, a) => gps_add g p a | None => g end in
  match g_count g with 0 => (g, false, pr) | S _ => (gps_divide g, false, Some (g_position (gps_divide g), g_std (gps_divide g))) end.
Proof.
  intros Hx. cbn [poses_step]. unfold measures. rewrite (decide_True (P := x ∈ shot_ids)) by done. rewrite bool_decide_eq_true_2 by done. cbn [orb negb].
  set (g' := match shots s !! x ≫= measured_if with Some (p, a) => gps_add g p a | None => g end). cbn zeta. destruct (g_count g') eqn:Eg; [rewrite decide_False by lia|rewrite decide_True by (split; [done|lia])]; done.
Qed.
Lemma poses_two shot_ids i : members_of s i ⊆ shot_ids -> length (enum (members_of s i)) <= 2 -> poses_prior shot_ids i = mean (gps_list measured_if s i).
Proof.
  intros Hin Hlen. rewrite <- (mean_perm _ _ (gps_perm measured_if i)). unfold poses_prior.
  assert (forall x, x ∈ enum (members_of s i) -> x ∈ shot_ids) as Hx by (intros x Hx%enum_in; by apply Hin).
  unfold poses_run. destruct (enum (members_of s i)) as [|x [|y [|? ?]]]; [done| | |cbn in Hlen; lia]; cbn [foldl omap list_omap]; rewrite poses_step_in by (apply Hx; set_solver).
  - destruct (shots s !! x ≫= measured_if) as [[g a]|]; cbn; [|done].
    destruct g as [g1 g2 g3]. unfold vadd, vscale, sum_positions, sum_accuracies. cbn. f_equal. f_equal; [f_equal; field|field].
  - destruct (shots s !! x ≫= measured_if) as [[[g1 g2 g3] a]|]; cbn [gps_add gps0 g_count]; rewrite poses_step_in by (apply Hx; set_solver); destruct (shots s !! y ≫= measured_if) as [[[h1 h2 h3] b]|]; cbn;
      unfold vadd, vscale, sum_positions, sum_accuracies; cbn; try done; f_equal; (f_equal; [f_equal; field|field]).
Qed.
End Proofs.
