(** C52: what the bundle adjustments use, and what they may change. *)
From stdpp Require Import prelude gmap strings sorting.
From Coq Require Import Reals Lra.
From Verif Require Import Base Lin NeighModel NeighSpec NeighProofs NeighProps BundleModel BundleSpec BundleProofs.
Open Scope nat_scope.

Section C52.
Context {C B P V E O : Type} (bias0 : B) (accuracy0 : R).
Notation scene := (@scene C B P V E O). Notation problem := (@problem C B P V O).
(** any order of iteration, any descending sort, any minimiser that respects constant blocks, any map without dangling
    references *)
Context (enum : gset string -> list string) (Henum : forall l, enum l ≡ₚ elements l).
Context (sort_counts : gmap string nat -> list (string * nat)) (Hsort : sorts sort_counts).
Context (solve : problem -> problem) (Hsolve : minimises solve) (errors : problem -> string -> E).
Context (pose_valid : P -> bool) (bias_valid : B -> bool) (point_valid : V -> bool).
Context (camera_priors rig_camera_priors : gset string) (use_gps : bool).
Context (s : scene) (Hs : well_formed camera_priors rig_camera_priors s).

Notation neighbourhood := (shot_neighborhood (shot_obs s) (shot_instances s) enum sort_counts).
Notation local_problem := (local_problem bias0 accuracy0 enum camera_priors rig_camera_priors use_gps s).
Notation bundle_local := (bundle_local bias0 accuracy0 enum sort_counts solve errors camera_priors rig_camera_priors use_gps s).
Notation poses_problem := (poses_problem bias0 enum camera_priors rig_camera_priors use_gps s).
Notation bundle_shot_poses := (bundle_shot_poses bias0 enum solve camera_priors rig_camera_priors use_gps s).
Notation full_problem := (full_problem bias0 enum camera_priors rig_camera_priors use_gps s).
Notation bundle := (bundle bias0 enum solve errors pose_valid bias_valid point_valid camera_priors rig_camera_priors use_gps s).

Lemma shots_dom : dom (shot_obs s) ⊆ dom (shot_instances s).
Proof. unfold shot_obs, shot_instances. by rewrite !dom_fmap_L. Qed.
Lemma same_shot x y i : shot_in s x i -> shot_in s y i -> same_instance (shot_instances s) x y.
Proof. intros (d & Hd & <-) (d' & Hd' & Ei). exists (s_instance d). unfold shot_instances. rewrite !lookup_fmap, Hd, Hd'. cbn. by rewrite Ei. Qed.
Lemma boundary_sub central radius min_common max_shots interior boundary : neighbourhood central radius min_common max_shots = Ok (interior, boundary) -> interior ∪ boundary ⊆ dom (shots s).
Proof.
  intros En. pose proof (C51_defined _ _ shots_dom enum Henum sort_counts Hsort central radius min_common max_shots) as Hc. rewrite En in Hc.
  destruct (run_ok _ _ shots_dom enum Henum sort_counts Hsort central radius min_common max_shots Hc) as (a & b & chosen & E' & _ & _ & H3 & _ & _ & H6 & _). rewrite En in E'. injection E' as <- <-.
  assert (forall x y, same_instance (shot_instances s) x y -> y ∈ dom (shots s)) as Hsame.
  { intros x y (i & _ & Hy). unfold shot_instances in Hy. rewrite lookup_fmap in Hy. apply elem_of_dom. destruct (shots s !! y); [eauto|done]. }
  assert (forall d x, within (shot_obs s) (shot_instances s) min_common central d x -> x ∈ dom (shots s)) as Hwithin.
  { induction d as [|d IH]; cbn; intros x; [apply Hsame|]. intros [H|(y & l & _ & _ & H)]; [by apply IH|by eapply Hsame]. }
  intros x [Hx|Hx]%elem_of_union; [by eapply Hwithin, H3|]. apply H6 in Hx as (y & _ & Hy). by eapply Hsame.
Qed.
Lemma closed central radius min_common max_shots interior boundary : neighbourhood central radius min_common max_shots = Ok (interior, boundary) ->
  forall x y i, shot_in s x i -> shot_in s y i -> (x ∈ interior -> y ∈ interior) /\ (x ∈ boundary -> y ∈ boundary).
Proof.
  intros En x y i Hx Hy. destruct (C51_interior_boundary _ _ shots_dom enum Henum sort_counts Hsort _ _ _ _ _ _ En) as (_ & _ & Hw). apply Hw. by eapply same_shot.
Qed.
Lemma local_ok central radius min_common max_shots interior boundary : neighbourhood central radius min_common max_shots = Ok (interior, boundary) ->
  interior ∪ boundary ⊆ dom (shots s) /\ interior ## boundary /\
  (forall x y i, x ∈ interior ∪ boundary -> shot_in s x i -> shot_in s y i -> y ∈ interior ∪ boundary).
Proof.
  intros En. split; [by eapply boundary_sub|]. split; [by destruct (C51_interior_boundary _ _ shots_dom enum Henum sort_counts Hsort _ _ _ _ _ _ En) as (_ & ? & _)|].
  intros x y i [Hx|Hx]%elem_of_union H1 H2; destruct (closed _ _ _ _ _ _ En x y i H1 H2); set_solver.
Qed.
Lemma fixed_iff central radius min_common max_shots interior boundary i x : neighbourhood central radius min_common max_shots = Ok (interior, boundary) -> shot_in s x i ->
  (x ∈ interior -> fixed_by s boundary i = false) /\ (x ∈ boundary -> fixed_by s boundary i = true).
Proof.
  intros En Hx. destruct (local_ok _ _ _ _ _ _ En) as (_ & Hdis & _). unfold fixed_by. split; intros Hin.
  - apply bool_decide_eq_false_2. intros Hne. apply set_choose_L in Hne as [y Hy]. apply elem_of_intersection in Hy as [Hy Hb]. apply in_members in Hy.
    destruct (closed _ _ _ _ _ _ En x y i Hx Hy) as [H _]. specialize (H Hin). set_solver.
  - apply bool_decide_eq_true_2. intros He. assert (x ∈ members_of s i ∩ boundary) as H; [|rewrite He in H; set_solver]. apply elem_of_intersection. split; [by apply in_members|done].
Qed.

(** ** the local adjustment *)
(** The problem it builds: cameras and rig cameras are constant; the instances of the interior move, those of the boundary
    are constant, no other is there; the points are those seen from the interior, and move; every observation of the
    interior is used once, those of the boundary once if the point is one of them, and no other; an instance that moves
    has as prior the mean of the positions of its shots. *)
Theorem C52_local_problem central radius min_common max_shots interior boundary : neighbourhood central radius min_common max_shots = Ok (interior, boundary) ->
  exists p ids points, local_problem interior boundary = Ok (p, ids, points) /\
  (forall c v k, p_cameras p !! c = Some (v, k) -> cameras s !! c = Some v /\ k = true) /\
  (forall c v k, p_rig_cameras p !! c = Some (v, k) -> rig_cameras s !! c = Some v /\ k = true) /\
  (forall x i, x ∈ interior -> shot_in s x i -> exists pose, instances s !! i = Some pose /\ p_instances p !! i = Some (pose, false)) /\
  (forall x i, x ∈ boundary -> shot_in s x i -> exists pose, instances s !! i = Some pose /\ p_instances p !! i = Some (pose, true)) /\
  (forall i, (forall x, shot_in s x i -> x ∉ interior /\ x ∉ boundary) -> p_instances p !! i = None) /\
  (forall x d, x ∈ interior ∪ boundary -> shots s !! x = Some d -> p_shots p !! x = Some (s_camera d, s_rig_camera d, s_instance d)) /\
  (forall lm, lm ∈ points <-> exists x o, x ∈ interior /\ observes s x lm o) /\
  (forall lm, p_points p !! lm = if decide (lm ∈ points) then (fun v => (v.1, false)) <$> landmarks s !! lm else None) /\
  NoDup (p_obs p).*1 /\
  (forall x lm o, (x, lm, o) ∈ p_obs p <-> observes s x lm o /\ (x ∈ interior \/ x ∈ boundary /\ lm ∈ points)) /\
  (forall x i, x ∈ interior -> shot_in s x i -> p_priors p !! i = if use_gps then mean (gps_list (located accuracy0) s i) else None) /\
  (forall x i, x ∈ boundary -> shot_in s x i -> p_priors p !! i = None).
Proof.
  intros En. destruct (local_ok _ _ _ _ _ _ En) as (Hd & Hdis & Hw).
  destruct (local_problem_ok bias0 accuracy0 enum Henum camera_priors rig_camera_priors use_gps s Hs interior boundary Hd Hw) as (ids & rcs & Hids & ->).
  eexists _, ids, _. split; [reflexivity|]. cbn [p_cameras p_rig_cameras p_instances p_shots p_points p_obs p_priors].
  assert (forall i x, shot_in s x i -> i ∈ dom (instances s)) as Hinst by (intros i x (d & Hx & <-); by eapply w_instance).
  assert (forall x i, x ∈ interior ∪ boundary -> shot_in s x i -> i ∈ ids) as Hin by (intros x i Hx Hi; apply Hids; eauto).
  assert (forall lm, lm ∈ seen s (enum interior) <-> exists x o, x ∈ interior /\ observes s x lm o) as Hseen.
  { intros lm. rewrite (seen_in enum Henum camera_priors rig_camera_priors s Hs). split; intros (x & o & Hx & Ho); exists x, o; (split; [by apply (enum_in enum Henum)|done]). }
  split; [intros c v k; rewrite blocks_lookup; destruct (decide _); [|done]; destruct (cameras s !! c); [|done]; cbn; by intros [= -> <-]|].
  split; [intros c v k; rewrite blocks_lookup; destruct (decide _); [|done]; destruct (rig_cameras s !! c); [|done]; cbn; by intros [= -> <-]|].
  split. { intros x i Hx Hi. destruct (proj1 (elem_of_dom (instances s) i) (Hinst i x Hi)) as [pose Hp]. exists pose. split; [done|]. rewrite blocks_lookup. rewrite decide_True by (apply (Hin x i); [set_solver|done]).
    rewrite Hp. cbn. destruct (fixed_iff _ _ _ _ _ _ i x En Hi) as [Hf _]. by rewrite Hf. }
  split. { intros x i Hx Hi. destruct (proj1 (elem_of_dom (instances s) i) (Hinst i x Hi)) as [pose Hp]. exists pose. split; [done|]. rewrite blocks_lookup. rewrite decide_True by (apply (Hin x i); [set_solver|done]).
    rewrite Hp. cbn. destruct (fixed_iff _ _ _ _ _ _ i x En Hi) as [_ Hf]. by rewrite Hf. }
  split. { intros i Hi. rewrite blocks_lookup. rewrite decide_False; [done|]. intros (x & Hx & Hxi)%Hids. destruct (Hi x Hxi). set_solver. }
  split. { intros x d Hx Hxd. rewrite shot_map_lookup, Hxd. cbn. rewrite decide_True; [done|]. apply (Hin x); [done|by exists d]. }
  split; [exact Hseen|]. split. { intros lm. rewrite blocks_lookup, lookup_fmap. destruct (decide _); [|done]. by destruct (landmarks s !! lm). }
  split. { rewrite fmap_app. apply NoDup_app. split; [apply (concat_nodup enum Henum), enum_nodup; done|]. split; [|apply (concat_nodup enum Henum), enum_nodup; done].
    intros [y lm] ([[? ?] o] & E1 & H1)%elem_of_list_fmap ([[? ?] o'] & E2 & H2)%elem_of_list_fmap. cbn in E1, E2. injection E1 as <- <-. injection E2 as <- <-.
    apply (concat_in enum Henum) in H1 as (H1 & _). apply (concat_in enum Henum) in H2 as (H2 & _). apply (enum_in enum Henum) in H1, H2. set_solver. }
  split. { intros x lm o. rewrite elem_of_app, !(concat_in enum Henum), !(enum_in enum Henum), bool_decide_eq_true. naive_solver. }
  split.
  - intros x i Hx Hi. rewrite prior_map_lookup by (by eapply Hinst). rewrite decide_True by (apply (Hin x i); [set_solver|done]). unfold local_prior. destruct (fixed_iff _ _ _ _ _ _ i x En Hi) as [Hf _]. rewrite Hf by done.
    destruct use_gps; [done|]. assert (forall l : list (string * @shot O), omap (fun '(_, d) => loc accuracy0 false d) l = []) as E0 by (induction l as [|[? ?] l IH]; cbn; done).
    unfold gps_list. by rewrite E0.
  - intros x i Hx Hi. rewrite prior_map_lookup by (by eapply Hinst). rewrite decide_True by (apply (Hin x i); [set_solver|done]). unfold local_prior. destruct (fixed_iff _ _ _ _ _ _ i x En Hi) as [_ Hf]. by rewrite Hf.
Qed.

(** It succeeds for every shot of the map and raises for any other. It changes nothing but the poses of the instances of
    the interior and the points seen from there: these take the values found by the minimiser. *)
Theorem C52_local central radius min_common max_shots :
  match bundle_local central radius min_common max_shots with
  | Err e => e = RuntimeError /\ central ∉ dom (shots s)
  | Ok (s', points) => central ∈ dom (shots s) /\ exists interior boundary p ids, neighbourhood central radius min_common max_shots = Ok (interior, boundary) /\
      local_problem interior boundary = Ok (p, ids, points) /\
      cameras s' = cameras s /\ biases s' = biases s /\ rig_cameras s' = rig_cameras s /\ shots s' = shots s /\ dom (instances s') = dom (instances s) /\ dom (landmarks s') = dom (landmarks s) /\
      (forall i, (forall x, shot_in s x i -> x ∉ interior) -> instances s' !! i = instances s !! i) /\
      (forall x i, x ∈ interior -> shot_in s x i -> instances s' !! i = fst <$> p_instances (solve p) !! i) /\
      (forall lm, lm ∉ points -> landmarks s' !! lm = landmarks s !! lm) /\
      (forall lm, lm ∈ points -> landmarks s' !! lm = (fun v => (v.1, errors (solve p) lm)) <$> p_points (solve p) !! lm)
  end.
Proof.
  pose proof (C51_defined _ _ shots_dom enum Henum sort_counts Hsort central radius min_common max_shots) as Hc.
  assert (dom (shot_instances s) = dom (shots s)) as Edom by (unfold shot_instances; by rewrite dom_fmap_L). rewrite Edom in Hc.
  unfold BundleModel.bundle_local. destruct (neighbourhood central radius min_common max_shots) as [[interior boundary]|e] eqn:En; cbn [res_bind]; [|done].
  destruct (C52_local_problem _ _ _ _ _ _ En) as (p & ids & points & Ep & _ & _ & Hint & Hbound & Hnone & _ & Hpts & Hpoints & _ & _ & _).
  destruct (local_ok _ _ _ _ _ _ En) as (Hd & Hdis & Hw).
  destruct (local_problem_ok bias0 accuracy0 enum Henum camera_priors rig_camera_priors use_gps s Hs interior boundary Hd Hw) as (ids' & rcs & Hids & E').
  rewrite Ep in E'. injection E' as Ep' Eids Epts. subst ids'. rewrite Ep. cbn [res_bind].
  destruct (Hsolve p) as (_ & _ & _ & [Ki Kf] & [_ Kp]).
  assert (ids ⊆ dom (instances s)) as Hsub. { intros i (x & _ & d & Hx & <-)%Hids. by eapply w_instance. }
  assert (forall i, i ∈ ids -> is_Some (p_instances (solve p) !! i)) as Hsol.
  { intros i (x & [Hx|Hx]%elem_of_union & Hi)%Hids; [destruct (Hint x i Hx Hi) as (pose & _ & H); apply Kf in H as [? ->]; eauto|destruct (Hbound x i Hx Hi) as (pose & _ & H); apply Ki in H as ->; eauto]. }
  assert (points ⊆ dom (landmarks s)) as Hplm. { intros lm (x & o & _ & d & Hx & Ho)%Hpts. apply (w_landmarks _ _ s Hs x d Hx), elem_of_dom. eauto. }
  assert (forall lm, lm ∈ points -> is_Some (p_points (solve p) !! lm)) as Hpsol.
  { intros lm Hlm. specialize (Hpoints lm). rewrite decide_True in Hpoints by done. apply Hplm, elem_of_dom in Hlm as [v Hv]. rewrite Hv in Hpoints. cbn in Hpoints. apply Kp in Hpoints as [? ->]. eauto. }
  destruct (write_instances_ok enum Henum camera_priors rig_camera_priors s Hs s (solve p) ids) as (m & -> & Hm); [done|intros i Hi; by apply elem_of_dom, Hsol|]. cbn [res_bind].
  destruct (write_points_ok enum Henum camera_priors rig_camera_priors s Hs errors (Scene (cameras s) (biases s) (rig_cameras s) m (shots s) (landmarks s)) (solve p) points) as (m2 & -> & Hm2); [intros i Hi; by apply elem_of_dom, Hpsol|]. cbn [res_bind cameras biases rig_cameras instances shots landmarks] in *.
  split; [done|]. exists interior, boundary, p, ids. split; [done|]. split; [done|]. do 4 (split; [done|]). split; [|split; [|split; [|split; [|split]]]].
  - apply set_eq. intros i. rewrite !elem_of_dom, Hm. destruct (decide (i ∈ ids)) as [Hi|Hi]; [|done]. destruct (Hsol i Hi) as [? ->]. pose proof (Hsub i Hi) as [? ->]%elem_of_dom. cbn. split; eauto.
  - apply set_eq. intros i. rewrite !elem_of_dom, Hm2. destruct (decide (i ∈ points)) as [Hi|Hi]; [|done]. destruct (Hpsol i Hi) as [? ->]. pose proof (Hplm i Hi) as [? ->]%elem_of_dom. cbn. split; eauto.
  - intros i Hi. rewrite Hm. destruct (decide (i ∈ ids)) as [Hin|Hin]; [|done]. apply Hids in Hin as (x & [Hx|Hx]%elem_of_union & Hxi); [by destruct (Hi x Hxi)|].
    destruct (Hbound x i Hx Hxi) as (pose & -> & H). apply Ki in H as ->. done.
  - intros x i Hx Hi. rewrite Hm. rewrite decide_True; [done|]. apply Hids. exists x. split; [set_solver|done].
  - intros lm Hlm. rewrite Hm2. by rewrite decide_False.
  - intros lm Hlm. rewrite Hm2. by rewrite decide_True.
Qed.

(** ** the adjustment of the poses of some shots *)
(** Cameras, rig cameras and points are constant; an instance moves when all its shots are among those given; every
    observation of the shots given is used once and no other. *)
Theorem C52_poses_problem shot_ids : shot_ids ⊆ dom (shots s) ->
  exists p ids, poses_problem shot_ids = Ok (p, ids) /\ (forall i, i ∈ ids <-> exists x, x ∈ shot_ids /\ shot_in s x i) /\
  (forall c v k, p_cameras p !! c = Some (v, k) -> cameras s !! c = Some v /\ k = true) /\
  (forall c v k, p_rig_cameras p !! c = Some (v, k) -> rig_cameras s !! c = Some v /\ k = true) /\
  (forall i, i ∉ ids -> p_instances p !! i = None) /\
  (forall i, i ∈ ids -> (forall x, shot_in s x i -> x ∈ shot_ids) -> exists pose, instances s !! i = Some pose /\ p_instances p !! i = Some (pose, false)) /\
  (forall i x, i ∈ ids -> shot_in s x i -> x ∉ shot_ids -> exists pose, instances s !! i = Some pose /\ p_instances p !! i = Some (pose, true)) /\
  (forall x d, shots s !! x = Some d -> s_instance d ∈ ids -> p_shots p !! x = Some (s_camera d, s_rig_camera d, s_instance d)) /\
  (forall lm v k, p_points p !! lm = Some (v, k) -> k = true /\ exists e, landmarks s !! lm = Some (v, e)) /\
  NoDup (p_obs p).*1 /\ (forall x lm o, (x, lm, o) ∈ p_obs p <-> x ∈ shot_ids /\ observes s x lm o) /\
  (** the position prior of an instance of at most two shots that moves *)
  (forall i l, i ∈ ids -> (forall x, x ∈ l <-> shot_in s x i) -> length l <= 2 -> (forall x, shot_in s x i -> x ∈ shot_ids) ->
     p_priors p !! i = if use_gps then mean (gps_list measured s i) else None).
Proof.
  intros Hd. destruct (poses_problem_ok bias0 enum Henum camera_priors rig_camera_priors use_gps s Hs shot_ids Hd) as (ids & rcs & cams & lms & Hids & Hlms & ->).
  eexists _, ids. split; [reflexivity|]. cbn [p_cameras p_rig_cameras p_instances p_shots p_points p_obs p_priors]. split; [done|].
  assert (forall i, i ∈ ids -> i ∈ dom (instances s)) as Hsub. { intros i (x & _ & d & Hx & <-)%Hids. by eapply w_instance. }
  split; [intros c v k; rewrite blocks_lookup; destruct (decide _); [|done]; destruct (cameras s !! c); [|done]; cbn; by intros [= -> <-]|].
  split; [intros c v k; rewrite blocks_lookup; destruct (decide _); [|done]; destruct (rig_cameras s !! c); [|done]; cbn; by intros [= -> <-]|].
  split; [intros i Hi; rewrite blocks_lookup; by rewrite decide_False|].
  split. { intros i Hi Hall. destruct (proj1 (elem_of_dom _ _) (Hsub i Hi)) as [pose Hp]. exists pose. split; [done|]. rewrite blocks_lookup, decide_True by done. rewrite Hp. cbn. unfold outside. rewrite bool_decide_eq_false_2; [done|].
    intros Hn. apply Hn. intros x Hx. by apply Hall, in_members. }
  split. { intros i x Hi Hx Hno. destruct (proj1 (elem_of_dom _ _) (Hsub i Hi)) as [pose Hp]. exists pose. split; [done|]. rewrite blocks_lookup, decide_True by done. rewrite Hp. cbn. unfold outside. rewrite bool_decide_eq_true_2; [done|].
    intros Hn. apply Hno, Hn. by apply in_members. }
  split. { intros x d Hx Hi. rewrite shot_map_lookup, Hx. cbn. by rewrite decide_True. }
  split. { intros lm v k. rewrite blocks_lookup, lookup_fmap. destruct (decide _); [|done]. destruct (landmarks s !! lm) as [[? er]|]; [|done]. cbn. intros [= -> <-]. eauto. }
  split; [apply (concat_nodup enum Henum), enum_nodup; done|]. split; [intros x lm o; rewrite (concat_in enum Henum), (enum_in enum Henum); naive_solver|].
  intros i l Hi Hl Hlen Hall. rewrite prior_map_lookup by (by apply Hsub). rewrite decide_True by done. rewrite (poses_two enum Henum camera_priors rig_camera_priors use_gps s Hs).
  - destruct use_gps; [done|]. assert (forall l : list (string * @shot O), omap (fun '(_, d) => measured_if false d) l = []) as E0 by (induction l0 as [|[? ?] l0 IH]; cbn; done).
    unfold gps_list. by rewrite E0.
  - intros x Hx. by apply Hall, in_members.
  - etrans; [|exact Hlen]. apply NoDup_incl_length; [apply NoDup_ListNoDup, enum_nodup; done|]. intros x Hx. apply elem_of_list_In in Hx. apply elem_of_list_In, Hl, (in_members s). by apply (enum_in enum Henum) in Hx.
Qed.
(** It changes nothing but the poses of instances all of whose shots were given. *)
Theorem C52_poses shot_ids : shot_ids ⊆ dom (shots s) ->
  exists p ids s', poses_problem shot_ids = Ok (p, ids) /\ bundle_shot_poses shot_ids = Ok s' /\
  cameras s' = cameras s /\ biases s' = biases s /\ rig_cameras s' = rig_cameras s /\ shots s' = shots s /\ landmarks s' = landmarks s /\ dom (instances s') = dom (instances s) /\
  (forall i, (i ∉ ids \/ exists x, shot_in s x i /\ x ∉ shot_ids) -> instances s' !! i = instances s !! i) /\
  (forall i, i ∈ ids -> instances s' !! i = fst <$> p_instances (solve p) !! i).
Proof.
  intros Hd. destruct (C52_poses_problem shot_ids Hd) as (p & ids & Ep & Hids & _ & _ & _ & Hfree & Hfix & _). exists p, ids.
  unfold BundleModel.bundle_shot_poses. rewrite Ep. cbn [res_bind]. destruct (Hsolve p) as (_ & _ & _ & [Ki Kf] & _).
  assert (ids ⊆ dom (instances s)) as Hsub. { intros i (x & _ & d & Hx & <-)%Hids. by eapply w_instance. }
  assert (forall i, i ∈ ids -> is_Some (p_instances (solve p) !! i)) as Hsol.
  { intros i Hi. destruct (decide (members_of s i ⊆ shot_ids)) as [Hin|Hout].
    - destruct (Hfree i Hi) as (pose & _ & H); [intros x Hx; by apply Hin, in_members|]. apply Kf in H as [? ->]. eauto.
    - assert (exists x, x ∈ members_of s i /\ x ∉ shot_ids) as (x & Hx & Hno).
      { destruct (decide (set_Exists (fun x => x ∉ shot_ids) (members_of s i))) as [He|Hne]; [done|]. exfalso. apply Hout. intros x Hx. destruct (decide (x ∈ shot_ids)); [done|]. exfalso. apply Hne. by exists x. }
      apply in_members in Hx. destruct (Hfix i x Hi Hx Hno) as (pose & _ & H). apply Ki in H as ->. eauto. }
  destruct (write_instances_ok enum Henum camera_priors rig_camera_priors s Hs s (solve p) ids) as (m & -> & Hm); [done|intros i Hi; by apply elem_of_dom, Hsol|].
  eexists. split; [done|]. split; [reflexivity|]. cbn [cameras biases rig_cameras instances shots landmarks]. do 5 (split; [done|]). split; [|split].
  - apply set_eq. intros i. rewrite !elem_of_dom, Hm. destruct (decide (i ∈ ids)) as [Hi|Hi]; [|done]. destruct (Hsol i Hi) as [? ->]. pose proof (Hsub i Hi) as [? ->]%elem_of_dom. cbn. split; eauto.
  - intros i Hi. rewrite Hm. destruct (decide (i ∈ ids)) as [Hin|Hin]; [|done]. destruct Hi as [Hi|(x & Hx & Hno)]; [done|]. destruct (Hfix i x Hin Hx Hno) as (pose & -> & H). apply Ki in H as ->. done.
  - intros i Hi. rewrite Hm. by rewrite decide_True.
Qed.

(** ** the full adjustment *)
(** Every instance and every landmark moves, every observation is used once, and the prior of an instance is the mean of
    the positions of its shots; the accuracies must be positive. *)
Definition accurate : Prop := forall x d p a, use_gps = true -> shots s !! x = Some d -> s_gps d = Some p -> s_accuracy d = Some a -> (0 < a)%R.
Theorem C52_full_problem fix_cameras compensate : accurate ->
  exists p, full_problem fix_cameras compensate = Ok p /\
  (forall c, p_cameras p !! c = (fun v => (v, fix_cameras)) <$> cameras s !! c) /\
  (forall c, p_biases p !! c = if compensate then (fun b => (b, false)) <$> biases s !! c else (fun _ => (bias0, true)) <$> cameras s !! c) /\
  (forall c, p_rig_cameras p !! c = (fun v => (v, lock_rig_camera s c)) <$> rig_cameras s !! c) /\
  (forall i, p_instances p !! i = (fun v => (v, false)) <$> instances s !! i) /\
  (forall x, p_shots p !! x = (fun d => (s_camera d, s_rig_camera d, s_instance d)) <$> shots s !! x) /\
  (forall lm, p_points p !! lm = (fun v => (v.1, false)) <$> landmarks s !! lm) /\
  NoDup (p_obs p).*1 /\ (forall x lm o, (x, lm, o) ∈ p_obs p <-> observes s x lm o) /\
  (forall i, i ∈ dom (instances s) -> p_priors p !! i = if use_gps then mean (gps_list measured s i) else None).
Proof.
  intros Hacc. eexists. split; [apply (full_problem_ok bias0 enum Henum camera_priors rig_camera_priors use_gps s Hs)|].
  { intros x d p a Hx Hm. unfold measured_if, measured in Hm. destruct use_gps eqn:Eu; [|done]. destruct (s_gps d) eqn:E1; [|done]. destruct (s_accuracy d) eqn:E2; [|done]. injection Hm as <- <-. by eapply Hacc. }
  cbn [p_cameras p_biases p_rig_cameras p_instances p_shots p_points p_obs p_priors].
  assert (forall T (k : string -> bool) (m : gmap string T) id, blocks k (dom m) m !! id = (fun v => (v, k id)) <$> m !! id) as Hb.
  { intros T k m id. rewrite blocks_lookup. destruct (decide (id ∈ dom m)) as [|Hn]; [done|]. apply not_elem_of_dom in Hn. by rewrite Hn. }
  split; [intros c; by rewrite Hb|]. split. { intros c. destruct compensate; [rewrite <- (w_biases _ _ s Hs); by rewrite Hb|]. rewrite lookup_gset_to_gmap. destruct (decide (c ∈ dom (cameras s))) as [Hc|Hc].
    - rewrite option_guard_True by done. apply elem_of_dom in Hc as [? ->]. done.
    - rewrite option_guard_False by done. apply not_elem_of_dom in Hc as ->. done. }
  split; [intros c; by rewrite Hb|]. split; [intros c; by rewrite Hb|].
  split. { intros x. rewrite shot_map_lookup. destruct (shots s !! x) as [d|] eqn:Hx; [|done]. cbn. rewrite decide_True; [done|]. by eapply w_instance. }
  split. { intros lm. rewrite blocks_lookup, lookup_fmap. destruct (decide (lm ∈ dom (landmarks s))) as [|Hn]; [by destruct (landmarks s !! lm)|]. apply not_elem_of_dom in Hn. by rewrite Hn. }
  split; [apply (concat_nodup enum Henum), enum_nodup; done|]. split.
  { intros x lm o. rewrite (concat_in enum Henum), (enum_in enum Henum), elem_of_dom. split; [naive_solver|]. intros (d & Hx & Ho). split; [eauto|]. split; [done|by exists d]. }
  intros i Hi. rewrite prior_map_lookup by done. rewrite decide_True by done. unfold full_prior. destruct use_gps; [done|].
  assert (forall l : list (string * @shot O), omap (fun '(_, d) => measured_if false d) l = []) as E0 by (induction l as [|[? ?] l IH]; cbn; done). unfold gps_list. by rewrite E0.
Qed.
(** It raises when a value found by the minimiser is not finite; otherwise every instance, landmark, rig camera and bias,
    and the cameras if they are optimised, take the values found by the minimiser; the shots are not changed. *)
Theorem C52_full optimize_cameras compensate : accurate -> exists p, full_problem (negb optimize_cameras) compensate = Ok p /\
  match bundle optimize_cameras compensate with
  | Err e => e = RuntimeError /\ ((exists i v, p_biases (solve p) !! i = Some v /\ bias_valid v.1 = false) \/ (exists i v, p_instances (solve p) !! i = Some v /\ pose_valid v.1 = false) \/
      (exists i v, p_rig_cameras (solve p) !! i = Some v /\ pose_valid v.1 = false) \/ (exists i v, p_points (solve p) !! i = Some v /\ point_valid v.1 = false))
  | Ok s' => shots s' = shots s /\ dom (cameras s') = dom (cameras s) /\ dom (rig_cameras s') = dom (rig_cameras s) /\ dom (instances s') = dom (instances s) /\ dom (landmarks s') = dom (landmarks s) /\
      (forall i, i ∈ dom (instances s) -> instances s' !! i = fst <$> p_instances (solve p) !! i) /\
      (forall lm, lm ∈ dom (landmarks s) -> landmarks s' !! lm = (fun v => (v.1, errors (solve p) lm)) <$> p_points (solve p) !! lm) /\
      (forall c, c ∈ dom (rig_cameras s) -> rig_cameras s' !! c = fst <$> p_rig_cameras (solve p) !! c) /\
      (forall c, c ∈ dom (cameras s) -> cameras s' !! c = if optimize_cameras then fst <$> p_cameras (solve p) !! c else cameras s !! c) /\
      (forall c, c ∈ dom (cameras s) -> biases s' !! c = fst <$> p_biases (solve p) !! c) /\
      (forall i v, biases s' !! i = Some v -> bias_valid v = true) /\ (forall i v, rig_cameras s' !! i = Some v -> pose_valid v = true) /\
      (forall i v, instances s' !! i = Some v -> pose_valid v = true) /\ (forall i v, landmarks s' !! i = Some v -> point_valid v.1 = true)
  end.
Proof.
  intros Hacc. destruct (C52_full_problem (negb optimize_cameras) compensate Hacc) as (p & Ep & H1 & H2 & H3 & H4 & H5 & H6 & _). exists p. split; [done|].
  unfold BundleModel.bundle. rewrite Ep. cbn [res_bind]. destruct (Hsolve p) as (K1 & K2 & K3 & K4 & K5).
  assert (forall T (m z : gmap string (T * bool)) i, keeps m z -> is_Some (m !! i) -> is_Some (z !! i)) as Hk.
  { intros T m z i [Ka Kb] [[v [|]] Hv]; [apply Ka in Hv|apply Kb in Hv as [? Hv]]; eauto. }
  assert (forall c, c ∈ dom (cameras s) -> is_Some (p_cameras (solve p) !! c)) as D1. { intros c Hc. eapply Hk; [exact K1|]. rewrite H1. apply elem_of_dom in Hc as [? ->]. cbn. eauto. }
  assert (forall c, c ∈ dom (biases s) -> is_Some (p_biases (solve p) !! c)) as D2.
  { intros c Hc. eapply Hk; [exact K2|]. rewrite H2. destruct compensate; [apply elem_of_dom in Hc as [? ->]; cbn; eauto|]. rewrite (w_biases _ _ s Hs) in Hc. apply elem_of_dom in Hc as [? ->]. cbn. eauto. }
  assert (forall c, c ∈ dom (rig_cameras s) -> is_Some (p_rig_cameras (solve p) !! c)) as D3. { intros c Hc. eapply Hk; [exact K3|]. rewrite H3. apply elem_of_dom in Hc as [? ->]. cbn. eauto. }
  assert (forall c, c ∈ dom (instances s) -> is_Some (p_instances (solve p) !! c)) as D4. { intros c Hc. eapply Hk; [exact K4|]. rewrite H4. apply elem_of_dom in Hc as [? ->]. cbn. eauto. }
  assert (forall c, c ∈ dom (landmarks s) -> is_Some (p_points (solve p) !! c)) as D5. { intros c Hc. eapply Hk; [exact K5|]. rewrite H6. apply elem_of_dom in Hc as [? ->]. cbn. eauto. }
  destruct (bundle_to_map_ok enum Henum camera_priors rig_camera_priors s Hs errors pose_valid bias_valid point_valid (solve p) optimize_cameras) as [(s' & -> & W0 & W1 & W2 & W3 & W4 & W5 & W6)|(-> & W)];
    [intros c Hc; by apply elem_of_dom, D1|intros c Hc; by apply elem_of_dom, D2|intros c Hc; by apply elem_of_dom, D3|intros c Hc; by apply elem_of_dom, D4|intros c Hc; by apply elem_of_dom, D5| |].
  - split; [done|]. split; [|split; [|split; [|split; [|split; [|split; [|split; [|split; [|split; [|exact W6]]]]]]]]].
    + apply set_eq. intros c. rewrite !elem_of_dom, W1. destruct optimize_cameras; [|done]. destruct (decide (c ∈ dom (cameras s))) as [Hc|Hc].
      * destruct (D1 c Hc) as [? ->]. apply elem_of_dom in Hc as [? ->]. cbn. split; eauto.
      * apply not_elem_of_dom in Hc as ->. done.
    + apply set_eq. intros c. rewrite !elem_of_dom, W3. destruct (decide (c ∈ dom (rig_cameras s))) as [Hc|Hc].
      * destruct (D3 c Hc) as [? ->]. apply elem_of_dom in Hc as [? ->]. cbn. split; eauto.
      * apply not_elem_of_dom in Hc as ->. done.
    + apply set_eq. intros c. rewrite !elem_of_dom, W4. destruct (decide (c ∈ dom (instances s))) as [Hc|Hc].
      * destruct (D4 c Hc) as [? ->]. apply elem_of_dom in Hc as [? ->]. cbn. split; eauto.
      * apply not_elem_of_dom in Hc as ->. done.
    + apply set_eq. intros c. rewrite !elem_of_dom, W5. destruct (decide (c ∈ dom (landmarks s))) as [Hc|Hc].
      * destruct (D5 c Hc) as [? ->]. apply elem_of_dom in Hc as [? ->]. cbn. split; eauto.
      * apply not_elem_of_dom in Hc as ->. done.
    + intros i Hi. rewrite W4. by rewrite decide_True.
    + intros i Hi. rewrite W5. by rewrite decide_True.
    + intros i Hi. rewrite W3. by rewrite decide_True.
    + intros i Hi. rewrite W1. destruct optimize_cameras; [by rewrite decide_True|done].
    + intros i Hi. rewrite W2. rewrite decide_True; [done|]. by rewrite (w_biases _ _ s Hs).
  - split; [done|]. destruct W as [(i & v & _ & ? & ?)|[(i & v & _ & ? & ?)|[(i & v & _ & ? & ?)|(i & v & _ & ? & ?)]]]; [left|right; left|right; right; left|right; right; right]; eauto.
Qed.
(** A rig camera that is the lever arm of a camera is kept, and so are all with at most ten shots per rig camera (at most 10
    in whole numbers). *)
Corollary C52_full_rig_cameras optimize_cameras compensate s' c : accurate -> bundle optimize_cameras compensate = Ok s' ->
  c ∈ dom (cameras s) \/ (0 < size (rig_cameras s) /\ size (shots s) < 11 * size (rig_cameras s)) -> c ∈ dom (rig_cameras s) -> rig_cameras s' !! c = rig_cameras s !! c.
Proof.
  intros Hacc Eb Hc Hd. destruct (C52_full optimize_cameras compensate Hacc) as (p & Ep & H). rewrite Eb in H. destruct H as (_ & _ & _ & _ & _ & _ & _ & Hr & _). rewrite Hr by done.
  destruct (C52_full_problem (negb optimize_cameras) compensate Hacc) as (p' & Ep' & _ & _ & H3 & _). rewrite Ep in Ep'. injection Ep' as <-. specialize (H3 c). pose proof Hd as [v Hv]%elem_of_dom. rewrite Hv in H3. cbn in H3.
  assert (lock_rig_camera s c = true) as El.
  { unfold lock_rig_camera. apply orb_true_iff. destruct Hc as [Hc|[Hc1 Hc2]]; [left; by apply bool_decide_eq_true_2|right]. apply bool_decide_eq_true_2. rewrite decide_True by done.
    assert (size (shots s) / size (rig_cameras s) < 11); [|lia]. apply Nat.div_lt_upper_bound; lia. }
  rewrite El in H3. destruct (Hsolve p) as (_ & _ & [Ki _] & _). apply Ki in H3 as ->. by rewrite Hv.
Qed.
(** An accuracy that is not positive is refused before anything is changed. *)
Theorem C52_full_accuracy_refused optimize_cameras compensate x d p a : use_gps = true -> shots s !! x = Some d -> s_gps d = Some p -> s_accuracy d = Some a -> (a <= 0)%R ->
  bundle optimize_cameras compensate = Err RuntimeError.
Proof.
  intros Hu Hx Hg Ha Hle. unfold BundleModel.bundle, BundleModel.full_problem.
  rewrite (add_cameras_ok bias0 enum Henum camera_priors rig_camera_priors s Hs) by done. cbn [res_bind]. rewrite (add_points_ok enum Henum camera_priors rig_camera_priors s Hs) by done. cbn [res_bind].
  rewrite (add_rig_cameras_ok enum Henum camera_priors rig_camera_priors s Hs) by done. cbn [res_bind].
  assert (forall A X (f : A -> X -> res A) l y, y ∈ l -> (forall a x e, f a x = Err e -> e = RuntimeError) -> (forall a, f a y = Err RuntimeError) -> forall a, foldM f a l = Err RuntimeError) as Hfold.
  { intros A X f l y Hy He Hf. induction l as [|z l IH]; [by apply elem_of_nil in Hy|]. intros a'. cbn. apply elem_of_cons in Hy as [<-|Hy]; [by rewrite Hf|].
    destruct (f a' z) as [b|e] eqn:Ef; cbn; [by apply IH|]. by rewrite (He _ _ _ Ef). }
  rewrite (Hfold _ _ (full_instance enum use_gps s) (enum (dom (instances s))) (s_instance d)); [done| | |].
  - apply (enum_in enum Henum). by eapply w_instance.
  - intros q i e. unfold full_instance. destruct (instances s !! i) as [pose|]; cbn; [|congruence].
    assert (forall l a0 e, foldM (full_member use_gps s) a0 l = Err e -> e = RuntimeError) as He.
    { induction l as [|y l IH]; intros a0 e0; cbn; [done|]. unfold full_member at 1. destruct a0 as [g l0]. destruct (shots s !! y) as [dy|]; cbn; [|congruence].
      destruct use_gps, (s_gps dy), (s_accuracy dy); cbn; try (by apply IH). destruct (Rle_dec _ _); cbn; [congruence|by apply IH]. }
    destruct (foldM _ _ _) as [[g l]|e1] eqn:E1; cbn; [|intros [= <-]; by eapply He].
    assert (forall l (q : problem) e, foldM (fun (p : problem) '(shot_id, camera_id, rig_camera_id) =>
      if decide (is_Some (p_cameras p !! camera_id)) then if decide (is_Some (p_rig_cameras p !! rig_camera_id)) then
        Ok (set_instances p (p_instances p) (match p_shots p !! shot_id with Some _ => p_shots p | None => <[shot_id := (camera_id, rig_camera_id, i)]> (p_shots p) end)) else Err RuntimeError else Err RuntimeError) q l = Err e -> e = RuntimeError) as Hm.
    { induction l0 as [|[[y cy] ry] l0 IH]; intros q0 e0; cbn; [done|]. destruct (decide _); [destruct (decide _)|]; cbn; [by apply IH|congruence|congruence]. }
    destruct (add_rig_instance q i pose l false) as [q1|e1] eqn:E2; cbn.
    + destruct (decide _); [|done]. unfold add_position_prior. destruct (p_instances q1 !! i); congruence.
    + intros [= <-]. unfold add_rig_instance in E2. by eapply Hm.
  - intros q. unfold full_instance. destruct (proj1 (elem_of_dom (instances s) (s_instance d)) (w_instance _ _ s Hs x d Hx)) as [pose ->]. cbn [of_option res_bind].
    rewrite (Hfold _ _ (full_member use_gps s) (enum (members_of s (s_instance d))) x); [done| | |].
    + apply (enum_in enum Henum), in_members. by exists d.
    + intros [g l] y e. unfold full_member. destruct (shots s !! y) as [dy|]; cbn; [|congruence]. destruct use_gps, (s_gps dy), (s_accuracy dy); cbn; try done. destruct (Rle_dec _ _); cbn; congruence.
    + intros [g l]. unfold full_member. rewrite Hx. cbn. rewrite Hu, Hg, Ha. by destruct (Rle_dec a 0).
Qed.
(** Without bias compensation one expects the biases of the map to be kept. They are all reset. *)
Theorem C52_bias_kept_refuted optimize_cameras s' c : accurate -> bundle optimize_cameras false = Ok s' -> c ∈ dom (cameras s) -> biases s' !! c = Some bias0.
Proof.
  intros Hacc Eb Hd. destruct (C52_full optimize_cameras false Hacc) as (p & Ep & H). rewrite Eb in H. destruct H as (_ & _ & _ & _ & _ & _ & _ & _ & _ & Hb & _). rewrite Hb by done.
  destruct (C52_full_problem (negb optimize_cameras) false Hacc) as (p' & Ep' & _ & H2 & _). rewrite Ep in Ep'. injection Ep' as <-. specialize (H2 c). cbn in H2. apply elem_of_dom in Hd as [v Hv]. rewrite Hv in H2. cbn in H2.
  destruct (Hsolve p) as (_ & [Ki _] & _). apply Ki in H2 as ->. done.
Qed.
End C52.

(** ** Positions of more than two shots *)
(** Three shots taken by one rig instance, all at (3, 0, 0) *)
Definition ex_shot (o : gmap string nat) : @shot nat := Shot "c" "r" "i" o (Some (Vec 3 0 0)) (Some 1%R).
Definition ex_scene : @scene nat nat nat nat nat nat :=
  Scene {["c" := 0]} {["c" := 7]} {["r" := 0]} {["i" := 0]} (<["x" := ex_shot {["l" := 5]}]> (<["y" := ex_shot ∅]> (<["z" := ex_shot ∅]> ∅))) {["l" := (0, 0)]}.
Lemma ex_shots x d : shots ex_scene !! x = Some d -> exists o, d = ex_shot o /\ dom o ⊆ {["l"]}.
Proof.
  cbn. rewrite !lookup_insert_Some, lookup_empty. intros [[_ <-]|[_ [[_ <-]|[_ [[_ <-]|[_ ?]]]]]]; try done; eexists; (split; [reflexivity|]); set_solver.
Qed.
Example ex_well_formed : well_formed {["c"]} {["r"]} ex_scene.
Proof.
  split; try (intros x d (o & -> & Ho)%ex_shots; cbn); cbn [ex_scene cameras biases rig_cameras instances landmarks]; rewrite ?dom_singleton_L; set_solver.
Qed.
Lemma ex_members : elements (members_of ex_scene "i") ≡ₚ ["x"; "y"; "z"].
Proof.
  apply NoDup_Permutation; [apply NoDup_elements|repeat constructor; set_solver|]. intros x. rewrite elem_of_elements, in_members. unfold shot_in. split.
  - intros (d & Hd & _). revert Hd. cbn. rewrite !lookup_insert_Some, lookup_empty. set_solver.
  - intros Hx. assert (is_Some (shots ex_scene !! x)) as [d Hd]. { repeat (apply elem_of_cons in Hx as [->|Hx]; [vm_compute; eauto|]). by apply elem_of_nil in Hx. }
    exists d. split; [done|]. apply ex_shots in Hd as (o & -> & _). done.
Qed.
(** One expects as prior of the instance the mean of the positions of its shots, that is (3, 0, 0). It is (2, 0, 0): the sums
    are divided at every shot. *)
Theorem C52_poses_prior_refuted : exists p ids, poses_problem 0 elements {["c"]} {["r"]} true ex_scene {["x"; "y"; "z"]} = Ok (p, ids) /\
  p_instances p !! "i" = Some (0, false) /\ p_priors p !! "i" = Some (Vec 2 0 0, (2 / 3)%R) /\ mean (gps_list measured ex_scene "i") = Some (Vec 3 0 0, 1%R).
Proof.
  assert (({["x"; "y"; "z"]} : gset string) ⊆ dom (shots ex_scene)) as Hd. { intros x Hx. apply elem_of_dom. rewrite !elem_of_union, !elem_of_singleton in Hx. destruct Hx as [[->| ->]| ->]; vm_compute; eauto. }
  assert (forall x, shot_in ex_scene x "i" -> x ∈ ({["x"; "y"; "z"]} : gset string)) as Hin.
  { intros x Hx. apply (in_members ex_scene), elem_of_elements in Hx. rewrite ex_members in Hx. set_solver. }
  destruct (poses_problem_ok 0 elements (fun _ => Permutation_refl _) {["c"]} {["r"]} true ex_scene ex_well_formed {["x"; "y"; "z"]} Hd) as (ids & rcs & cams & lms & Hids & _ & Ep).
  assert ("i" ∈ ids) as Hi. { apply Hids. exists "x". split; [set_solver|]. eexists. split; [reflexivity|done]. }
  eexists _, ids. split; [exact Ep|]. cbn [p_instances p_priors]. split; [|split].
  - rewrite blocks_lookup, decide_True by done. cbn [instances ex_scene]. rewrite lookup_singleton. cbn. unfold outside. rewrite bool_decide_eq_false_2; [done|]. intros Hn. apply Hn. intros x Hx. by apply Hin, in_members.
  - rewrite prior_map_lookup by (cbn; rewrite dom_singleton_L; set_solver). rewrite decide_True by done. unfold poses_prior, poses_run.
    assert (forall x, x ∈ elements (members_of ex_scene "i") -> x ∈ ({["x"; "y"; "z"]} : gset string) /\ shots ex_scene !! x ≫= measured_if true = Some (Vec 3 0 0, 1%R)) as Hm.
    { intros x Hx. apply elem_of_elements, in_members in Hx. split; [by apply Hin|]. destruct Hx as (d & Hx & _). rewrite Hx. apply ex_shots in Hx as (o & -> & _). done. }
    pose proof (Permutation_length ex_members) as Hl. generalize dependent (elements (members_of ex_scene "i")). intros l Hm Hl. clear Ep Hids Hin Hd. destruct l as [|x [|y [|z [|? ?]]]]; [discriminate Hl|discriminate Hl|discriminate Hl| |discriminate Hl]. cbn [foldl].
    destruct (Hm x) as [Hx1 Hx2]; [set_solver|]. destruct (Hm y) as [Hy1 Hy2]; [set_solver|]. destruct (Hm z) as [Hz1 Hz2]; [set_solver|].
    rewrite (poses_step_in true ex_scene) by done. rewrite Hx2. cbn [gps_add gps0 g_count].
    rewrite (poses_step_in true ex_scene) by done. rewrite Hy2. cbn [gps_add gps_divide g_count].
    rewrite (poses_step_in true ex_scene) by done. rewrite Hz2. cbn.
    unfold vadd, vscale, v0. cbn. f_equal. f_equal; [f_equal; field|field].
  - assert (gps_list measured ex_scene "i" ≡ₚ replicate 3 (Vec 3 0 0, 1%R)) as Hp.
    { rewrite <- (gps_perm elements (fun _ => Permutation_refl _) {["c"]} {["r"]} ex_scene ex_well_formed measured "i"). etrans; [apply omap_perm, ex_members|]. reflexivity. }
    rewrite (mean_perm _ _ Hp). unfold mean, sum_positions, sum_accuracies, vscale, vadd, v0. cbn. f_equal. f_equal; [f_equal; field|field].
Qed.
(** non-vacuity: the map of the example is well formed, its accuracies are positive, and its only observation is the only one
    of the full problem *)
Example ex_accurate : accurate true ex_scene.
Proof. intros x d p a _ (o & -> & _)%ex_shots _ [= <-]. lra. Qed.
Example C52_nonvacuous : exists p, full_problem 0 elements {["c"]} {["r"]} true ex_scene false false = Ok p /\ p_obs p = [("x", "l", 5)].
Proof.
  destruct (C52_full_problem (V := nat) (E := nat) 0 elements (fun _ => Permutation_refl _) {["c"]} {["r"]} true ex_scene ex_well_formed false false ex_accurate) as (p & Ep & _ & _ & _ & _ & _ & _ & Hn & Ho & _).
  exists p. split; [done|]. assert (("x", "l", 5) ∈ p_obs p) as H1. { apply Ho. eexists. split; [reflexivity|reflexivity]. }
  assert (forall q, q ∈ p_obs p -> q = ("x", "l", 5)) as H2.
  { intros [[x lm] o] H. apply Ho in H as (d & Hx & Hlm). revert Hx Hlm. cbn. rewrite !lookup_insert_Some, lookup_empty. intros [[<- <-]|[_ [[<- <-]|[_ [[<- <-]|[_ ?]]]]]]; cbn; [|done|done|done].
    rewrite lookup_singleton_Some. by intros [<- <-]. }
  destruct (p_obs p) as [|q1 [|q2 l]]; [by apply elem_of_nil in H1|f_equal; apply H2; set_solver|]. exfalso.
  rewrite (H2 q1), (H2 q2) in Hn by set_solver. cbn in Hn. apply NoDup_cons in Hn as [Hn _]. set_solver.
Qed.

Print Assumptions C52_local_problem. Print Assumptions C52_local. Print Assumptions C52_poses_problem. Print Assumptions C52_poses. Print Assumptions C52_full_problem. Print Assumptions C52_full.
Print Assumptions C52_full_accuracy_refused. Print Assumptions C52_bias_kept_refuted. Print Assumptions C52_poses_prior_refuted.
