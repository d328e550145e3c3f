(** C44: the analytic derivatives of the projections and of the bundle adjustment errors *)
From stdpp Require Import prelude.
From Coq Require Import Reals Lra.
From Coquelicot Require Import Coquelicot.
From Verif Require Import Base Lin CamModel PoseModel FunctorModel ProjModel FunctorSpec ProjSpec FunctorProofs FunctorLeaves FunctorProj FunctorPose FunctorCameras.
Local Open Scope R_scope.
Set Bullet Behavior "Strict Subproofs".

Lemma smooth_domain t x : smooth_point t x -> camera_domain t x.
Proof. destruct t; cbn; auto. Qed.
Lemma camera_size_eq t : ParamSize (Generic (Dispatch t)) = camera_size t.
Proof. destruct t; reflexivity. Qed.
Lemma camera_out t : OutSize (Generic (Dispatch t)) = 2%nat. Proof. reflexivity. Qed.

(** The derivative of Project with respect to the point and to the parameters *)
Theorem C44_project t x params : t <> SPHERICAL -> length x = 3%nat -> length params = camera_size t -> smooth_point t x ->
  let '(value, J) := Generic_ForwardDerivatives (Dispatch t) true x params in
  Some value = Generic_Forward (Dispatch t) x params /\
  derivative_at (3 + camera_size t) 2 (fun v => default [] (Generic_Forward (Dispatch t) (take 3 v) (drop 3 v))) (x ++ params) J.
Proof.
  intros Ht Hx Hp Hs. pose proof (good_camera t true x params (smooth_domain _ _ Hs) (or_intror Ht)) as G.
  pose proof (good_derivative_all _ _ _ G Hx ltac:(rewrite camera_size_eq; exact Hp)) as D. rewrite camera_size_eq in D.
  pose proof (good_value _ _ _ _ G) as V. cbn [Generic ForwardDerivatives Forward InSize OutSize] in V, D.
  destruct (Generic_ForwardDerivatives (Dispatch t) true x params) as [value J]. cbn [fst snd] in *. split; [|exact D].
  rewrite V. destruct t; reflexivity.
Qed.

Ltac conc l n H := let rec go k := match k with O => destruct l; [clear H|discriminate H]
   | S ?k' => let e := fresh "e" in destruct l as [|e l]; [discriminate H|]; go k' end in go n.

Lemma good_pose_camera t d x rt cam : length rt = 6%nat -> epsilon < theta2_of rt -> camera_domain t (Pose_Forward x rt) -> d = false \/ t <> SPHERICAL ->
  good (Compose [Generic (Dispatch t); PoseFunctor]) d x (rt ++ cam).
Proof.
  intros Hl He Hd Ht. conc rt 6%nat Hl.
  apply good_compose; [apply sized_camera|apply sized_compose, sized_Pose|reflexivity| |].
  - apply good_single. apply good_Pose. exact He.
  - apply good_camera; auto.
Qed.
Lemma good_rig_pose_camera t x rt rt' cam : length rt = 6%nat -> length rt' = 6%nat -> epsilon < theta2_of rt -> epsilon < theta2_of rt' ->
  camera_domain t (Pose_Forward (Pose_Forward x rt) rt') -> t <> SPHERICAL ->
  good (Compose [Generic (Dispatch t); PoseFunctor; PoseFunctor]) true x (rt ++ rt' ++ cam).
Proof.
  intros Hl Hl' He He' Hd Ht. conc rt 6%nat Hl. conc rt' 6%nat Hl'.
  apply good_compose; [apply sized_camera|apply sized_compose, sized_Pose|reflexivity| |].
  - apply good_compose; [apply sized_Pose|apply sized_compose, sized_Pose|reflexivity| |].
    + apply good_single. apply good_Pose. exact He.
    + apply good_Pose. exact He'.
  - apply good_camera; auto.
Qed.
Theorem C44_reprojection_error e b : re_type e <> SPHERICAL -> well_formed (camera_size (re_type e)) b -> rotating_poses e b ->
  smooth_point (re_type e) (transformed e b) ->
  let C := camera_size (re_type e) in
  let '(res, (J_camera, J_rig_instance, J_rig_camera, J_point)) := Evaluate2D C e b in
  res = Evaluate2D_residuals C e b /\
  derivative_at C 2 (fun v => Evaluate2D_residuals C e (with_camera b v)) (b_camera b) J_camera /\
  derivative_at 6 2 (fun v => Evaluate2D_residuals C e (with_rig_instance b v)) (b_rig_instance b) J_rig_instance /\
  derivative_at 6 2 (fun v => Evaluate2D_residuals C e (with_rig_camera b v)) (b_rig_camera b) J_rig_camera /\
  derivative_at 3 2 (fun v => Evaluate2D_residuals C e (with_point b v)) (b_point b) J_point.
Proof.
  destruct e as [t obs k rig]. destruct b as [cam inst rc pt]. cbn [re_type re_observed re_scale re_use_rig_camera].
  intros Ht (Hc & Hi & Hr & Hp) [HR1 HR2] Hs. set (C := camera_size t) in *. unfold transformed in Hs.
  cbn [b_camera b_rig_instance b_rig_camera b_point re_use_rig_camera re_type] in *.
  apply smooth_domain in Hs. unfold Evaluate2D, Evaluate2D_residuals, transformed.
  cbn [re_type re_observed re_scale re_use_rig_camera b_camera b_rig_instance b_rig_camera b_point with_camera with_rig_instance with_rig_camera with_point].
  assert (HC : ParamSize (Generic (Dispatch t)) = C) by apply camera_size_eq.
  rewrite (firstn_all2 inst), (firstn_all2 rc), (firstn_all2 cam) by lia.
  destruct rig.
  - specialize (HR2 eq_refl).
    pose proof (good_rig_pose_camera t pt inst rc cam Hi Hr HR1 HR2 Hs Ht) as G.
    pose proof (good_derivative_all _ _ _ G Hp) as D. cbn [Compose ParamSize InSize OutSize ComposeIndex ComposeIn last PoseFunctor] in D.
    change (InSize PoseFunctor) with 3%nat in D. change (ComposeIn _) with 3%nat in D.
    rewrite HC in D. specialize (D ltac:(rewrite !app_length; lia)).
    pose proof (good_value _ _ _ _ G) as V.
    change (ForwardDerivatives (Compose [Generic (Dispatch t); PoseFunctor; PoseFunctor]) true) with (ProjectRigPoseDerivatives t) in V, D.
    change (OutSize (Generic (Dispatch t))) with 2%nat in D.
    destruct (ProjectRigPoseDerivatives t pt (inst ++ rc ++ cam)) as [value J]. cbn [fst snd] in V, D.
    replace (3 + (C + (6 + (6 + 0))))%nat with (3 + C + 2 * 6)%nat in D by lia.
    conc pt 3%nat Hp. conc inst 6%nat Hi. conc rc 6%nat Hr.
    split; [rewrite V; reflexivity|]. split; [|split; [|split]]; rewrite scaled_block_columns.
    + eapply derivative_at_ext; [|apply derivative_at_residuals; apply (derivative_at_block _ _ _ _ _ ([e; e0; e1] ++ [e2; e3; e4; e5; e6; e7] ++ [e8; e9; e10; e11; e12; e13]) cam [] _ _ D);
        [rewrite app_nil_r; reflexivity|reflexivity|exact Hc|cbn [length]; lia]].
      intros v Hv. cbv beta. rewrite app_nil_r. reflexivity.
    + eapply derivative_at_ext; [|apply derivative_at_residuals; apply (derivative_at_block _ _ _ _ _ [e; e0; e1] [e2; e3; e4; e5; e6; e7] ([e8; e9; e10; e11; e12; e13] ++ cam) _ _ D);
        [reflexivity|reflexivity|reflexivity|rewrite app_length; cbn [length]; lia]].
      intros v Hv. conc v 6%nat Hv. reflexivity.
    + eapply derivative_at_ext; [|apply derivative_at_residuals; apply (derivative_at_block _ _ _ _ _ ([e; e0; e1] ++ [e2; e3; e4; e5; e6; e7]) [e8; e9; e10; e11; e12; e13] cam _ _ D);
        [reflexivity|reflexivity|reflexivity|cbn [length]; lia]].
      intros v Hv. conc v 6%nat Hv. reflexivity.
    + eapply derivative_at_ext; [|apply derivative_at_residuals; apply (derivative_at_block _ _ _ _ _ [] [e; e0; e1] ([e2; e3; e4; e5; e6; e7] ++ [e8; e9; e10; e11; e12; e13] ++ cam) _ _ D);
        [reflexivity|reflexivity|reflexivity|cbn [length app]; lia]].
      intros v Hv. conc v 3%nat Hv. reflexivity.
  - pose proof (good_pose_camera t true pt inst cam Hi HR1 Hs (or_intror Ht)) as G.
    pose proof (good_derivative_all _ _ _ G Hp) as D. cbn [Compose ParamSize InSize OutSize ComposeIndex ComposeIn last PoseFunctor] in D.
    change (InSize PoseFunctor) with 3%nat in D. change (ComposeIn _) with 3%nat in D.
    rewrite HC in D. specialize (D ltac:(rewrite !app_length; lia)).
    pose proof (good_value _ _ _ _ G) as V.
    change (ForwardDerivatives (Compose [Generic (Dispatch t); PoseFunctor]) true) with (ProjectPoseDerivatives t) in V, D.
    change (OutSize (Generic (Dispatch t))) with 2%nat in D.
    destruct (ProjectPoseDerivatives t pt (inst ++ cam)) as [value J]. cbn [fst snd] in V, D.
    replace (3 + (C + (6 + 0)))%nat with (3 + C + 6)%nat in D by lia.
    conc pt 3%nat Hp. conc inst 6%nat Hi.
    split; [rewrite V; reflexivity|]. split; [|split; [|split]]; rewrite ?scaled_block_columns.
    + eapply derivative_at_ext; [|apply derivative_at_residuals; apply (derivative_at_block _ _ _ _ _ ([e; e0; e1] ++ [e2; e3; e4; e5; e6; e7]) cam [] _ _ D);
        [rewrite app_nil_r; reflexivity|reflexivity|exact Hc|cbn [length]; lia]].
      intros v Hv. cbv beta. rewrite app_nil_r. reflexivity.
    + eapply derivative_at_ext; [|apply derivative_at_residuals; apply (derivative_at_block _ _ _ _ _ [e; e0; e1] [e2; e3; e4; e5; e6; e7] cam _ _ D);
        [reflexivity|reflexivity|reflexivity|cbn [length]; lia]].
      intros v Hv. conc v 6%nat Hv. reflexivity.
    + eapply derivative_at_zero. intros v Hv. reflexivity.
    + eapply derivative_at_ext; [|apply derivative_at_residuals; apply (derivative_at_block _ _ _ _ _ [] [e; e0; e1] ([e2; e3; e4; e5; e6; e7] ++ cam) _ _ D);
        [reflexivity|reflexivity|reflexivity|cbn [length app]; lia]].
      intros v Hv. conc v 3%nat Hv. reflexivity.
Qed.

(** The error of a panorama: the difference of the directions *)
Lemma good_pose_normalize x rt : length rt = 6%nat -> epsilon < theta2_of rt -> (exists i, (i < 3)%nat /\ (Pose_Forward x rt).[i] <> 0) ->
  good (Compose [Normalize; PoseFunctor]) true x rt.
Proof.
  intros Hl He (i & Hi & Hd). conc rt 6%nat Hl.
  apply good_compose; [apply sized_Normalize|apply sized_compose, sized_Pose|reflexivity| |].
  - apply good_single. apply good_Pose. exact He.
  - apply good_Normalize. destruct i as [|[|[|i]]]; auto. lia.
Qed.
Lemma good_rig_pose_normalize x rt rt' : length rt = 6%nat -> length rt' = 6%nat -> epsilon < theta2_of rt -> epsilon < theta2_of rt' ->
  (exists i, (i < 3)%nat /\ (Pose_Forward (Pose_Forward x rt) rt').[i] <> 0) -> good (Compose [Normalize; PoseFunctor; PoseFunctor]) true x (rt ++ rt').
Proof.
  intros Hl Hl' He He' (i & Hi & Hd). conc rt 6%nat Hl. conc rt' 6%nat Hl'.
  apply good_compose; [apply sized_Normalize|apply sized_compose, sized_Pose|reflexivity| |].
  - apply good_compose; [apply sized_Pose|apply sized_compose, sized_Pose|reflexivity| |].
    + apply good_single. apply good_Pose. exact He.
    + apply good_Pose. exact He'.
  - apply good_Normalize. destruct i as [|[|[|i]]]; auto. lia.
Qed.
Lemma normalize3_eq p k : normalize3 p = Forward Normalize p k.
Proof. unfold normalize3. cbn [Forward Normalize]. unfold Normalize_Forward. cbn zeta. unfold Rdiv. rewrite !Rmult_1_l. reflexivity. Qed.
Theorem C44_panorama_error e b : well_formed 1 b -> rotating_poses e b -> (exists i, (i < 3)%nat /\ nth i (transformed e b) 0 <> 0) ->
  let '(res, (J_camera, J_rig_instance, J_rig_camera, J_point)) := Evaluate3D e b in
  res = Evaluate3D_residuals e b /\
  derivative_at 1 3 (fun v => Evaluate3D_residuals e (with_camera b v)) (b_camera b) J_camera /\
  derivative_at 6 3 (fun v => Evaluate3D_residuals e (with_rig_instance b v)) (b_rig_instance b) J_rig_instance /\
  derivative_at 6 3 (fun v => Evaluate3D_residuals e (with_rig_camera b v)) (b_rig_camera b) J_rig_camera /\
  derivative_at 3 3 (fun v => Evaluate3D_residuals e (with_point b v)) (b_point b) J_point.
Proof.
  destruct e as [t obs k rig]. destruct b as [cam inst rc pt]. cbn [re_type re_observed re_scale re_use_rig_camera].
  intros (Hc & Hi & Hr & Hp) [HR1 HR2] Hs. unfold transformed in Hs.
  cbn [b_camera b_rig_instance b_rig_camera b_point re_use_rig_camera re_type] in *.
  unfold Evaluate3D, Evaluate3D_residuals, transformed.
  cbn [re_type re_observed re_scale re_use_rig_camera b_camera b_rig_instance b_rig_camera b_point with_camera with_rig_instance with_rig_camera with_point].
  rewrite (firstn_all2 inst), (firstn_all2 rc) by lia.
  destruct rig.
  - specialize (HR2 eq_refl).
    pose proof (good_rig_pose_normalize pt inst rc Hi Hr HR1 HR2 Hs) as G.
    pose proof (good_derivative_all _ _ _ G Hp ltac:(rewrite !app_length, Hi, Hr; reflexivity)) as D.
    pose proof (good_value _ _ _ _ G) as V.
    change (ForwardDerivatives (Compose [Normalize; PoseFunctor; PoseFunctor]) true) with RigPoseNormalizedDerivatives in V, D.
    destruct (RigPoseNormalizedDerivatives pt (inst ++ rc)) as [value J]. cbn [fst snd] in V, D.
    change (InSize _) with 3%nat in D. change (ParamSize _) with 12%nat in D. change (OutSize _) with 3%nat in D. change (3 + 12)%nat with (6 + 6 + 3)%nat in D.
    conc pt 3%nat Hp. conc inst 6%nat Hi. conc rc 6%nat Hr.
    split; [rewrite V, (normalize3_eq _ []); reflexivity|]. split; [|split; [|split]]; rewrite ?scaled_block_columns.
    + eapply derivative_at_zero. intros v Hv. reflexivity.
    + eapply derivative_at_ext; [|apply derivative_at_residuals; apply (derivative_at_block _ _ _ _ _ [e; e0; e1] [e2; e3; e4; e5; e6; e7] ([e8; e9; e10; e11; e12; e13]) _ _ D);
        reflexivity].
      intros v Hv. conc v 6%nat Hv. rewrite (normalize3_eq _ []). reflexivity.
    + eapply derivative_at_ext; [|apply derivative_at_residuals; apply (derivative_at_block _ _ _ _ _ ([e; e0; e1] ++ [e2; e3; e4; e5; e6; e7]) [e8; e9; e10; e11; e12; e13] [] _ _ D);
        reflexivity].
      intros v Hv. conc v 6%nat Hv. rewrite (normalize3_eq _ []). reflexivity.
    + eapply derivative_at_ext; [|apply derivative_at_residuals; apply (derivative_at_block _ _ _ _ _ [] [e; e0; e1] ([e2; e3; e4; e5; e6; e7] ++ [e8; e9; e10; e11; e12; e13]) _ _ D);
        reflexivity].
      intros v Hv. conc v 3%nat Hv. rewrite (normalize3_eq _ []). reflexivity.
  - pose proof (good_pose_normalize pt inst Hi HR1 Hs) as G.
    pose proof (good_derivative_all _ _ _ G Hp Hi) as D.
    pose proof (good_value _ _ _ _ G) as V.
    change (ForwardDerivatives (Compose [Normalize; PoseFunctor]) true) with PoseNormalizedDerivatives in V, D.
    destruct (PoseNormalizedDerivatives pt inst) as [value J]. cbn [fst snd] in V, D.
    change (InSize _) with 3%nat in D. change (ParamSize _) with 6%nat in D. change (OutSize _) with 3%nat in D. change (3 + 6)%nat with (6 + 3)%nat in D.
    conc pt 3%nat Hp. conc inst 6%nat Hi.
    split; [rewrite V, (normalize3_eq _ []); reflexivity|]. split; [|split; [|split]]; rewrite ?scaled_block_columns.
    + eapply derivative_at_zero. intros v Hv. reflexivity.
    + eapply derivative_at_ext; [|apply derivative_at_residuals; apply (derivative_at_block _ _ _ _ _ [e; e0; e1] [e2; e3; e4; e5; e6; e7] [] _ _ D);
        reflexivity].
      intros v Hv. conc v 6%nat Hv. rewrite (normalize3_eq _ []). reflexivity.
    + eapply derivative_at_zero. intros v Hv. reflexivity.
    + eapply derivative_at_ext; [|apply derivative_at_residuals; apply (derivative_at_block _ _ _ _ _ [] [e; e0; e1] [e2; e3; e4; e5; e6; e7] _ _ D);
        reflexivity].
      intros v Hv. conc v 3%nat Hv. rewrite (normalize3_eq _ []). reflexivity.
Qed.

(** The meaning of the specification: the entries of a derivative are the partial derivatives. *)
Lemma insert_at_time (x : list R) c s : (c < length x)%nat ->
  at_time (<[c:=fun h : R => h]> (map (fun a _ => a) x)) s = <[c:=s]> x.
Proof.
  intros Hc. unfold at_time. change (map (fun f : R -> R => f s)) with (fmap (M := list) (fun f : R -> R => f s)). rewrite list_fmap_insert. f_equal.
  change (at_time (map (fun a _ => a) x) s = x). apply at_time_const.
Qed.
Lemma sum_n_pick n c a : (c < n)%nat -> sum_n n (fun k => if decide (k = c) then a else 0) = a.
Proof.
  induction n as [|n IH]; [lia|]. intros Hc. rewrite sum_n_S. destruct (decide (n = c)) as [->|Hn].
  - rewrite sum_n_zero; [ring|]. intros k Hk. destruct (decide (k = c)); [lia|reflexivity].
  - rewrite IH by lia. ring.
Qed.
Theorem C44_partial_derivatives n m F x J i c : derivative_at n m F x J -> length x = n -> (i < m)%nat -> (c < n)%nat ->
  derivable_pt_lim (fun h => nth i (F (<[c:=h]> x)) 0) (nth c x 0) (nth (i * n + c) J 0).
Proof.
  intros HD Hx Hi Hc. assert (HL : length J = (m * n)%nat) by apply HD.
  pose proof (proj1 (derivative_at_sum n m F x J HL) HD) as D.
  specialize (D (<[c:=fun h => h]> (map (fun a _ => a) x)) (nth c x 0) (<[c:=1]> (map (fun _ => 0) x))).
  specialize (D ltac:(rewrite insert_length, map_length; exact Hx)).
  specialize (D ltac:(rewrite insert_at_time by lia; rewrite list_insert_id; [reflexivity|]; rewrite nth_lookup; destruct (lookup_lt_is_Some_2 x c ltac:(lia)) as [y ->]; reflexivity)).
  specialize (D ltac:(apply Forall2_insert; [apply moving_const|apply (@is_derive_id R_AbsRing)]) i Hi).
  apply is_derive_Reals. by_value.
  - eapply is_derive_ext; [|exact D]. intros s. cbn beta. rewrite insert_at_time by lia. reflexivity.
  - rewrite (sum_n_ext n _ (fun k => if decide (k = c) then J.[i * n + c] else 0)).
    + apply sum_n_pick. exact Hc.
    + intros k Hk. destruct (decide (k = c)) as [->|Hn].
      * rewrite (nth_lookup (<[c:=1]> _)), list_lookup_insert by (rewrite map_length; lia). cbn. ring.
      * rewrite (nth_lookup (<[c:=1]> _)), list_lookup_insert_ne by lia. rewrite <- nth_lookup.
        assert (Z1 : forall (l : list R) k, (map (fun _ : R => 0) l).[k] = 0). { intros l. induction l; intros [|q]; cbn; auto. }
        rewrite Z1. ring.
Qed.

(** Near the zero rotation the derivative with respect to the rotation has the wrong sign. *)
Lemma pose_small (X Y Z A B C T0 T1 T2 : R -> R) (ps : list (R -> R)) (t dx dy dz da db dc e0 e1 e2 : R) :
  is_derive X t dx -> is_derive Y t dy -> is_derive Z t dz -> is_derive A t da -> is_derive B t db -> is_derive C t dc ->
  is_derive T0 t e0 -> is_derive T1 t e1 -> is_derive T2 t e2 ->
  A t * A t + B t * B t + C t * C t < epsilon ->
  let F := fun s => Pose_Forward [X s; Y s; Z s] (at_time (A :: B :: C :: T0 :: T1 :: T2 :: ps) s) in
  let x := X t - T0 t in let y := Y t - T1 t in let z := Z t - T2 t in
  is_derive (fun s => (F s).[0]) t (dx - e0 + (- B t * (dz - e2) - db * z) - (- C t * (dy - e1) - dc * y)) /\
  is_derive (fun s => (F s).[1]) t (dy - e1 + (- C t * (dx - e0) - dc * x) - (- A t * (dz - e2) - da * z)) /\
  is_derive (fun s => (F s).[2]) t (dz - e2 + (- A t * (dy - e1) - da * y) - (- B t * (dx - e0) - db * x)).
Proof.
  intros HX HY HZ HA HB HC H0 H1 H2 He F x y z.
  assert (L : locally t (fun s => A s * A s + B s * B s + C s * C s < epsilon)).
  { apply (locally_lt (fun s => A s * A s + B s * B s + C s * C s) t (2 * A t * da + 2 * B t * db + 2 * C t * dc)); [derives; ring|exact He]. }
  assert (E : forall s, A s * A s + B s * B s + C s * C s < epsilon -> F s =
     [X s - T0 s + (- B s * (Z s - T2 s) - - C s * (Y s - T1 s)); Y s - T1 s + (- C s * (X s - T0 s) - - A s * (Z s - T2 s)); Z s - T2 s + (- A s * (Y s - T1 s) - - B s * (X s - T0 s))]).
  { intros s Hs. unfold F, Pose_Forward. cbn [at_time map nth]. destruct (Rlt_dec _ _); [lra|reflexivity]. }
  split; [|split].
  - apply (is_derive_ext_loc (fun s => X s - T0 s + (- B s * (Z s - T2 s) - - C s * (Y s - T1 s)))).
    + eapply filter_imp; [|exact L]. intros s Hs. rewrite E by exact Hs. reflexivity.
    + derives. unfold y, z. ring.
  - apply (is_derive_ext_loc (fun s => Y s - T1 s + (- C s * (X s - T0 s) - - A s * (Z s - T2 s)))).
    + eapply filter_imp; [|exact L]. intros s Hs. rewrite E by exact Hs. reflexivity.
    + derives. unfold x, z. ring.
  - apply (is_derive_ext_loc (fun s => Z s - T2 s + (- A s * (Y s - T1 s) - - B s * (X s - T0 s)))).
    + eapply filter_imp; [|exact L]. intros s Hs. rewrite E by exact Hs. reflexivity.
    + derives. unfold x, y. ring.
Qed.
Lemma Pose_jacobian_small point rt : theta2_of rt < epsilon ->
  let x := point.[0] - rt.[3] in let y := point.[1] - rt.[4] in let z := point.[2] - rt.[5] in
  Pose_jacobian true point rt =
  [1; - rt.[2]; rt.[1];   0; z; - y;   -1; rt.[2]; - rt.[1];
   rt.[2]; 1; - rt.[0];   - z; 0; x;   - rt.[2]; -1; rt.[0];
   - rt.[1]; rt.[0]; 1;   y; - x; 0;   rt.[1]; - rt.[0]; -1].
Proof.
  intros He x y z. unfold Pose_jacobian, AngleAxisToRotation.
  destruct (Rlt_dec _ _) as [_|N].
  2:{ exfalso. apply N. cbn [s_add s_mul s_value dual_scalar dv]. unfold theta2_of in He. lra. }
  unfold x, y, z. clear. cbv -[Rplus Rmult Ropp Rminus R0 R1 IZR dv d0 d1 d2].
  repeat match goal with |- _ :: _ = _ :: _ => apply f_equal2 end; try reflexivity; cbn [dv d0 d1 d2]; ring.
Qed.

Lemma partial_unique n m F x J J' i c : derivative_at n m F x J -> derivative_at n m F x J' -> length x = n -> (i < m)%nat -> (c < n)%nat ->
  J.[i * n + c] = J'.[i * n + c].
Proof.
  intros H H' Hx Hi Hc. eapply uniqueness_limite; eapply C44_partial_derivatives; eassumption.
Qed.
(** The derivative near the zero rotation *)
Definition small_pose_derivative (point rt : list R) : list R :=
  let x := point.[0] - rt.[3] in let y := point.[1] - rt.[4] in let z := point.[2] - rt.[5] in
  [1; rt.[2]; - rt.[1];   0; - z; y;   -1; - rt.[2]; rt.[1];
   - rt.[2]; 1; rt.[0];   z; 0; - x;   rt.[2]; -1; - rt.[0];
   rt.[1]; - rt.[0]; 1;   - y; x; 0;   - rt.[1]; rt.[0]; -1].
Lemma small_pose_spec point rt : length point = 3%nat -> length rt = 6%nat -> theta2_of rt < epsilon ->
  derivative_at 9 3 (fun v => Pose_Forward (take 3 v) (drop 3 v)) (point ++ rt) (small_pose_derivative point rt).
Proof.
  intros Hp Hr He. apply derivative_at_sum; [reflexivity|]. intros xs t dxs Hl Hat Hm i Hi. components. cbn in Hat.
  injection Hat. intros. subst.
  unfold theta2_of in He. cbn [nth] in He.
  pose proof (pose_small _ _ _ _ _ _ _ _ _ [] t _ _ _ _ _ _ _ _ _ H H0 H1 H2 H3 H4 H5 H6 H7 He) as P.
  cbn zeta in P. destruct P as (P0 & P1 & P2).
  destruct i as [|[|[|i]]]; [| | |lia].
  1: by_value; [exact P0|]. 2: by_value; [exact P1|]. 3: by_value; [exact P2|].
  all: cbv [small_pose_derivative sum_n foldr map seq nth app Nat.add Nat.mul]; ring.
Qed.
Theorem C44_small_rotation_refuted point rt : length point = 3%nat -> length rt = 6%nat -> ~ rotating rt -> theta2_of rt <> / 2 ^ 52 ->
  (exists i, (i < 3)%nat /\ nth i point 0 <> nth (3 + i) rt 0) ->
  ~ derivative_at 9 3 (fun v => Forward PoseFunctor (take 3 v) (drop 3 v)) (point ++ rt) (ForwardDerivatives PoseFunctor true point rt).2.
Proof.
  intros Hp Hr Hn Hne (i & Hi & Hd) HD.
  assert (He : theta2_of rt < epsilon) by (unfold rotating in Hn; unfold theta2_of, epsilon in *; lra).
  pose proof (small_pose_spec point rt Hp Hr He) as HS. cbn [PoseFunctor ForwardDerivatives Forward snd] in HD. rewrite Pose_jacobian_small in HD by exact He.
  assert (HL : length (point ++ rt) = 9%nat) by (rewrite app_length; lia).
  destruct i as [|[|[|i]]]; [| | |lia].
  - pose proof (partial_unique _ _ _ _ _ _ 1 5 HD HS HL ltac:(lia) ltac:(lia)) as E. cbn in E, Hd. lra.
  - pose proof (partial_unique _ _ _ _ _ _ 0 5 HD HS HL ltac:(lia) ltac:(lia)) as E. cbn in E, Hd. lra.
  - pose proof (partial_unique _ _ _ _ _ _ 0 4 HD HS HL ltac:(lia) ltac:(lia)) as E. cbn in E, Hd. lra.
Qed.
(** With a zero rotation, what is returned is the derivative with the columns of the rotation negated. *)
Theorem C44_zero_rotation point rt : length point = 3%nat -> length rt = 6%nat -> take 3 rt = [0; 0; 0] ->
  exists J, derivative_at 9 3 (fun v => Forward PoseFunctor (take 3 v) (drop 3 v)) (point ++ rt) J /\
  forall i c, (i < 3)%nat -> (c < 9)%nat ->
  nth (i * 9 + c) (ForwardDerivatives PoseFunctor true point rt).2 0 = (if decide (3 <= c < 6)%nat then - nth (i * 9 + c) J 0 else nth (i * 9 + c) J 0).
Proof.
  intros Hp Hr H0. conc rt 6%nat Hr. cbn in H0. injection H0 as -> -> ->. pose proof epsilon_pos.
  assert (He : theta2_of [0; 0; 0; e2; e3; e4] < epsilon) by (unfold theta2_of; cbn [nth]; lra).
  exists (small_pose_derivative point [0; 0; 0; e2; e3; e4]). split; [now apply small_pose_spec|].
  cbn [PoseFunctor ForwardDerivatives snd]. rewrite Pose_jacobian_small by exact He. unfold small_pose_derivative.
  intros i c Hi Hc.
  destruct i as [|[|[|i]]]; [| | |lia]; do 9 (destruct c as [|c]; [cbn [nth Nat.mul Nat.add]; first [rewrite decide_True by lia|rewrite decide_False by lia]; ring|]); lia.
Qed.
