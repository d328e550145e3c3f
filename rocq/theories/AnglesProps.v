(** Properties of camera angles. *)
From stdpp Require Import prelude.
From Coq Require Import Reals Lra Psatz.
From Verif Require Import Base Lin RotModel RotProofs GeoModel GeoProofs AnglesModel AnglesSpec AnglesProofs.
Local Open Scope R_scope.

(** ** C63: pan, tilt, roll; omega, phi, kappa; up vector and compass *)
Theorem C63_ptr pan tilt roll : not_tiny pan -> not_tiny (tilt + PI / 2) -> not_tiny roll ->
  has_ptr (rotation_from_ptr pan tilt roll) pan tilt roll.
Proof. intros. rewrite ptr_matrix by done. apply ptr_has. Qed.
Theorem C63_ptr_read m pan tilt roll : has_ptr m pan tilt roll -> angle pan -> acute tilt -> - (PI / 2) <= roll <= PI / 2 ->
  ptr_from_rotation m = (pan, tilt, roll).
Proof.
  intros H Hp Ht Hr. unfold ptr_from_rotation. rewrite (read_pan _ _ _ _ H Hp Ht), (read_tilt _ _ _ _ H Ht), (read_roll _ _ _ _ H Ht). rewrite asin_sin; [done|lra].
Qed.
(** Pan and tilt are read back for every roll; the roll only between -90 and 90 degrees: the camera of roll 2 is read as one of roll pi - 2. *)
Theorem C63_ptr_read_pan_tilt m pan tilt roll : has_ptr m pan tilt roll -> angle pan -> acute tilt ->
  pan_from_rotation m = pan /\ tilt_from_rotation m = tilt.
Proof. intros H Hp Ht. split; [by eapply read_pan|by eapply read_tilt]. Qed.
Theorem C63_roll_refuted m pan tilt roll : has_ptr m pan tilt roll -> acute tilt -> PI / 2 < roll <= PI ->
  roll_from_rotation m = PI - roll /\ roll_from_rotation m <> roll.
Proof.
  intros H Ht Hr. rewrite (read_roll _ _ _ _ H Ht). replace (sin roll) with (sin (PI - roll)) by apply sin_PI_x.
  rewrite asin_sin by lra. split; [done|lra].
Qed.
(** The second pair of conversions builds the same cameras, and reads every roll. *)
Theorem C63_ptr_v2 pan tilt roll : has_ptr (rotation_from_ptr_v2 pan tilt roll) pan tilt roll.
Proof. rewrite ptr_v2_matrix. apply ptr_has. Qed.
Theorem C63_ptr_v2_read m pan tilt roll : has_ptr m pan tilt roll -> angle pan -> acute tilt -> angle roll -> 4 / 2 ^ 52 < cos tilt ->
  ptr_from_rotation_v2 m = (pan, tilt, roll).
Proof.
  intros H Hp Ht Hr He. rewrite (has_ptr_unique _ _ _ _ _ H (C63_ptr_v2 pan tilt roll)). apply read_v2; try done. unfold tf_eps, dbl_epsilon. lra.
Qed.
(** What is read from a rotation is a pan, a tilt and a roll of it, unless it looks within 10^-15 of straight up or down. *)
Theorem C63_ptr_v2_onto m pan tilt roll : rotation m -> 4 / 2 ^ 52 < sqrt (m31 m * m31 m + m32 m * m32 m) ->
  ptr_from_rotation_v2 m = (pan, tilt, roll) -> has_ptr m pan tilt roll /\ angle pan /\ acute tilt /\ angle roll.
Proof.
  intros Hm Hs E. assert (0 < 4 / 2 ^ 52) by (apply Rdiv_lt_0_compat; [lra|apply pow_lt; lra]).
  destruct (ptr_onto m Hm ltac:(lra)) as (p & t & r & Hp & Ht & Hr & Em & Ec). pose proof (C63_ptr_v2 p t r) as H'. rewrite <- Em in H'.
  rewrite (C63_ptr_v2_read m p t r H' Hp Ht Hr) in E by lra. by injection E as <- <- <-.
Qed.
(** Omega, phi, kappa *)
Theorem C63_opk omega phi kappa : not_tiny omega -> not_tiny phi -> not_tiny kappa ->
  rotation (rotation_from_opk omega phi kappa) /\ has_opk (rotation_from_opk omega phi kappa) omega phi kappa.
Proof.
  intros H1 H2 H3. rewrite opk_matrix by done. split.
  - apply rotation_mmul; [apply Rc_rotation|]. apply rotation_T, rotation_mmul; [apply turn_x_rotation|apply rotation_mmul; [apply turn_y_rotation|apply turn_z_rotation]].
  - unfold has_opk, right_axis, down_axis, forward_axis. repeat split; apply vec_eq; cbn; ring.
Qed.
Theorem C63_opk_read omega phi kappa : not_tiny omega -> not_tiny phi -> not_tiny kappa -> angle omega -> acute phi -> angle kappa ->
  opk_from_rotation (rotation_from_opk omega phi kappa) = (omega, phi, kappa).
Proof. intros. apply opk_read; try done. by apply opk_turn. Qed.
(** What is read from a rotation are angles of it, unless the camera looks exactly to the east or to the west. *)
Theorem C63_opk_onto m omega phi kappa : rotation m -> Rabs (m31 m) < 1 ->
  opk_from_rotation m = (omega, phi, kappa) -> has_opk m omega phi kappa /\ angle omega /\ acute phi /\ angle kappa.
Proof.
  intros Hm Hlt E. assert (rotation (mmul (mT m) opk_Rc)) as Hr by (apply rotation_mmul; [by apply rotation_T|apply Rc_rotation]).
  destruct (opk_onto _ Hr) as (o & p & k & Ho & Hp & Hk & Er).
  { cbn. replace (m11 m * 0 + m21 m * 0 + m31 m * -1) with (- m31 m) by ring. by rewrite Rabs_Ropp. }
  rewrite (opk_read m o p k Er Ho Hp Hk) in E. injection E as <- <- <-. split; [|done].
  assert (m = mmul opk_Rc (mT (mmul (turn_x o) (mmul (turn_y p) (turn_z k))))) as ->.
  { rewrite <- Er, mT_mmul, Rc_T, mT_T, mmul_assoc, Rc_Rc. by rewrite mmul_I_l. }
  unfold has_opk, right_axis, down_axis, forward_axis. repeat split; apply vec_eq; cbn; ring.
Qed.
(** Up vector and compass: the camera has the up vector and looks to the compass angle (from the north to the east, in degrees). *)
Theorem C63_compass up a : up <> v0 -> 1 / 10 ^ 8 < norm (vsub (Vec 0 0 1) (vscale (vz up / (norm up * norm up)) up)) -> not_tiny (radians a) ->
  let m := rotation_matrix_from_up_vector_and_compass up a in
  rotation m /\ camera_up_vector m = vscale (/ norm up) up /\ mvec m (Vec 0 0 1) = vscale (/ norm up) up /\
  (exists h, 0 < h /\ forward_axis m = Vec (h * sin (radians a)) (h * cos (radians a)) (vz up / norm up)) /\
  (-180 < a <= 180 -> camera_compass_angle m = a).
Proof.
  intros Hu Hn Ha m. assert (norm up <> 0) as Hnz by (intros E; by apply Hu, norm_0).
  destruct (compass_general up a Hu) as (H1 & H2 & H3); [|done|].
  { eapply Rlt_le_trans; [exact Hn|]. right. f_equal. unfold vsub, vscale, dot. cbn. f_equal; field; done. }
  fold m in H1, H2, H3. split; [done|]. split; [done|]. split; [rewrite <- H2; unfold mvec, camera_up_vector; cbn; f_equal; ring|].
  set (h := norm _) in H3. assert (0 < h) as Hh. { unfold h. assert (0 < 1 / 10 ^ 8) by (apply Rdiv_lt_0_compat; [lra|apply pow_lt; lra]).
    eapply Rlt_trans; [done|]. eapply Rlt_le_trans; [exact Hn|]. right. f_equal. unfold vsub, vscale, dot. cbn. f_equal; field; done. }
  split. { exists h. split; [done|]. rewrite H3. f_equal. unfold vscale. cbn. field. done. }
  intros Hr. unfold camera_compass_angle. unfold forward_axis in H3. injection H3 as -> -> _. rewrite atan2_polar; [apply degrees_radians|done|by apply radians_lon].
Qed.
(** Looking straight up or down there is no compass angle, but still a rotation with that up vector. *)
Theorem C63_compass_vertical s a : s <> 0 ->
  let m := rotation_matrix_from_up_vector_and_compass (Vec 0 0 s) a in rotation m /\ camera_up_vector m = Vec 0 0 (s / Rabs s).
Proof. apply compass_vertical. Qed.
(** The up vector guessed from the EXIF orientation *)
Theorem C63_orientation o : guess_gravity_up_from_orientation_tag o =
  match exif_sides o with Some (rows, columns) => Ok (up_of rows columns) | None => Err RuntimeError end.
Proof. destruct o as [|o|o]; [done| |done]. destruct o as [[[[o|o|]|[o|o|]|]|[[o|o|]|[o|o|]|]|]|[[[o|o|]|[o|o|]|]|[[o|o|]|[o|o|]|]|]|]; done. Qed.

(** Concrete cases *)
Lemma not_tiny_ge a : / 10 <= Rabs a -> not_tiny a.
Proof. intros H. right. eapply Rle_trans; [|exact H]. apply Rinv_le_contravar; [lra|]. replace (2 ^ 52) with (2 ^ 4 * 2 ^ 48) by ring. assert (1 <= 2 ^ 48) by (apply pow_R1_Rle; lra). lra. Qed.
Lemma pi_ge_2 : 2 <= PI. Proof. pose proof PI2_1. lra. Qed.
Example C63_ptr_case : has_ptr (rotation_from_ptr (1/2) (1/4) (-1/3)) (1/2) (1/4) (-1/3) /\ ptr_from_rotation (rotation_from_ptr (1/2) (1/4) (-1/3)) = (1/2, 1/4, -1/3) /\
  ptr_from_rotation_v2 (rotation_from_ptr (1/2) (1/4) (-1/3)) = (1/2, 1/4, -1/3).
Proof.
  pose proof pi_ge_2 as Hpi. assert (has_ptr (rotation_from_ptr (1/2) (1/4) (-1/3)) (1/2) (1/4) (-1/3)) as H.
  { apply C63_ptr; apply not_tiny_ge; unfold Rabs; destruct (Rcase_abs _); lra. }
  assert (cos (1/4) > / 4). { assert (PI / 3 < PI / 2) by lra. pose proof (cos_decreasing_1 (1/4) (PI / 3)) as Hd. rewrite cos_PI3 in Hd. assert (1 / 4 < PI / 3) by lra. lra. }
  split; [done|]. split; [apply C63_ptr_read; unfold angle, acute; (done || lra)|apply C63_ptr_v2_read; unfold angle, acute; (done || lra || idtac)].
Qed.
Example C63_roll_case : exists m, has_ptr m 0 0 3 /\ roll_from_rotation m = PI - 3.
Proof.
  pose proof PI2_3_2. pose proof PI_4. exists (rotation_from_ptr_v2 0 0 3). split; [apply C63_ptr_v2|].
  apply (C63_roll_refuted _ 0 0 3 (C63_ptr_v2 0 0 3)); unfold acute; lra.
Qed.
Example C63_opk_case : opk_from_rotation (rotation_from_opk (1/2) (1/4) (-1)) = (1/2, 1/4, -1).
Proof. pose proof PI2_3_2. apply C63_opk_read; try (apply not_tiny_ge; unfold Rabs; destruct (Rcase_abs _); lra); unfold angle, acute; lra. Qed.
Example C63_compass_case : let m := rotation_matrix_from_up_vector_and_compass (Vec 0 (-2) 0) 90 in camera_up_vector m = Vec 0 (-1) 0 /\ camera_compass_angle m = 90.
Proof.
  assert (norm (Vec 0 (-2) 0) = 2) as En. { unfold norm, dot. cbn. replace (0 * 0 + -2 * -2 + 0 * 0) with (2 * 2) by ring. apply sqrt_square. lra. }
  intros m. destruct (C63_compass (Vec 0 (-2) 0) 90) as (_ & H1 & _ & _ & H2).
  - intros E. apply (f_equal vy) in E. cbn in E. lra.
  - replace (vsub _ _) with (Vec 0 0 1) by (unfold vsub, vscale; cbn; f_equal; field; rewrite En; lra).
    replace (norm (Vec 0 0 1)) with 1; [lra|]. unfold norm, dot. cbn. replace (0 * 0 + 0 * 0 + 1 * 1) with 1 by ring. by rewrite sqrt_1.
  - apply not_tiny_ge. unfold radians. pose proof PI2_3_2. rewrite Rabs_pos_eq; lra.
  - fold m in H1, H2. rewrite H1, En. split; [unfold vscale; cbn; f_equal; field|apply H2; lra].
Qed.
Print Assumptions C63_ptr.
Print Assumptions C63_ptr_read.
Print Assumptions C63_ptr_read_pan_tilt.
Print Assumptions C63_roll_refuted.
Print Assumptions C63_ptr_v2.
Print Assumptions C63_ptr_v2_read.
Print Assumptions C63_ptr_v2_onto.
Print Assumptions C63_opk.
Print Assumptions C63_opk_read.
Print Assumptions C63_opk_onto.
Print Assumptions C63_compass.
Print Assumptions C63_compass_vertical.
Print Assumptions C63_orientation.
