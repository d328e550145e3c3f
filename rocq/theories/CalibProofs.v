(** Proofs about cameras made from metadata. *)
From Coq Require Import Reals QArith Qcanon Qreals Lra.
From stdpp Require Import prelude strings gmap numbers.
From Verif Require Import Base PyText JsonModel CamModel ExifModel ExifProofs CalibModel CalibSpec.
Local Open Scope string_scope.
Local Close Scope R_scope.

Lemma lower_char_idem a : lower_char (lower_char a) = lower_char a.
Proof. destruct a as [[] [] [] [] [] [] [] []]; reflexivity. Qed.
Lemma lower_lower s : lower (lower s) = lower s.
Proof. induction s as [|a s IH]; [done|]. unfold lower in *. cbn [str_map]. by rewrite lower_char_idem, IH. Qed.
Lemma real_0 : real (qc 0) = 0%R.
Proof. unfold real. cbn. unfold Q2R. cbn. lra. Qed.
Lemma real_inj q : q <> qc 0 -> real q <> 0%R.
Proof.
  intros Hq E. apply Hq. apply Qc_is_canon. apply eqR_Qeq. fold (real q). rewrite E. symmetry. apply real_0.
Qed.
Lemma find_slot_entry m x f s : find_slot m x f = Some s -> exists e, slot_entry m s = Some e.
Proof.
  unfold find_slot. destruct (m_all m) as [e|] eqn:E1; [intros [= <-]; by exists e|].
  destruct (m_model m) as [t|] eqn:E2.
  - destruct (t !! x) as [e|] eqn:E; [|done]. intros [= <-]. exists e. cbn. by rewrite E2.
  - destruct (m_focal m) as [t|] eqn:E3; [|done]. destruct (t !! f) as [e|] eqn:E; [|done]. intros [= <-]. exists e. cbn. by rewrite E3.
Qed.
Lemma not_hard_coded T md : ~ hard_coded T md -> hard_coded_calibration T md = None.
Proof.
  intros H. unfold hard_coded_calibration. destruct (T !! lower (strip (md_make md))) as [m|] eqn:E; [|done]. cbn [mbind option_bind].
  destruct (find_slot m _ _) as [s|] eqn:Es; [|done]. destruct H. exists m. split; [done|]. revert Es. unfold find_slot.
  destruct (m_all m); [by left|]. right. destruct (m_model m) as [t|]; [left|right; by destruct (m_focal m)]. exists t.
  destruct (t !! lower (strip (md_model md))) eqn:El; [|done]. done.
Qed.

(** ** The calibrations without an entry *)
Definition zero_keys : list string := ["k1"; "k2"; "p1"; "p2"; "k3"; "k4"; "k5"; "k6"; "s0"; "s1"; "s2"; "s3"].
Lemma num_some e k q : numbers e !! k = Some q -> num e k = Ok (real q).
Proof. intros H. unfold num. by rewrite H. Qed.
Lemma camera_xy e pt t f cx cy : (pt, t) ∈ plain_types -> has_centre t = true -> f <> qc 0 -> kind e = Some pt ->
  numbers e !! "focal_x" = Some f -> numbers e !! "focal_y" = Some f -> numbers e !! "c_x" = Some cx -> numbers e !! "c_y" = Some cy ->
  (forall k, k ∈ zero_keys -> numbers e !! k = Some (qc 0)) ->
  exists c, camera_from_calibration e = Ok c /\ cam_type c = t /\ forall p, p ∈ parameters_of t -> find_param (cam_params c) (cam_values c) p = Ok (plain_value f cx cy p).
Proof.
  intros Ht Hc Hf Hk Hx Hy Hcx Hcy Hz.
  assert (focal_xy e = Ok (real f, 1%R, (real cx, real cy))) as E.
  { unfold focal_xy. rewrite !(num_some e _ _ Hx), !(num_some e _ _ Hy). cbn [res_bind]. unfold py_div. pose proof (real_inj f Hf) as Hr.
    destruct (Req_EM_T (real f) 0); [done|]. cbn [res_bind]. rewrite (num_some e _ _ Hcx), (num_some e _ _ Hcy). cbn [res_bind].
    assert (real f / real f = 1)%R as -> by (by field). done. }
  assert (forall k, k ∈ zero_keys -> num e k = Ok 0%R) as Z by (intros k Hin; rewrite (num_some e k (qc 0)) by auto; by rewrite real_0).
  assert (num e "k1" = Ok 0%R) as Z1 by (apply Z; by left). assert (num e "k2" = Ok 0%R) as Z2 by (apply Z; unfold zero_keys; rewrite !elem_of_cons; tauto).
  assert (num e "k3" = Ok 0%R) as Z3 by (apply Z; unfold zero_keys; rewrite !elem_of_cons; tauto). assert (num e "k4" = Ok 0%R) as Z4 by (apply Z; unfold zero_keys; rewrite !elem_of_cons; tauto).
  assert (num e "k5" = Ok 0%R) as Z5 by (apply Z; unfold zero_keys; rewrite !elem_of_cons; tauto). assert (num e "k6" = Ok 0%R) as Z6 by (apply Z; unfold zero_keys; rewrite !elem_of_cons; tauto).
  assert (num e "p1" = Ok 0%R) as Y1 by (apply Z; unfold zero_keys; rewrite !elem_of_cons; tauto). assert (num e "p2" = Ok 0%R) as Y2 by (apply Z; unfold zero_keys; rewrite !elem_of_cons; tauto).
  assert (num e "s0" = Ok 0%R) as X0 by (apply Z; unfold zero_keys; rewrite !elem_of_cons; tauto). assert (num e "s1" = Ok 0%R) as X1 by (apply Z; unfold zero_keys; rewrite !elem_of_cons; tauto).
  assert (num e "s2" = Ok 0%R) as X2 by (apply Z; unfold zero_keys; rewrite !elem_of_cons; tauto). assert (num e "s3" = Ok 0%R) as X3 by (apply Z; unfold zero_keys; rewrite !elem_of_cons; tauto).
  clear Z Hz. unfold camera_from_calibration. rewrite Hk. cbn [default from_option].
  unfold plain_types in Ht. rewrite !elem_of_cons, elem_of_nil in Ht.
  destruct Ht as [Ht|[Ht|[Ht|[Ht|[Ht|[Ht|[Ht|[Ht|[Ht|[Ht|[]]]]]]]]]]]; simplify_eq; try done;
    (match goal with |- context [lower ?s] => let v := eval vm_compute in (lower s) in change (lower s) with v end);
    repeat (first [rewrite decide_True by done | rewrite decide_False by done]); rewrite E; cbn [res_bind mapR]; rewrite ?Z1, ?Z2, ?Z3, ?Z4, ?Z5, ?Z6, ?Y1, ?Y2, ?X0, ?X1, ?X2, ?X3;
    cbn [res_bind]; (eexists; split; [reflexivity|]; split; [reflexivity|]); cbn [parameters_of cam_params cam_values new_camera create_radial create_simple_radial];
    intros p Hp; rewrite !elem_of_cons, elem_of_nil in Hp; destruct_or?; try done; subst p; reflexivity.
Qed.
Lemma camera_f e pt t f cx cy : (pt, t) ∈ plain_types -> has_centre t = false -> kind e = Some pt ->
  numbers e !! "focal" = Some f -> numbers e !! "k1" = Some (qc 0) -> numbers e !! "k2" = Some (qc 0) ->
  exists c, camera_from_calibration e = Ok c /\ cam_type c = t /\ forall p, p ∈ parameters_of t -> find_param (cam_params c) (cam_values c) p = Ok (plain_value f cx cy p).
Proof.
  intros Ht Hc Hk Hf H1 H2. apply num_some in Hf, H1, H2. rewrite real_0 in H1, H2.
  unfold camera_from_calibration. rewrite Hk. cbn [default from_option].
  unfold plain_types in Ht. rewrite !elem_of_cons, elem_of_nil in Ht.
  destruct Ht as [Ht|[Ht|[Ht|[Ht|[Ht|[Ht|[Ht|[Ht|[Ht|[Ht|[]]]]]]]]]]]; simplify_eq; try done;
    (match goal with |- context [lower ?s] => let v := eval vm_compute in (lower s) in change (lower s) with v end);
    repeat (first [rewrite decide_True by done | rewrite decide_False by done]); rewrite ?Hf, ?H1, ?H2; cbn [res_bind];
    try match goal with |- context [is_panorama ?s] => change (is_panorama s) with true end;
    (eexists; split; [reflexivity|]; split; [reflexivity|]);
    intros p Hp; cbn [parameters_of] in Hp; rewrite ?elem_of_cons, ?elem_of_nil in Hp; destruct_or?; try done; subst p; reflexivity.
Qed.
Lemma lower_plain pt t : (pt, t) ∈ plain_types -> lower pt = pt.
Proof. intros Ht. unfold plain_types in Ht. rewrite !elem_of_cons, elem_of_nil in Ht. destruct_or?; simplify_eq; done. Qed.
Lemma uses_xy pt t : (pt, t) ∈ plain_types -> uses_focal_xy pt = has_centre t.
Proof. intros Ht. unfold plain_types in Ht. rewrite !elem_of_cons, elem_of_nil in Ht. destruct_or?; simplify_eq; done. Qed.
(** Lookups in the dictionaries *)
Lemma xy_lookups f cx cy (l := [("focal_x", f); ("focal_y", f); ("c_x", cx); ("c_y", cy)] : list (string * Qc)) (N := list_to_map (l ++ zeros)%list : gmap string Qc) :
  N !! "focal_x" = Some f /\ N !! "focal_y" = Some f /\ N !! "c_x" = Some cx /\ N !! "c_y" = Some cy /\ forall k, k ∈ zero_keys -> N !! k = Some (qc 0).
Proof.
  split; [reflexivity|]. split; [reflexivity|]. split; [reflexivity|]. split; [reflexivity|].
  intros k Hk. unfold zero_keys in Hk. rewrite !elem_of_cons, elem_of_nil in Hk. destruct_or?; try done; subst k; reflexivity.
Qed.
Lemma default_lookups f (N := numbers (default_calibration f)) :
  N !! "focal" = Some f /\ N !! "focal_x" = Some f /\ N !! "focal_y" = Some f /\ N !! "c_x" = Some (qc 0) /\ N !! "c_y" = Some (qc 0) /\ forall k, k ∈ zero_keys -> N !! k = Some (qc 0).
Proof.
  split; [reflexivity|]. split; [reflexivity|]. split; [reflexivity|]. split; [reflexivity|]. split; [reflexivity|].
  intros k Hk. unfold zero_keys in Hk. rewrite !elem_of_cons, elem_of_nil in Hk. destruct_or?; try done; subst k; reflexivity.
Qed.
Lemma camera_plain prior md pt t : (lower (default "perspective" (md_projection md)) = pt) -> (pt, t) ∈ plain_types -> prior <> qc 0 ->
  exists c, camera_from_calibration (Entry (numbers (default (default_calibration prior) (if uses_focal_xy pt then focal_xy_calibration md else focal_ratio_calibration md))) (Some pt)) = Ok c /\
    cam_type c = t /\ forall p, p ∈ parameters_of t -> find_param (cam_params c) (cam_values c) p = Ok (plain_value (known_focal prior md t) (known_centre md (md_cx md)) (known_centre md (md_cy md)) p).
Proof.
  intros Ep Ht Hp. rewrite (uses_xy pt t Ht). unfold known_focal, known_centre. pose proof (default_lookups prior) as (D0 & Dx & Dy & Dcx & Dcy & Dz).
  destruct (has_centre t) eqn:Hc.
  - unfold focal_xy_calibration. destruct (decide (default (md_focal_ratio md) (md_focal_x md) = qc 0)) as [H0|H0]; cbn [default from_option numbers].
    + apply (camera_xy _ pt t); done.
    + pose proof (xy_lookups (default (md_focal_ratio md) (md_focal_x md)) (default (qc 0) (md_cx md)) (default (qc 0) (md_cy md))) as (Lx & Ly & Lcx & Lcy & Lz).
      apply (camera_xy _ pt t); done.
  - unfold focal_ratio_calibration. destruct (decide (md_focal_ratio md = qc 0)) as [H0|H0]; cbn [default from_option numbers].
    + apply (camera_f _ pt t); try done; apply Dz; unfold zero_keys; rewrite !elem_of_cons; tauto.
    + apply (camera_f _ pt t); done.
Qed.
