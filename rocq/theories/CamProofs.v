From Coq Require Import Reals Lra.
From stdpp Require Import prelude strings.
From Verif Require Import Base JsonModel CamModel CamSpec.
Local Close Scope R_scope.

Definition params_of (t : ptype) : list param :=
  match t with
  | PERSPECTIVE | FISHEYE => [K1; K2; Focal]
  | BROWN => [K1; K2; K3; P1; P2; Focal; AspectRatio; Cx; Cy]
  | FISHEYE_OPENCV => [K1; K2; K3; K4; Focal; AspectRatio; Cx; Cy]
  | FISHEYE62 => [K1; K2; K3; K4; K5; K6; P1; P2; Focal; AspectRatio; Cx; Cy]
  | FISHEYE624 => [K1; K2; K3; K4; K5; K6; P1; P2; S0; S1; S2; S3; Focal; AspectRatio; Cx; Cy]
  | SPHERICAL => [PNone]
  | DUAL => [Transition; K1; K2; Focal]
  | RADIAL => [K1; K2; Focal; AspectRatio; Cx; Cy]
  | SIMPLE_RADIAL => [K1; Focal; AspectRatio; Cx; Cy]
  end.
Definition shape (c : camera) : Prop :=
  cam_params c = params_of (cam_type c) /\ length (cam_values c) = length (cam_params c) /\
  (cam_type c = SPHERICAL -> cam_values c = [0%R]).

Lemma update_param_spec ps vs p x r :
  update_param ps vs p x = Ok r ->
  length r = length vs /\ find_param ps r p = Ok x /\ (forall q, q <> p -> find_param ps r q = find_param ps vs q).
Proof.
  revert vs r. induction ps as [|q ps IH]; intros [|v vs] r; cbn; try done.
  destruct (decide (q = p)) as [->|Hq].
  - intros [= <-]. cbn. destruct (decide (p = p)); [|done]. split; [done|split; [done|]].
    intros q Hq. destruct (decide (p = q)); [congruence|done].
  - destruct (update_param ps vs p x) as [r'|] eqn:E; [|done]. cbn. intros [= <-].
    destruct (IH _ _ E) as (H1 & H2 & H3). cbn. split; [lia|]. split.
    + by destruct (decide (q = p)).
    + intros q' Hq'. destruct (decide (q = q')); [done|]. by apply H3.
Qed.
Lemma update_param_none ps vs p x : length vs = length ps -> p ∉ ps -> update_param ps vs p x = Err RuntimeError.
Proof.
  revert vs. induction ps as [|q ps IH]; intros [|v vs]; cbn; try done. intros H Hp.
  destruct (decide (q = p)) as [->|]; [set_solver|]. rewrite IH; [done|lia|set_solver].
Qed.

Lemma made_shape c : made c -> shape c.
Proof.
  induction 1 as [| | | | | |f a pp d c E|f a pp d c E|f a pp d c E|f a pp d c E|c id w h _ IH|c p x c' _ IH Hp E];
    try (unfold shape; cbn; naive_solver).
  1-4: do 13 (try (destruct d as [|? d]; cbn in E; try done)); injection E as <-; unfold shape; cbn; naive_solver.
  - unfold set_param in E. destruct (update_param (cam_params c) (cam_values c) p x) as [r|] eqn:E'; [|done].
    cbn in E. injection E as <-. destruct IH as (H1 & H2 & H3). unfold shape; cbn.
    pose proof (update_param_spec _ _ _ _ _ E') as (L & _ & _). split; [done|]. split; [lia|].
    intros Ht. rewrite H1, Ht in E'. cbn in E'. rewrite (H3 Ht) in E'. cbn in E'.
    destruct (decide (PNone = p)); [congruence|done].
Qed.

Lemma py_div_cancel f a : f <> 0%R -> py_div (f * a)%R f = Ok a.
Proof. intros H. unfold py_div. destruct (Req_EM_T f 0); [done|]. f_equal. field. done. Qed.

Ltac shape_values c H :=
  let id := fresh "id" in let w := fresh "w" in let h := fresh "h" in let t := fresh "t" in
  let ps := fresh "ps" in let vs := fresh "vs" in
  destruct c as [id w h t ps vs]; destruct H as (Hp & Hl & Hs); cbn in Hp, Hl, Hs; subst ps;
  destruct t; cbn in Hl;
  repeat (destruct vs as [|? vs]; cbn in Hl; [discriminate Hl|apply (f_equal Nat.pred) in Hl; cbn in Hl]);
  (destruct vs; [|discriminate Hl]); clear Hl.

Lemma json_round_trip c : shape c -> recoverable c ->
  exists d, camera_to_json c = Ok d /\ camera_from_json (cam_id c) d = Ok c.
Proof.
  intros H Hr. shape_values c H; unfold recoverable in Hr; cbn in Hr;
    (eexists; split; [reflexivity|]);
    cbv -[py_div Rmult Rdiv IZR]; try (rewrite py_div_cancel; [reflexivity|intros ->; by apply Hr]); try reflexivity.
  by rewrite (Hs eq_refl).
Qed.
Lemma vector_round_trip c : shape c -> recoverable c ->
  exists v, camera_to_vector c = Ok v /\ length v = vector_length (cam_type c) /\
    camera_from_vector (cam_id c) (cam_width c) (cam_height c) (projection_string (cam_type c)) v = Ok c.
Proof.
  intros H Hr. shape_values c H; unfold recoverable in Hr; cbn in Hr;
    (eexists; split; [reflexivity|]; split; [reflexivity|]);
    cbv -[py_div Rmult Rdiv IZR]; try (rewrite py_div_cancel; [reflexivity|intros ->; by apply Hr]); try reflexivity.
  by rewrite (Hs eq_refl).
Qed.

Lemma bind_ok {A B} (r : res A) (f : A -> res B) b : res_bind r f = Ok b -> exists a, r = Ok a /\ f a = Ok b.
Proof. destruct r; [by eexists|done]. Qed.
Ltac binds H :=
  repeat match type of H with
    | res_bind _ _ = Ok _ => let a := fresh "a" in let E := fresh "E" in
        apply bind_ok in H as (a & E & H); try (destruct a as [[? ?] [? ?]])
  end.

Lemma json_focals_nonzero d f a pp : json_focals d = Ok (f, a, pp) -> f <> 0%R.
Proof.
  unfold json_focals. intros H. binds H. injection H as <- <- <-. unfold py_div in *. by destruct (Req_EM_T _ 0).
Qed.
Lemma jreals0_length d ks l : jreals0 d ks = Ok l -> length l = length ks.
Proof.
  revert l. unfold jreals0. induction ks as [|k ks IH]; intros l; cbn; [by intros [= <-]|].
  intros H. binds H. injection H as <-. cbn. f_equal. by apply IH.
Qed.
Lemma py_div_nonzero x y z : py_div x y = Ok z -> y <> 0%R.
Proof. unfold py_div. by destruct (Req_EM_T y 0). Qed.

Definition good (c : camera) : Prop := made c /\ recoverable c.
Lemma good_attr c id w h : good c -> good (Camera id w h (cam_type c) (cam_params c) (cam_values c)).
Proof. intros [H1 H2]. split; [by apply made_attributes|done]. Qed.
Lemma brown_good f a pp d c : f <> 0%R -> create_brown f a pp d = Ok c -> good c.
Proof.
  intros Hf E. split; [by eapply made_brown|]. do 6 (try (destruct d as [|? d]; cbn in E; try done)).
  injection E as <-. intros _. cbv -[Rmult IZR]. congruence.
Qed.
Lemma opencv_good f a pp d c : f <> 0%R -> create_fisheye_opencv f a pp d = Ok c -> good c.
Proof.
  intros Hf E. split; [by eapply made_fisheye_opencv|]. do 5 (try (destruct d as [|? d]; cbn in E; try done)).
  injection E as <-. intros _. cbv -[Rmult IZR]. congruence.
Qed.
Lemma fisheye62_good f a pp d c : f <> 0%R -> create_fisheye62 f a pp d = Ok c -> good c.
Proof.
  intros Hf E. split; [by eapply made_fisheye62|]. do 9 (try (destruct d as [|? d]; cbn in E; try done)).
  injection E as <-. intros _. cbv -[Rmult IZR]. congruence.
Qed.
Lemma fisheye624_good f a pp d c : f <> 0%R -> create_fisheye624 f a pp d = Ok c -> good c.
Proof.
  intros Hf E. split; [by eapply made_fisheye624|]. do 13 (try (destruct d as [|? d]; cbn in E; try done)).
  injection E as <-. intros _. cbv -[Rmult IZR]. congruence.
Qed.
Lemma radial_good f a pp d : f <> 0%R -> good (create_radial f a pp d).
Proof. intros Hf. split; [apply made_radial|]. intros _. cbv -[Rmult IZR]. congruence. Qed.
Lemma simple_radial_good f a pp k : f <> 0%R -> good (create_simple_radial f a pp k).
Proof. intros Hf. split; [apply made_simple_radial|]. intros _. cbv -[Rmult IZR]. congruence. Qed.
Lemma perspective_good f a b : good (create_perspective f a b).
Proof. split; [apply made_perspective|]. by intros []. Qed.
Lemma fisheye_good f a b : good (create_fisheye f a b).
Proof. split; [apply made_fisheye|]. by intros []. Qed.
Lemma dual_good t f a b : good (create_dual t f a b).
Proof. split; [apply made_dual|]. by intros []. Qed.
Lemma spherical_good : good create_spherical.
Proof. split; [apply made_spherical|]. by intros []. Qed.

Lemma from_json_good key d c : camera_from_json key d = Ok c -> good c /\ cam_id c = key.
Proof.
  unfold camera_from_json. intros H.
  apply bind_ok in H as (pt & _ & H). apply bind_ok in H as (c0 & E & H).
  apply bind_ok in H as (w & _ & H). apply bind_ok in H as (h & _ & H). injection H as <-. split; [|done].
  apply good_attr. revert E.
  repeat match goal with |- context [decide (pt = ?s)] => destruct (decide (pt = s)) as [->|?] end; intros E; try (destruct (is_panorama pt); [|done]).
  - binds E. injection E as <-. apply perspective_good.
  - apply bind_ok in E as ([[f a] pp] & E1 & E). apply bind_ok in E as (ds & _ & E).
    apply json_focals_nonzero in E1. by eapply brown_good.
  - binds E. injection E as <-. apply fisheye_good.
  - apply bind_ok in E as ([[f a] pp] & E1 & E). apply bind_ok in E as (ds & _ & E).
    apply json_focals_nonzero in E1. by eapply opencv_good.
  - apply bind_ok in E as ([[f a] pp] & E1 & E). apply bind_ok in E as (ds & _ & E).
    apply json_focals_nonzero in E1. by eapply fisheye62_good.
  - apply bind_ok in E as ([[f a] pp] & E1 & E). apply bind_ok in E as (ds & _ & E).
    apply json_focals_nonzero in E1. by eapply fisheye624_good.
  - apply bind_ok in E as ([[f a] pp] & E1 & E). apply json_focals_nonzero in E1. binds E. injection E as <-. by apply radial_good.
  - apply bind_ok in E as ([[f a] pp] & E1 & E). apply json_focals_nonzero in E1. binds E. injection E as <-. by apply simple_radial_good.
  - binds E. injection E as <-. apply dual_good.
  - injection E as <-. apply spherical_good.
Qed.
Lemma from_vector_good id w h pt v c :
  camera_from_vector id w h pt v = Ok c -> good c /\ cam_id c = id /\ cam_width c = w /\ cam_height c = h.
Proof.
  unfold camera_from_vector. intros H. apply bind_ok in H as (c0 & E & H). injection H as <-. split; [|done].
  apply good_attr. revert E.
  repeat match goal with |- context [decide (pt = ?s)] => destruct (decide (pt = s)) as [->|?] end; intros E; try (destruct (is_panorama pt); [|done]).
  all: try (do 17 (try (destruct v as [|? v]; try done))).
  all: try (apply bind_ok in E as (a & E1 & E); apply py_div_nonzero in E1).
  all: try (by eauto using brown_good, opencv_good, fisheye62_good, fisheye624_good).
  all: try (injection E as <-).
  all: eauto using perspective_good, fisheye_good, dual_good, spherical_good, radial_good, simple_radial_good, brown_good, opencv_good, fisheye62_good, fisheye624_good.
Qed.

(** dictionaries of cameras *)
Lemma mapR_cons {A B} (f : A -> res B) a l : mapR f (a :: l) = (try b := f a in try bs := mapR f l in Ok (b :: bs)).
Proof. done. Qed.
Lemma jset_new d k v : k ∉ d.*1 -> jset d k v = d ++ [(k, v)].
Proof.
  induction d as [|[k' v'] d IH]; cbn; [done|]. intros H. destruct (decide (k' = k)) as [->|]; [set_solver|].
  rewrite IH; [done|set_solver].
Qed.
Lemma cameras_loop l acc :
  Forall (fun kc => shape kc.2 /\ recoverable kc.2 /\ cam_id kc.2 = kc.1) l -> NoDup (acc.*1 ++ l.*1) ->
  exists d, cameras_to_json_loop acc l = Ok (acc ++ d) /\ cameras_from_json d = Ok l /\ d.*1 = l.*1.
Proof.
  revert acc. induction l as [|[k c] l IH]; intros acc; cbn.
  - intros _ _. exists []. by rewrite app_nil_r.
  - intros [(Hs & Hr & Hid) Hl]%Forall_cons Hnd. cbn in Hs, Hr, Hid. subst k.
    destruct (json_round_trip c Hs Hr) as (d & Ed & Fd). rewrite Ed. cbn.
    apply NoDup_app in Hnd as H'. destruct H' as (_ & Hx & _).
    rewrite jset_new; [|intros Hin; apply (Hx _ Hin); set_solver].
    destruct (IH (acc ++ [(cam_id c, JObj d)])) as (d2 & E2 & F2 & G2); [done|by rewrite fmap_app, <- (assoc_L (++))|].
    exists ((cam_id c, JObj d) :: d2). rewrite E2, <- (assoc_L (++)). split; [done|]. split; [|cbn; by f_equal].
    unfold cameras_from_json in F2 |- *. rewrite mapR_cons. cbn [as_obj res_bind]. rewrite Fd. cbn [res_bind]. by rewrite F2.
Qed.

(** optional keys *)
Lemma jget_app d e k : jget (d ++ e) k = match jget d k with Some v => Some v | None => jget e k end.
Proof. induction d as [|[k' v'] d IH]; cbn; [done|]. by destruct (decide (k' = k)). Qed.
Definition optional_keys : list string :=
  ["k1"; "k2"; "k3"; "k4"; "k5"; "k6"; "p1"; "p2"; "s0"; "s1"; "s2"; "s3"; "c_x"; "c_y"].
Lemma jget_extra d k v k' : k' <> k -> jget (d ++ [(k, v)]) k' = jget d k'.
Proof. intros H. rewrite jget_app. cbn. destruct (decide (k = k')); [congruence|]. by destruct (jget d k'). Qed.
Lemma jreal0_extra d k k' : jget d k = None -> jreal0 (d ++ [(k, JNum 0%R)]) k' 0%R = jreal0 d k' 0%R.
Proof.
  intros H. unfold jreal0. destruct (decide (k' = k)) as [->|Hk].
  - rewrite jget_app, H. cbn. by destruct (decide (k = k)).
  - by rewrite jget_extra.
Qed.
Lemma optional_zero key d k : k ∈ optional_keys -> jget d k = None ->
  camera_from_json key (d ++ [(k, JNum 0%R)]) = camera_from_json key d.
Proof.
  intros Hk Hn.
  assert (Hother : forall k', k' ∈ ["projection_type"; "focal"; "focal_x"; "focal_y"; "width"; "height"; "transition"] ->
            jget (d ++ [(k, JNum 0%R)]) k' = jget d k').
  { intros k' Hk'. apply jget_extra. intros ->. unfold optional_keys in Hk.
    repeat (apply elem_of_cons in Hk as [->|Hk]; [set_solver|]). by apply elem_of_nil in Hk. }
  assert (Hmap : forall ks, jreals0 (d ++ [(k, JNum 0%R)]) ks = jreals0 d ks).
  { intros ks. unfold jreals0. induction ks as [|k' ks IH]; [done|]. rewrite !mapR_cons. by rewrite (jreal0_extra _ _ _ Hn), IH. }
  assert (Hfo : json_focals (d ++ [(k, JNum 0%R)]) = json_focals d).
  { unfold json_focals, jreal, jreq. rewrite !Hother by set_solver. by rewrite !(jreal0_extra _ _ _ Hn). }
  assert (Htr : jreal0 (d ++ [(k, JNum 0%R)]) "transition" (1/2)%R = jreal0 d "transition" (1/2)%R).
  { unfold jreal0. by rewrite Hother by set_solver. }
  unfold camera_from_json. rewrite Hfo, Htr, !Hmap, !(jreal0_extra _ _ _ Hn).
  unfold jreal, jreq. by rewrite !Hother by set_solver.
Qed.

(** parameters *)
Lemma set_param_spec c p x c' : set_param c p x = Ok c' ->
  get_param c' p = Ok x /\ (forall q, q <> p -> get_param c' q = get_param c q) /\
  cam_type c' = cam_type c /\ cam_params c' = cam_params c /\ cam_id c' = cam_id c /\ cam_width c' = cam_width c /\ cam_height c' = cam_height c.
Proof.
  unfold set_param, get_param. intros H. apply bind_ok in H as (r & E & H). injection H as <-. cbn.
  destruct (update_param_spec _ _ _ _ _ E) as (_ & H1 & H2). done.
Qed.
Lemma has_param c p : shape c -> (exists v, get_param c p = Ok v) <-> p ∈ cam_params c.
Proof.
  intros (_ & Hl & _). unfold get_param. revert Hl. generalize (cam_values c). induction (cam_params c) as [|q ps IH]; intros [|v vs]; cbn; try done.
  - intros _. split; [intros (? & [=])|intros H; by apply elem_of_nil in H].
  - intros H. destruct (decide (q = p)) as [->|].
    + split; [intros _; left|by eexists].
    + rewrite IH by lia. rewrite elem_of_cons. naive_solver.
Qed.
Lemma set_exists c p x : shape c -> p ∈ cam_params c -> exists c', set_param c p x = Ok c'.
Proof.
  intros (_ & Hl & _). unfold set_param. revert Hl. generalize (cam_values c) as vs. induction (cam_params c) as [|q ps IH]; intros [|v vs]; cbn; try done.
  - intros _ H; by apply elem_of_nil in H.
  - intros Hl H. destruct (decide (q = p)) as [->|]; cbn; [by eexists|].
    apply elem_of_cons in H as [->|H]; [done|]. destruct (IH vs) as (c' & E); [lia|done|].
    destruct (update_param ps vs p x); cbn in E |- *; [by eexists|done].
Qed.
