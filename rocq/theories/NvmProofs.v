(** Proofs about NvmModel.v *)
From stdpp Require Import prelude gmap strings.
From Coq Require Import Reals Lra Psatz.
From Verif Require Import Base JsonModel CamModel ProjModel Lin RotModel RotProofs TracksModel PoseModel BundlerModel NvmModel NvmSpec.
Local Open Scope R_scope.

Lemma argmax_spec l : l <> [] -> exists e, argmax l = Some e /\ e ∈ l /\ forall e', e' ∈ l -> e'.1 <= e.1.
Proof.
  unfold argmax. set (f := fun _ _ => _).
  assert (G : forall l b, exists e, foldl f (Some b) l = Some e /\ e ∈ b :: l /\ forall e', e' ∈ b :: l -> e'.1 <= e.1).
  { clear l. induction l as [|a l IH]; intros b.
    - exists b. cbn. split; [done|]. split; [by left|]. intros e' [->|H]%elem_of_cons; [lra|by apply elem_of_nil in H].
    - cbn. destruct (Rlt_dec b.1 a.1) as [H|H].
      + destruct (IH a) as (e & E1 & E2 & E3). exists e. split; [done|]. split; [by right|]. intros e' [->|He']%elem_of_cons; [|by apply E3].
        specialize (E3 a ltac:(by left)). lra.
      + destruct (IH b) as (e & E1 & E2 & E3). exists e. split; [done|]. split; [apply elem_of_cons in E2 as [->|E2]; [by left|by right; right]|].
        intros e' [->|[->|He']%elem_of_cons]%elem_of_cons; [by apply E3; left| |by apply E3; right]. specialize (E3 b ltac:(by left)). lra. }
  destruct l as [|a l]; [done|]. intros _. cbn. apply (G l a).
Qed.

Lemma davenport_eigen M : rotation M -> exists v, unit4 v /\ eigenpair (davenport M) 1 v.
Proof.
  intros HM. destruct (quaternion_spec M HM) as [Hu Hq]. destruct (quaternion M) as [w v] eqn:Eq. cbn [fst snd] in Hu. clear Eq.
  destruct v as [x y z]. unfold dot in Hu. cbn in Hu. exists (Vec4 x y z w). split; [unfold unit4; cbn; lra|].
  assert (HK : davenport M = Lower4 ((4 * x * x - 1) / 3) (4 * x * y / 3) ((4 * y * y - 1) / 3) (4 * x * z / 3) (4 * y * z / 3) ((4 * z * z - 1) / 3)
                               (4 * x * w / 3) (4 * y * w / 3) (4 * z * w / 3) ((4 * w * w - 1) / 3)).
  { rewrite <- Hq. unfold davenport, qmat. cbn. f_equal; lra. }
  rewrite HK. unfold eigenpair, sym_apply. cbn.
  assert (HU : forall a, a * ((4 * (w * w + (x * x + y * y + z * z)) - 1) / 3) = 1 * a) by (intros a; rewrite Hu; field).
  f_equal; (etransitivity; [|apply HU]); field.
Qed.
(** The eigenvector of the largest eigenvalue is the quaternion of the rotation, up to sign *)
Lemma davenport_top M eigh e : rotation M -> diagonalises eigh (davenport M) -> argmax (eigh (davenport M)) = Some e ->
  exists w v, qmat (w, v) = M /\ w * w + dot v v = 1 /\ e.2 = Vec4 (vx v) (vy v) (vz v) w.
Proof.
  intros HM [HD1 HD2] He. destruct (quaternion_spec M HM) as [Hu Hq]. destruct (quaternion M) as [w v] eqn:Eq. cbn [fst snd] in Hu. clear Eq.
  destruct v as [x y z]. unfold dot in Hu. cbn in Hu.
  assert (HK : davenport M = Lower4 ((4 * x * x - 1) / 3) (4 * x * y / 3) ((4 * y * y - 1) / 3) (4 * x * z / 3) (4 * y * z / 3) ((4 * z * z - 1) / 3)
                               (4 * x * w / 3) (4 * y * w / 3) (4 * z * w / 3) ((4 * w * w - 1) / 3)).
  { rewrite <- Hq. unfold davenport, qmat. cbn. f_equal; lra. }
  assert (Hp : eigenpair (davenport M) 1 (Vec4 x y z w)).
  { rewrite HK. unfold eigenpair, sym_apply. cbn.
    assert (HU : forall a, a * ((4 * (w * w + (x * x + y * y + z * z)) - 1) / 3) = 1 * a) by (intros a; rewrite Hu; field).
    f_equal; (etransitivity; [|apply HU]); field. }
  assert (Hpu : unit4 (Vec4 x y z w)) by (unfold unit4; cbn; lra).
  assert (Hne : eigh (davenport M) <> []). { intros E. specialize (HD2 _ _ Hpu Hp). rewrite E in HD2. by apply elem_of_nil in HD2. }
  destruct (argmax_spec _ Hne) as (e' & E1 & E2 & E3). rewrite He in E1. injection E1 as <-.
  destruct e as [l [a b c d]]. destruct (HD1 _ _ E2) as [Hv HvE]. cbn [fst snd] in *.
  assert (Hl : 1 <= l). { specialize (HD2 _ _ Hpu Hp). apply elem_of_list_fmap in HD2 as ([l1 v1] & Hl1 & Hin). cbn in Hl1. subst l1. by specialize (E3 _ Hin). }
  rewrite HK in HvE. unfold eigenpair, sym_apply in HvE. cbn in HvE. injection HvE as V1 V2 V3 V4. unfold unit4 in Hv. cbn in Hv.
  set (s := x * a + y * b + z * c + w * d).
  assert (S1 : 4 * s * x = (3 * l + 1) * a) by (unfold s; lra). assert (S2 : 4 * s * y = (3 * l + 1) * b) by (unfold s; lra).
  assert (S3 : 4 * s * z = (3 * l + 1) * c) by (unfold s; lra). assert (S4 : 4 * s * w = (3 * l + 1) * d) by (unfold s; lra).
  assert (SS : 4 * s * s = 3 * l + 1).
  { transitivity (a * (4 * s * x) + b * (4 * s * y) + c * (4 * s * z) + d * (4 * s * w)); [unfold s; ring|]. rewrite S1, S2, S3, S4.
    transitivity ((3 * l + 1) * (a * (a * 1) + b * (b * 1) + c * (c * 1) + d * (d * 1))); [ring|]. rewrite Hv. ring. }
  assert (CS : s * s <= 1).
  { assert (0 <= (a - s * x) ^ 2 + (b - s * y) ^ 2 + (c - s * z) ^ 2 + (d - s * w) ^ 2) as H by (pose proof (pow2_ge_0 (a - s * x)); pose proof (pow2_ge_0 (b - s * y)); pose proof (pow2_ge_0 (c - s * z)); pose proof (pow2_ge_0 (d - s * w)); lra).
    replace ((a - s * x) ^ 2 + (b - s * y) ^ 2 + (c - s * z) ^ 2 + (d - s * w) ^ 2) with
      ((a * (a * 1) + b * (b * 1) + c * (c * 1) + d * (d * 1)) - 2 * s * (x * a + y * b + z * c + w * d) + s * s * (w * w + (x * x + y * y + z * z))) in H by ring.
    rewrite Hv, Hu in H. fold s in H. lra. }
  assert (Hs : s * s = 1) by lra. assert (Hl1 : l = 1) by lra. subst l.
  assert (A1 : a = s * x) by lra. assert (A2 : b = s * y) by lra. assert (A3 : c = s * z) by lra. assert (A4 : d = s * w) by lra.
  assert (QQ : forall p q, s * p * (s * q) = p * q) by (intros p q; transitivity (s * s * (p * q)); [ring|rewrite Hs; ring]).
  exists d, (Vec a b c). cbn. split; [|split; [unfold dot; cbn; lra|done]]. rewrite <- Hq, A1, A2, A3, A4. unfold qmat. cbn.
  pose proof (QQ x x). pose proof (QQ y y). pose proof (QQ z z). pose proof (QQ w w). pose proof (QQ x y). pose proof (QQ x z). pose proof (QQ x w).
  pose proof (QQ y z). pose proof (QQ y w). pose proof (QQ z w). f_equal; lra.
Qed.
Lemma turn_qmat w v q : unit4 q -> q = Vec4 w (vx v) (vy v) (vz v) -> forall x, turn q x = mvec (qmat (w, v)) x.
Proof.
  intros Hu -> [x y z]. unfold unit4 in Hu. destruct v as [a b c]. cbn in Hu. unfold turn, qmul, conj, qmat, mvec. cbn. f_equal; nra.
Qed.

Section Shots.
Variable eigh : lower4 -> list (R * vec4).
Variables (image_size : string -> Z * Z) (export_only : option (gset string)).
Notation sel := (selected export_only).
Definition chosen (l : list (string * (camera * pose))) := filter (fun sh => sel sh.1 = true) l.
(** What the loop over the shots leaves *)
Lemma nvm_shots_spec l : forall lines i cache sk lines' i' cache' sk',
  nvm_shots eigh image_size export_only (lines, i, cache, sk) l = Ok (lines', i', cache', sk') -> NoDup (l.*1) ->
  (exists new, lines' = lines ++ new /\
     Forall2 (fun sh nc => nc_name nc = sh.1 /\ nc_origin nc = get_origin sh.2.2 /\ quaternion_from_matrix eigh (w_rot sh.2.2) = Ok (nc_q nc) /\
       exists f, nvm_focal sh.2.1 = Ok f /\ nc_focal nc = f * IZR (Z.max (image_size sh.1).1 (image_size sh.1).2)) (chosen l) new) /\
  (sk' = sk + Z.of_nat (length l) - Z.of_nat (length (chosen l)))%Z /\
  (forall k, k ∉ (chosen l).*1 -> cache' !! k = cache !! k) /\
  (forall n sh, chosen l !! n = Some sh -> cache' !! sh.1 = Some (image_size sh.1, (i + n)%nat)).
Proof.
  induction l as [|[id [c p]] l IH]; intros lines i cache sk lines' i' cache' sk' H HN; cbn [nvm_shots] in H.
  { injection H as <- <- <- <-. split; [exists []; rewrite app_nil_r; split; [done|constructor]|]. split; [cbn; lia|]. split; [done|]. intros n sh Hn. unfold chosen in Hn. cbn in Hn. by rewrite lookup_nil in Hn. }
  cbn in HN. apply NoDup_cons in HN as [Hid HN]. unfold nvm_shot_step in H. unfold chosen. rewrite filter_cons. cbn [fst]. destruct (sel id) eqn:Es.
  - rewrite decide_True by done. fold (chosen l).
    destruct (quaternion_from_matrix eigh (w_rot p)) as [q|] eqn:Eq; [|done]. cbn [res_bind] in H.
    destruct (nvm_focal c) as [f|] eqn:Ef; [|done]. cbn [res_bind] in H. apply IH in H as ((new & -> & Hnew) & -> & Hc & Hn); [|done].
    split; [eexists; rewrite <- app_assoc; split; [reflexivity|]; constructor; [|done]|].
    { cbn. split; [done|]. split; [done|]. split; [done|]. by exists f. }
    split; [cbn [length]; lia|]. split.
    + intros k Hk. cbn in Hk. apply not_elem_of_cons in Hk as [Hk1 Hk2]. rewrite Hc by done. by rewrite lookup_insert_ne.
    + intros [|n] sh Hsh; cbn in Hsh.
      * injection Hsh as <-. cbn. rewrite Hc. { rewrite lookup_insert. do 2 f_equal. lia. }
        intros Hin. apply elem_of_list_fmap in Hin as (sh & -> & Hin). apply elem_of_list_filter in Hin as [_ Hin]. apply Hid. by apply elem_of_list_fmap_1.
      * rewrite (Hn n sh Hsh). do 2 f_equal. lia.
  - rewrite decide_False by done. fold (chosen l). cbn [res_bind] in H. apply IH in H as ((new & -> & Hnew) & -> & Hc & Hn); [|done].
    split; [by exists new|]. split; [cbn [length]; lia|]. split; [done|]. done.
Qed.
Lemma nvm_shots_ok l st : (forall sh, sh ∈ l -> sel sh.1 = true -> (exists q, quaternion_from_matrix eigh (w_rot sh.2.2) = Ok q) /\ exists f, nvm_focal sh.2.1 = Ok f) ->
  exists st', nvm_shots eigh image_size export_only st l = Ok st'.
Proof.
  revert st. induction l as [|[id [c p]] l IH]; intros st H; [by eexists|]. cbn [nvm_shots]. destruct st as [[[lines i] cache] sk]. unfold nvm_shot_step.
  destruct (sel id) eqn:Es.
  - destruct (H (id, (c, p))) as [[q Hq] [f Hf]]; [by left|done|]. cbn [fst snd] in Hq, Hf. rewrite Hq. cbn [res_bind]. rewrite Hf. cbn [res_bind]. apply IH. intros sh Hsh. apply H. by right.
  - cbn [res_bind]. apply IH. intros sh Hsh. apply H. by right.
Qed.
End Shots.

Section Views.
Variables (shots : list (string * (camera * pose))) (export_only : option (gset string)) (cache : gmap string (Z * Z * nat)).
Notation sel := (selected export_only).
Definition shown (k : string) : bool := sel k && bool_decide (k ∈ shots.*1).
Definition view_of (so : string * obs) : option nvm_view :=
  if shown so.1 then match cache !! so.1 with
    | Some (size, index) => Some (NvmView index (o_feature so.2) ((0.5 + o_x so.2) * IZR size.2) ((0.5 + o_y so.2) * IZR size.1)) | None => None end
  else None.
Lemma nvm_views_spec l : (forall k, shown k = true -> is_Some (cache !! k)) ->
  nvm_views shots export_only cache l = Ok (omap view_of l).
Proof.
  intros HC. induction l as [|so l IH]; [done|].
  change (omap view_of (so :: l)) with (match view_of so with Some y => y :: omap view_of l | None => omap view_of l end).
  cbn [nvm_views foldr]. fold (nvm_views shots export_only cache l). rewrite IH. cbn [res_bind].
  assert (Ev : view_of so = view_of so) by done. unfold view_of in Ev at 2. unfold shown in Ev.
  destruct (sel so.1) eqn:Es; [|by rewrite Ev]. destruct (bool_decide (so.1 ∈ shots.*1)) eqn:Eb; [|by rewrite Ev]. cbn [andb] in Ev.
  destruct (HC so.1) as [[size index] Hx]; [unfold shown; by rewrite Es, Eb|]. rewrite Hx in Ev |- *. by rewrite Ev.
Qed.
Lemma view_of_length l : (forall k, shown k = true -> is_Some (cache !! k)) -> length (omap view_of l) = length (filter (fun so => shown so.1 = true) l).
Proof.
  intros HC. induction l as [|so l IH]; [done|].
  change (omap view_of (so :: l)) with (match view_of so with Some y => y :: omap view_of l | None => omap view_of l end).
  rewrite filter_cons. assert (Ev : view_of so = view_of so) by done. unfold view_of in Ev at 2. destruct (shown so.1) eqn:Es.
  - destruct (HC _ Es) as [[size index] Hx]. rewrite Hx in Ev. rewrite Ev. rewrite decide_True by done. cbn [length]. by rewrite IH.
  - rewrite Ev. rewrite decide_False by done. done.
Qed.
End Views.
