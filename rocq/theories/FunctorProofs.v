From stdpp Require Import prelude.
From Coq Require Import Reals Lra.
From Coquelicot Require Import Coquelicot.
From Verif Require Import Base FunctorModel FunctorSpec.
Local Open Scope R_scope.

(** ** sums and rows *)
Lemma sum_n_ext n f g : (forall k, (k < n)%nat -> f k = g k) -> sum_n n f = sum_n n g.
Proof.
  intros H. unfold sum_n. f_equal. apply map_ext_in. intros a Ha. apply H. apply in_seq in Ha. lia.
Qed.
Lemma foldr_plus_app l k : foldr Rplus 0 (l ++ k) = foldr Rplus 0 l + foldr Rplus 0 k.
Proof. induction l; cbn; [lra|]. rewrite IHl. lra. Qed.
Lemma sum_n_S n f : sum_n (S n) f = sum_n n f + f n.
Proof. unfold sum_n. rewrite seq_S, map_app, foldr_plus_app. cbn. lra. Qed.
Lemma sum_n_0 f : sum_n 0 f = 0. Proof. reflexivity. Qed.
Lemma sum_n_plus n f g : sum_n n (fun k => f k + g k) = sum_n n f + sum_n n g.
Proof. induction n; [rewrite !sum_n_0; lra|]. rewrite !sum_n_S, IHn. lra. Qed.
Lemma sum_n_scal n a f : sum_n n (fun k => a * f k) = a * sum_n n f.
Proof. induction n; [rewrite !sum_n_0; lra|]. rewrite !sum_n_S, IHn. lra. Qed.
Lemma sum_n_zero n f : (forall k, (k < n)%nat -> f k = 0) -> sum_n n f = 0.
Proof. induction n; intros H; [reflexivity|]. rewrite sum_n_S, IHn, H by auto with lia. lra. Qed.
Lemma sum_n_swap n m f : sum_n n (fun i => sum_n m (fun j => f i j)) = sum_n m (fun j => sum_n n (fun i => f i j)).
Proof.
  induction n.
  - rewrite sum_n_0. symmetry. apply sum_n_zero. intros. apply sum_n_0.
  - rewrite sum_n_S, IHn. rewrite <- sum_n_plus. apply sum_n_ext. intros. rewrite sum_n_S. reflexivity.
Qed.
Lemma sum_n_add n m f : sum_n (n + m) f = sum_n n f + sum_n m (fun k => f (n + k)%nat).
Proof.
  induction m; [rewrite Nat.add_0_r, sum_n_0; lra|]. rewrite Nat.add_succ_r, !sum_n_S, IHm. lra.
Qed.
Lemma scalar_product_sum u v n : length u = n -> length v = n -> scalar_product u v = sum_n n (fun c => u.[c] * v.[c]).
Proof.
  revert v n. induction u as [|a u IH]; intros [|b v] [|n] Hu Hv; cbn in Hu, Hv; try lia; [reflexivity|].
  cbn [scalar_product]. rewrite (IH v n) by lia.
  change (S n) with (1 + n)%nat. rewrite sum_n_add, sum_n_S, sum_n_0. cbn. lra.
Qed.
Lemma nth_row n i c J : (c < n)%nat -> (row n i J).[c] = J.[i * n + c].
Proof.
  intros Hc. unfold row. rewrite !nth_lookup.
  rewrite lookup_take by lia. rewrite lookup_drop. reflexivity.
Qed.
Lemma length_row n m i J : length J = (m * n)%nat -> (i < m)%nat -> length (row n i J) = n.
Proof. intros H Hi. unfold row. rewrite take_length, drop_length, H. nia. Qed.

Lemma nth_concat_rows (w : nat) (rows : list (list R)) i c :
  List.Forall (fun r => length r = w) rows -> (c < w)%nat -> (concat rows).[i * w + c] = (nth i rows []).[c].
Proof.
  revert i. induction rows as [|r rows IH]; intros i H Hc.
  - change (concat []) with (@nil R). transitivity 0; [destruct (i * w + c)%nat; reflexivity|]. destruct i, c; reflexivity.
  - apply Forall_cons_1 in H as [Hr H]. subst w. change (concat (r :: rows)) with (r ++ concat rows). destruct i as [|i].
    + rewrite app_nth1 by (cbn in *; lia). reflexivity.
    + rewrite app_nth2 by (cbn; lia). cbn [nth].
      replace (S i * length r + c - length r)%nat with (i * length r + c)%nat by (cbn; lia). apply IH; auto.
Qed.
Lemma nth_map_seq {A} (f : nat -> A) n i d : (i < n)%nat -> nth i (map f (seq 0 n)) d = f i.
Proof.
  intros H. rewrite (nth_indep _ d (f 0%nat)) by (rewrite map_length, seq_length; lia).
  rewrite map_nth, seq_nth by lia. reflexivity.
Qed.
Lemma concat_length_rows (w : nat) (rows : list (list R)) :
  List.Forall (fun r => length r = w) rows -> length (concat rows) = (length rows * w)%nat.
Proof. induction 1; cbn; [reflexivity|]. rewrite app_length. lia. Qed.

Lemma at_time_app xs ps t : at_time (xs ++ ps) t = at_time xs t ++ at_time ps t.
Proof. apply map_app. Qed.
Lemma at_time_length xs t : length (at_time xs t) = length xs.
Proof. apply map_length. Qed.
Lemma at_time_drop n xs t : at_time (drop n xs) t = drop n (at_time xs t).
Proof. unfold at_time. now rewrite skipn_map. Qed.

(** ** Correct jacobians *)
Definition moving (xs : list (R -> R)) (t : R) (dxs : list R) : Prop := Forall2 (fun f d => is_derive f t d) xs dxs.
Lemma velocity_moving xs t dxs : velocity xs t dxs <-> moving xs t dxs.
Proof. split; intros H; (eapply Forall2_impl; [exact H|]; intros; now apply is_derive_Reals). Qed.
Lemma moving_drop n xs t dxs : moving xs t dxs -> moving (drop n xs) t (drop n dxs).
Proof. apply Forall2_drop. Qed.
Lemma moving_length xs t dxs : moving xs t dxs -> length xs = length dxs.
Proof. apply Forall2_length. Qed.

Record good (f : functor) (d : bool) (x p : list R) : Prop := {
  good_value : (ForwardDerivatives f d x p).1 = Forward f x p;
  good_length : length (ForwardDerivatives f d x p).2 = (OutSize f * Stride f d)%nat;
  good_derive : forall xs ps t dxs dps, length xs = InSize f -> (ParamSize f <= length ps)%nat ->
    at_time xs t = x -> at_time ps t = p -> moving xs t dxs -> moving ps t dps -> (d = false -> List.Forall (eq 0) dps) ->
    forall j, (j < OutSize f)%nat ->
    is_derive (fun s => (Forward f (at_time xs s) (at_time ps s)).[j]) t
      (sum_n (Stride f d) (fun c => (ForwardDerivatives f d x p).2.[j * Stride f d + c] * (dxs ++ dps).[c])) }.
Definition sized (f : functor) : Prop := forall x p, length (Forward f x p) = OutSize f.

Lemma zeros_nth (l : list R) i : List.Forall (eq 0) l -> l.[i] = 0.
Proof. intros H. revert i. induction H; intros [|i]; cbn; auto. Qed.

(** From [good] to the specification *)
Lemma good_derivative_all f x p : good f true x p -> length x = InSize f -> length p = ParamSize f ->
  derivative_at (InSize f + ParamSize f) (OutSize f) (fun v => Forward f (take (InSize f) v) (drop (InSize f) v)) (x ++ p) (ForwardDerivatives f true x p).2.
Proof.
  intros G Hx Hp. assert (HS : (InSize f + ParamSize f)%nat = Stride f true) by (unfold Stride; lia).
  split.
  - rewrite (good_length _ _ _ _ G), HS. lia.
  - intros xs t dxs Hl Hat Hv i Hi. apply velocity_moving in Hv. apply is_derive_Reals.
    pose proof (moving_length _ _ _ Hv) as HL.
    assert (Hat1 : at_time (take (InSize f) xs) t = x).
    { unfold at_time. rewrite <- firstn_map. fold (at_time xs t). rewrite Hat.
      rewrite firstn_app, Hx, Nat.sub_diag, firstn_O, app_nil_r. rewrite <- Hx. apply firstn_all. }
    assert (Hat2 : at_time (drop (InSize f) xs) t = p).
    { rewrite at_time_drop, Hat, <- Hx. apply drop_app. }
    pose proof (good_derive _ _ _ _ G (take (InSize f) xs) (drop (InSize f) xs) t (take (InSize f) dxs) (drop (InSize f) dxs)) as D.
    specialize (D ltac:(rewrite take_length; lia) ltac:(rewrite drop_length; lia) Hat1 Hat2).
    specialize (D ltac:(now apply Forall2_take) ltac:(now apply Forall2_drop) ltac:(discriminate) i Hi).
    rewrite take_drop in D. rewrite HS.
    rewrite (scalar_product_sum _ _ (Stride f true)); [| |].
    + eapply is_derive_ext; [|].
      * intros s. cbn beta. reflexivity.
      * eapply (eq_rect _ (is_derive _ t)).
        -- eapply is_derive_ext; [|exact D]. intros s. cbn beta.
           unfold at_time. rewrite <- firstn_map, <- skipn_map. reflexivity.
        -- match goal with |- ?a = ?b => change (@eq R a b) end. apply sum_n_ext. intros k Hk. rewrite nth_row by lia. reflexivity.
    + apply (length_row _ (OutSize f)); [|lia]. apply (good_length _ _ _ _ G).
    + rewrite <- HL, Hl. exact HS.
Qed.
Lemma is_derive_const' (c : R) t : is_derive (fun _ => c) t 0.
Proof. apply (@is_derive_const R_AbsRing R_NormedModule). Qed.
Lemma moving_const p t : moving (map (fun a _ => a) p) t (map (fun _ => 0) p).
Proof. induction p; constructor; auto. apply is_derive_const'. Qed.
Lemma good_derivative_point f x p : good f false x p -> length x = InSize f -> (ParamSize f <= length p)%nat ->
  derivative_at (InSize f) (OutSize f) (fun v => Forward f v p) x (ForwardDerivatives f false x p).2.
Proof.
  intros G Hx Hp. assert (HS : InSize f = Stride f false) by (unfold Stride; lia).
  split; [rewrite (good_length _ _ _ _ G), <- HS; lia|].
  intros xs t dxs Hl Hat Hv i Hi. apply velocity_moving in Hv. apply is_derive_Reals.
  pose proof (moving_length _ _ _ Hv) as HL.
  assert (Hc : forall s, at_time (map (fun a _ => a) p) s = p). { intros s. unfold at_time. rewrite map_map. apply map_id. }
  pose proof (good_derive _ _ _ _ G xs (map (fun a _ => a) p) t dxs (map (fun _ => 0) p) Hl ltac:(rewrite map_length; lia) Hat (Hc t) Hv (moving_const p t)) as D.
  specialize (D ltac:(intros _; clear; induction p; constructor; auto) i Hi).
  rewrite HS. rewrite (scalar_product_sum _ _ (Stride f false)).
  - eapply (eq_rect _ (is_derive _ t)).
    + eapply is_derive_ext; [|exact D]. intros s. cbn beta. now rewrite Hc.
    + match goal with |- ?a = ?b => change (@eq R a b) end. apply sum_n_ext. intros k Hk. rewrite nth_row by lia.
      rewrite app_nth1 by lia. reflexivity.
  - apply (length_row _ (OutSize f)); [|lia]. apply (good_length _ _ _ _ G).
  - lia.
Qed.

(** ** Composition *)
Fixpoint ComposeForward (fs : list functor) (x params : list R) : list R :=
  match fs with
  | [] => []
  | f1 :: fs' => match fs' with [] => Forward f1 x params | _ => Forward f1 (ComposeForward fs' x params) (drop (ComposeIndex fs') params) end
  end.
Definition ComposeIn (fs : list functor) : nat := match last fs with Some f => InSize f | None => 0 end.
Definition Compose (fs : list functor) : functor :=
  Functor (ComposeIn fs) (ComposeIndex fs) (match fs with f :: _ => OutSize f | [] => 0 end) (ComposeForward fs) (fun d => ComposeForwardDerivatives d fs).
Lemma ComposeStrides_eq d fs : ComposeStrides d fs = Stride (Compose fs) d.
Proof.
  unfold Stride. cbn. unfold ComposeIn. induction fs as [|f1 [|f2 fs] IH]; [destruct d; reflexivity| |].
  - cbn. unfold Stride. destruct d; lia.
  - cbn [ComposeStrides] in *. rewrite IH. cbn. destruct d; lia.
Qed.
Lemma good_single f d x p : good f d x p -> good (Compose (f :: nil)) d x p.
Proof.
  intros G. assert (HS : Stride (Compose (f :: nil)) d = Stride f d). { rewrite <- ComposeStrides_eq. reflexivity. }
  split.
  - apply (good_value _ _ _ _ G).
  - rewrite HS. apply (good_length _ _ _ _ G).
  - intros. rewrite HS. cbn [ForwardDerivatives Compose ComposeForwardDerivatives Forward ComposeForward].
    apply (good_derive _ _ _ _ G); auto. cbn in *. lia.
Qed.
Definition component (f : functor) (xs ps : list (R -> R)) (j : nat) : R -> R := fun s => (Forward f (at_time xs s) (at_time ps s)).[j].
Lemma at_time_components f xs ps s : sized f -> at_time (map (component f xs ps) (seq 0 (OutSize f))) s = Forward f (at_time xs s) (at_time ps s).
Proof.
  intros Hs. unfold at_time at 1. rewrite map_map. unfold component.
  rewrite <- (Hs (at_time xs s) (at_time ps s)). apply nth_ext with (d := 0) (d' := 0).
  - rewrite map_length, seq_length. reflexivity.
  - intros n. rewrite map_length, seq_length. intros Hn. rewrite nth_map_seq by lia. reflexivity.
Qed.
Lemma nth_drop (l : list R) n i : (drop n l).[i] = l.[n + i].
Proof. rewrite !nth_lookup, lookup_drop. reflexivity. Qed.
Lemma good_compose f1 f2 fs d x p : sized f1 -> sized (Compose (f2 :: fs)) -> InSize f1 = OutSize f2 ->
  good (Compose (f2 :: fs)) d x p -> good f1 d (ComposeForward (f2 :: fs) x p) (drop (ComposeIndex (f2 :: fs)) p) ->
  good (Compose (f1 :: f2 :: fs)) d x p.
Proof.
  intros Hs1 Hs Hio G2 G1.
  set (inner := Compose (f2 :: fs)) in *. set (idx := ComposeIndex (f2 :: fs)) in *.
  set (tmp := ComposeForward (f2 :: fs) x p) in *.
  set (S2 := Stride inner d) in *. set (S1 := Stride f1 d) in *.
  set (P1 := (if d then ParamSize f1 else 0)%nat).
  assert (HS1 : S1 = (OutSize f2 + P1)%nat) by (unfold S1, Stride, P1; destruct d; lia).
  assert (HSt : Stride (Compose (f1 :: f2 :: fs)) d = (S2 + P1)%nat).
  { rewrite <- ComposeStrides_eq. change (((if d then ParamSize f1 else 0) + ComposeStrides d (f2 :: fs) = S2 + P1)%nat).
    rewrite ComposeStrides_eq. fold inner. unfold S2, P1. lia. }
  set (J2 := (ForwardDerivatives inner d x p).2) in *. set (J1 := (ForwardDerivatives f1 d tmp (drop idx p)).2) in *.
  assert (HFD : ForwardDerivatives (Compose (f1 :: f2 :: fs)) d x p =
     ((ForwardDerivatives f1 d tmp (drop idx p)).1, ComposeDerivatives d (OutSize f2) S2 (OutSize f1) S1 (ParamSize f1) J2 J1)).
  { cbn [ForwardDerivatives Compose]. change (ComposeForwardDerivatives d (f1 :: f2 :: fs) x p) with
      (let '(tmp0, sub) := ForwardDerivatives inner d x p in
       let '(out, cur) := ForwardDerivatives f1 d tmp0 (drop idx p) in
       (out, ComposeDerivatives d (OutSize f2) (ComposeStrides d (f2 :: fs)) (OutSize f1) (Stride f1 d) (ParamSize f1) sub cur)).
    rewrite ComposeStrides_eq. fold inner. rewrite (surjective_pairing (ForwardDerivatives inner d x p)).
    rewrite (good_value _ _ _ _ G2). change (Forward inner x p) with tmp.
    rewrite (surjective_pairing (ForwardDerivatives f1 d tmp (drop idx p))). reflexivity. }
  set (rw := fun i => map (fun c => sum_n (OutSize f2) (fun k => J1.[i * S1 + k] * J2.[k * S2 + c])) (seq 0 S2) ++
                      (if d then map (fun q => J1.[i * S1 + (OutSize f2 + q)]) (seq 0 (ParamSize f1)) else [])).
  assert (Hrw : forall i, length (rw i) = (S2 + P1)%nat).
  { intros i. unfold rw, P1. rewrite app_length, map_length, seq_length. destruct d; rewrite ?map_length, ?seq_length; cbn; lia. }
  assert (Hrows : List.Forall (fun r => length r = (S2 + P1)%nat) (map rw (seq 0 (OutSize f1)))).
  { apply List.Forall_forall. intros r Hr. apply in_map_iff in Hr. destruct Hr as (i & <- & _). apply Hrw. }
  change (ComposeDerivatives d (OutSize f2) S2 (OutSize f1) S1 (ParamSize f1) J2 J1) with (concat (map rw (seq 0 (OutSize f1)))) in HFD.
  split.
  - rewrite HFD. cbn. apply (good_value _ _ _ _ G1).
  - rewrite HFD, HSt. cbn [snd]. rewrite (concat_length_rows (S2 + P1)) by exact Hrows. rewrite map_length, seq_length. reflexivity.
  - intros xs ps t dxs dps Hxs Hps Hatx Hatp Hmx Hmp Hd j Hj. rewrite HSt, HFD. cbn [snd].
    cbn [InSize ParamSize OutSize Compose] in Hxs, Hps, Hj.
    change (ComposeIndex (f1 :: f2 :: fs)) with (ParamSize f1 + idx)%nat in Hps.
    set (dtmp := map (fun k => sum_n S2 (fun c => J2.[k * S2 + c] * (dxs ++ dps).[c])) (seq 0 (OutSize f2))).
    assert (Hin : InSize inner = length dxs). { rewrite <- (moving_length _ _ _ Hmx), Hxs. reflexivity. }
    assert (Hm : moving (map (component inner xs ps) (seq 0 (OutSize f2))) t dtmp).
    { unfold dtmp, moving. apply Forall2_fmap. apply Forall_Forall2_diag. apply List.Forall_forall. intros k Hk. apply in_seq in Hk.
      apply (good_derive _ _ _ _ G2); auto; try lia; [change (idx <= length ps)%nat; lia|change (k < OutSize f2)%nat; lia]. }
    pose proof (good_derive _ _ _ _ G1 (map (component inner xs ps) (seq 0 (OutSize f2))) (drop idx ps) t dtmp (drop idx dps)) as D.
    specialize (D ltac:(rewrite map_length, seq_length; lia) ltac:(rewrite drop_length; lia)).
    specialize (D ltac:(change (OutSize f2) with (OutSize inner); rewrite at_time_components by exact Hs; rewrite Hatx, Hatp; reflexivity)).
    specialize (D ltac:(rewrite at_time_drop, Hatp; reflexivity) Hm (moving_drop _ _ _ _ Hmp)).
    specialize (D ltac:(intros E; apply Forall_drop; auto) j Hj).
    eapply (eq_rect _ (is_derive _ t)).
    + eapply is_derive_ext; [|exact D]. intros s. cbn beta. change (OutSize f2) with (OutSize inner). rewrite at_time_components by exact Hs.
      rewrite at_time_drop. reflexivity.
    + match goal with |- ?a = ?b => change (@eq R a b) end.
      fold S1 J1. rewrite (sum_n_ext (S2 + P1) _ (fun c => (rw j).[c] * (dxs ++ dps).[c])).
      2:{ intros k Hk. rewrite (nth_concat_rows (S2 + P1)) by (auto; lia). rewrite nth_map_seq by lia. reflexivity. }
      rewrite HS1, !sum_n_add. f_equal.
      * rewrite (sum_n_ext (OutSize f2) _ (fun k => sum_n S2 (fun c => J1.[j * (OutSize f2 + P1) + k] * (J2.[k * S2 + c] * (dxs ++ dps).[c])))).
        2:{ intros k Hk. rewrite sum_n_scal. f_equal. rewrite app_nth1 by (unfold dtmp; rewrite map_length, seq_length; lia).
            unfold dtmp. rewrite nth_map_seq by lia. reflexivity. }
        rewrite sum_n_swap. apply sum_n_ext. intros c Hc. unfold rw. rewrite (app_nth1 (map _ _)) by (rewrite map_length, seq_length; lia).
        rewrite nth_map_seq by lia. rewrite HS1. rewrite Rmult_comm, <- sum_n_scal. apply sum_n_ext. intros. lra.
      * apply sum_n_ext. intros q Hq. unfold P1 in Hq. destruct d; [|lia].
        unfold rw. rewrite (app_nth2 (map _ _)) by (rewrite map_length, seq_length; lia). rewrite (map_length _ (seq 0 S2)), seq_length.
        replace (S2 + q - S2)%nat with q by lia. rewrite nth_map_seq by lia. rewrite HS1. f_equal.
        rewrite (app_nth2 dtmp) by (unfold dtmp; rewrite map_length, seq_length; lia).
        unfold dtmp at 1. rewrite map_length, seq_length. replace (OutSize f2 + q - OutSize f2)%nat with q by lia.
        rewrite nth_drop. unfold S2, Stride. rewrite Hin. rewrite app_nth2 by lia. f_equal. unfold inner. cbn [ParamSize Compose]. fold idx. lia.
Qed.
Lemma sized_compose f fs : sized f -> sized (Compose (f :: fs)).
Proof. intros H x p. destruct fs; apply H. Qed.
