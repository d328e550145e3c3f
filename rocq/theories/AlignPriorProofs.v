(** Proofs about the alignment with a prior on the orientation of the cameras *)
From stdpp Require Import prelude gmap strings.
From Coq Require Import Reals Lra Psatz.
From Verif Require Import Base Lin MapModel RotModel RotProofs PlaneProofs PlaneProps TriangModel PoseModel AnglesModel AnglesSpec FitModel FitSpec FitProofs FitPlaneProofs FitProps AlignModel AlignSpec AlignProofs.
Local Open Scope R_scope.

(** ** Directions of the picture *)
Lemma directions_picture r o : (get_horizontal_and_vertical_directions r o).1 = (picture_right r o, picture_bottom r o).
Proof. destruct o as [|o|o]; [done| |done]. destruct o as [[[[o|o|]|[o|o|]|]|[[o|o|]|[o|o|]|]|]|[[[o|o|]|[o|o|]|]|[[o|o|]|[o|o|]|]|]|]; done. Qed.
Lemma directions_front r o : (get_horizontal_and_vertical_directions r o).2 = if decide (o ∈ [2; 5; 7]%Z) then vopp (viewing r) else viewing r.
Proof.
  destruct (decide (o ∈ [2; 5; 7]%Z)) as [H|H].
  - repeat (apply elem_of_cons in H as [->|H]); [done..|inversion H].
  - assert (o <> 2 /\ o <> 5 /\ o <> 7)%Z as (H2 & H5 & H7) by (repeat split; intros ->; apply H; set_solver).
    destruct o as [|o|o]; [done| |done]. destruct o as [[[[o|o|]|[o|o|]|]|[[o|o|]|[o|o|]|]|]|[[[o|o|]|[o|o|]|]|[[o|o|]|[o|o|]|]|]|]; try done.
Qed.
Lemma prior_vectors_spec prior up r o : prior_holds prior up r o ->
  (prior_vectors prior r o).1 = (horizontals prior r o) \/ (prior_vectors prior r o).1 = [picture_right r o; vopp (viewing r)] /\ prior = "horizontal"%string.
Proof.
  pose proof (directions_picture r o) as E1. pose proof (directions_front r o) as E2. unfold prior_holds, horizontals, prior_vectors.
  destruct (get_horizontal_and_vertical_directions r o) as [[x y] z]. cbn in E1, E2. injection E1 as -> ->. subst z.
  repeat case_decide; intros; try done; cbn; auto.
Qed.
Lemma prior_vectors_up prior up r o : prior_holds prior up r o ->
  (forall v, v ∈ (prior_vectors prior r o).1 -> dot v up = 0) /\ exists v, (prior_vectors prior r o).2 = [v] /\ 0 < dot v up.
Proof.
  pose proof (directions_picture r o) as E1. pose proof (directions_front r o) as E2. unfold prior_holds, prior_vectors.
  destruct (get_horizontal_and_vertical_directions r o) as [[x y] z]. cbn in E1, E2. injection E1 as -> ->.
  assert (forall v, dot (vopp v) up = - dot v up) as Ho by dreal.
  destruct (decide (prior = "no_roll"%string)); [|destruct (decide (prior = "horizontal"%string)); [|destruct (decide (prior = "vertical"%string)); [|by intros []]]]; cbn [fst snd].
  - intros [H1 H2]. split; [intros v ->%elem_of_list_singleton; exact H1|]. eexists. split; [done|]. rewrite Ho. lra.
  - intros [[H1 H2] H3]. split; [|eexists; split; [done|]; rewrite Ho; lra]. intros v [-> | ->%elem_of_list_singleton]%elem_of_cons; [done|]. subst z. case_decide; rewrite ?Ho; lra.
  - intros [(H1 & H2 & H3) H4]. subst z. rewrite decide_False by done. split; [|eexists; split; [done|]; rewrite Ho; lra]. by intros v [-> | ->%elem_of_list_singleton]%elem_of_cons.
Qed.

(** ** The plane *)
Lemma product_nonneg rows p : 0 <= squared_product rows p.
Proof. unfold squared_product. induction rows as [|r l IH]; cbn [foldr]; [lra|]. pose proof (Rle_0_sqr (product r p)) as H. unfold Rsqr in H. lra. Qed.
Lemma product_zero rows p : squared_product rows p = 0 <-> forall r, r ∈ rows -> product r p = 0.
Proof.
  unfold squared_product. induction rows as [|r l IH]; cbn [foldr]; [split; [intros _ ? H; inversion H|done]|]. pose proof (product_nonneg l p) as Hn. fold (squared_product l p). split.
  - intros H. assert (product r p * product r p = 0) as E by nra. assert (product r p = 0) by nra. assert (squared_product l p = 0) as E2 by lra.
    intros r' [->|H']%elem_of_cons; [done|]. by apply IH.
  - intros H. rewrite (H r) by left. assert (squared_product l p = 0) as -> by (apply IH; intros; apply H; by right). ring.
Qed.
Lemma perp_cross p q n u : dot p n = 0 -> dot q n = 0 -> dot p u = 0 -> dot q u = 0 -> dot u u = 1 -> cross p q <> v0 -> n = vscale (dot n u) u.
Proof.
  intros H1 H2 H3 H4 Hu Hc.
  (* cross p q = k u *)
  assert (forall w, dot p w = 0 -> dot q w = 0 -> cross (cross p q) w = v0) as G.
  { intros w Hp Hq. transitivity (vsub (vscale (dot p w) q) (vscale (dot q w) p)); [dvec|]. rewrite Hp, Hq. dvec. }
  pose proof (G n H1 H2) as Cn. pose proof (G u H3 H4) as Cu. set (k := cross p q) in *. clearbody k.
  assert (k = vscale (dot k u) u) as Ek.
  { apply sub_eq. transitivity (vopp (cross (cross k u) u)); [|rewrite Cu; dvec]. transitivity (vsub (vscale (dot u u) k) (vscale (dot k u) u)); [rewrite Hu; dvec|dvec]. }
  set (t := dot k u) in *. assert (t <> 0) as Ht. { intros E. apply Hc. rewrite Ek, E. dvec. }
  assert (cross u n = v0) as Cu'. { rewrite Ek in Cn. assert (vscale t (cross u n) = v0) as E by (rewrite <- Cn; dvec). transitivity (vscale (/ t) (vscale t (cross u n))); [|rewrite E; dvec].
    generalize (cross u n). intros w. destruct w. unfold vscale; cbn. f_equal; field; done. }
  apply sub_eq. transitivity (vopp (cross u (cross u n))); [|rewrite Cu'; dvec]. transitivity (vsub (vscale (dot u u) n) (vscale (dot n u) u)); [rewrite Hu; dvec|dvec].
Qed.
Lemma not_close n : dot n n = 1 -> close_to_zero n = false.
Proof.
  intros H. unfold close_to_zero. destruct (Rle_dec (Rabs (vx n)) _) as [Hx|]; [|done]. destruct (Rle_dec (Rabs (vy n)) _) as [Hy|]; [|done]. destruct (Rle_dec (Rabs (vz n)) _) as [Hz|]; [|done].
  exfalso. assert (0 < / 10 ^ 8 <= / 10) as [He1 He2].
  { split; [apply inv10_pos|]. apply Rinv_le_contravar; [lra|]. replace (10 ^ 8) with (10 * 10 ^ 7) by ring. assert (1 <= 10 ^ 7) by (apply pow_R1_Rle; lra). lra. }
  unfold dot in H. set (e := / 10 ^ 8) in *. clearbody e. destruct n as [x y z]. cbn in *. assert (forall w, Rabs w <= e -> w * w <= / 100) as G; [|specialize (G _ Hx) as G1; specialize (G _ Hy) as G2; specialize (G _ Hz) as G3; lra].
  intros w Hw. destruct (Rcase_abs w) as [N|N]; [rewrite Rabs_left in Hw by done|rewrite Rabs_right in Hw by done]; nra.
Qed.
Lemma sumR_scale k l : sumR ((fun x => k * x) <$> l) = k * sumR l.
Proof. induction l as [|x l IH]; unfold sumR in *; cbn; [ring|]. rewrite IH. ring. Qed.
Lemma plane_found eigenvector points vectors verticals up : points <> [] -> smallest_eigenvector (plane_rows (centred points) vectors) (eigenvector (plane_rows (centred points) vectors)) ->
  dot up up = 1 -> (forall p q, p ∈ points -> q ∈ points -> dot p up = dot q up) -> (forall v, v ∈ vectors -> dot v up = 0) ->
  verticals <> [] -> (forall v, v ∈ verticals -> 0 < dot v up) ->
  (exists p q, (forall n, (forall x, x ∈ centred points ++ vectors -> dot x n = 0) -> dot p n = 0 /\ dot q n = 0) /\ cross p q <> v0) ->
  fit_plane eigenvector (centred points) vectors verticals = Some (up, 0).
Proof.
  intros Hne [Hu Hmin] Hup Hp Hv Hve Hvert (p & q & Hpq & Hc).
  unfold fit_plane. destruct (centred points) as [|c0 cs] eqn:Ec; [destruct points; done|]. rewrite <- Ec in *. clear Ec c0 cs.
  set (rows := plane_rows (centred points) vectors) in *. destruct (eigenvector rows) as [n d]. cbn [fst snd] in *. unfold unit4 in Hu. cbn [fst snd] in Hu.
  set (s := 1 / Rmax (/ 10 ^ 8) (std (mjoin (coordinates <$> centred points)))).
  assert (0 < s) as Hs. { unfold s. apply Rdiv_lt_0_compat; [lra|]. pose proof (inv10_pos 8). pose proof (Rmax_l (/ 10 ^ 8) (std (mjoin (coordinates <$> centred points)))). lra. }
  assert (forall x, x ∈ centred points -> dot x up = 0) as Hcp.
  { destruct points as [|p0 ps] eqn:Eps; [done|]. rewrite <- Eps in *. assert (dot (vmean points) up = dot p0 up) as Em.
    { unfold vmean. replace (dot (vscale (/ INR (length points)) (vsum points)) up) with (/ INR (length points) * dot (vsum points) up) by dreal.
      assert (dot (vsum points) up = INR (length points) * dot p0 up) as ->; [|field; apply not_0_INR; rewrite Eps; done].
      assert (forall l, (forall x, x ∈ l -> dot x up = dot p0 up) -> dot (vsum l) up = INR (length l) * dot p0 up) as G; [|apply G; intros x Hx; apply Hp; [done|rewrite Eps; left]].
      clear. induction l as [|x l IH]; intros H; [cbn; unfold v0, dot; cbn; ring|]. cbn [length]. rewrite S_INR. unfold vsum in *. cbn [foldr].
      replace (dot (vadd x (foldr vadd v0 l)) up) with (dot x up + dot (foldr vadd v0 l) up) by dreal. rewrite IH by (intros; apply H; by right). rewrite (H x) by left. ring. }
    intros y (x & -> & Hx)%elem_of_list_fmap. replace (dot (vadd x (vopp (vmean points))) up) with (dot x up - dot (vmean points) up) by dreal. rewrite Em, (Hp x p0) by (try done; rewrite Eps; left). ring. }
  assert (squared_product rows (n, d) = 0) as Z.
  { assert (squared_product rows (up, 0) = 0) as Z0.
    { apply product_zero. intros r Hr. unfold rows, plane_rows in Hr. fold s in Hr. apply elem_of_app in Hr as [(x & -> & Hx)%elem_of_list_fmap|(x & -> & Hx)%elem_of_list_fmap]; unfold product; cbn [fst snd].
      - replace (dot (vscale s x) up) with (s * dot x up) by dreal. rewrite Hcp by done. ring.
      - replace (dot (vscale s x) up) with (s * dot x up) by dreal. rewrite Hv by done. ring. }
    pose proof (product_nonneg rows (n, d)). specialize (Hmin (up, 0)). unfold unit4 in Hmin. cbn [fst snd] in Hmin. lra. }
  rewrite product_zero in Z.
  assert (forall x, x ∈ centred points -> s * dot x n + d = 0) as Zp.
  { intros x Hx. specialize (Z (vscale s x, 1)). unfold product in Z. cbn [fst snd] in Z. replace (dot (vscale s x) n) with (s * dot x n) in Z by dreal. rewrite <- Z; [ring|].
    unfold rows, plane_rows. fold s. apply elem_of_app. left. apply elem_of_list_fmap. by exists x. }
  assert (forall x, x ∈ vectors -> dot x n = 0) as Zv.
  { intros x Hx. specialize (Z (vscale s x, 0)). unfold product in Z. cbn [fst snd] in Z. replace (dot (vscale s x) n) with (s * dot x n) in Z by dreal.
    assert (s * dot x n + 0 * d = 0) as E; [|nra]. apply Z. unfold rows, plane_rows. fold s. apply elem_of_app. right. apply elem_of_list_fmap. by exists x. }
  assert (d = 0) as ->.
  { assert (forall l, (forall x, x ∈ l -> s * dot x n + d = 0) -> s * dot (vsum l) n + INR (length l) * d = 0) as G.
    { clear. induction l as [|x l IH]; intros H; [cbn; unfold v0, dot; cbn; ring|]. cbn [length]. rewrite S_INR. unfold vsum in *. cbn [foldr].
      replace (dot (vadd x (foldr vadd v0 l)) n) with (dot x n + dot (foldr vadd v0 l) n) by dreal. specialize (IH ltac:(intros; apply H; by right)). specialize (H x ltac:(left)). nra. }
    specialize (G (centred points) Zp). rewrite vsum_centred in G by done. replace (dot v0 n) with 0 in G by dreal. rewrite centred_length in G.
    assert (INR (length points) <> 0) by (apply not_0_INR; by destruct points). nra. }
  assert (forall x, x ∈ centred points ++ vectors -> dot x n = 0 /\ dot x up = 0) as Hall.
  { intros x [H|H]%elem_of_app; [|split; [by apply Zv|by apply Hv]]. split; [|by apply Hcp]. specialize (Zp x H). nra. }
  destruct (Hpq n (fun x H => proj1 (Hall x H))) as [? ?], (Hpq up (fun x H => proj2 (Hall x H))) as [? ?].
  assert (n = vscale (dot n up) up) as En by (by apply (perp_cross p q)).
  assert (dot n n = 1) as Hn by lra. rewrite not_close by done. set (k := dot n up) in *. clearbody k. subst n.
  assert (k * k = 1) as Hk. { replace (dot (vscale k up) (vscale k up)) with (k * k * dot up up) in Hn by dreal. rewrite Hup in Hn. lra. }
  destruct verticals as [|v1 vs] eqn:Ev; [done|]. rewrite <- Ev in *. clear Hve.
  set (dd := sumR ((fun v => dot (vscale k up) v) <$> verticals)). assert (exists t, 0 < t /\ dd = k * t) as (t & Ht & Ed).
  { exists (sumR ((fun v => dot v up) <$> verticals)). split.
    - rewrite Ev. unfold sumR. cbn [fmap list_fmap foldr]. assert (0 < dot v1 up) by (apply Hvert; rewrite Ev; left).
      assert (0 <= foldr Rplus 0 ((fun v => dot v up) <$> vs)); [|lra]. apply sumR_nonneg. intros x (v & -> & Hx)%elem_of_list_fmap. apply Rlt_le, Hvert. rewrite Ev. by right.
    - unfold dd. rewrite <- sumR_scale, <- list_fmap_compose. f_equal. apply list_fmap_ext. intros i v _. cbn. generalize v. dreal. }
  rewrite Ed. assert (k = 1 \/ k = -1) as [-> | ->] by (assert ((k - 1) * (k + 1) = 0) as E by lra; apply Rmult_integral in E; lra); unfold sign.
  - destruct (Rlt_dec 0 (1 * t)); [|lra]. rewrite Rmult_0_r. f_equal. f_equal. clear. dvec.
  - destruct (Rlt_dec 0 (-1 * t)); [lra|]. destruct (Rlt_dec (-1 * t) 0); [|lra]. rewrite Rmult_0_r. f_equal. f_equal. clear. dvec.
Qed.
