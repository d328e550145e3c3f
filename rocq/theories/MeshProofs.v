From stdpp Require Import prelude strings gmap.
From Coq Require Import Reals Lra Lia.
From Verif Require Import Base Lin PoseModel PoseSpec PoseProofs CamModel MeshModel MeshSpec.
Local Open Scope R_scope.

Lemma back_project_shows p c pixel depth : valid p -> ph_focal c <> 0 -> ph_aspect c <> 0 -> shows p c (back_project_no_distortion p c pixel depth) pixel depth.
Proof.
  intros Hp Hf Ha. unfold shows, back_project_no_distortion. rewrite (transform_cancel' p) by done.
  unfold mvec, minv, get_K, adj, det, mscale, vscale. cbn [vx vy vz m11 m12 m13 m21 m22 m23 m31 m32 m33]. split_and!; field; split_and!; auto.
Qed.

Lemma foldl_omap {A B} (f : A -> option B) (l : list A) acc : foldl (fun acc a => match f a with Some b => acc ++ [b] | None => acc end) acc l = acc ++ omap f l.
Proof.
  revert acc. induction l as [|a l IH]; intros acc; cbn [foldl omap list_omap]; [by rewrite app_nil_r|]. rewrite IH. destruct (f a); [by rewrite <- app_assoc|done].
Qed.
Lemma foldl_ext_list {A B} (f g : B -> A -> B) acc l : (forall b a, f b a = g b a) -> foldl f acc l = foldl g acc l.
Proof. intros H. revert acc. induction l as [|a l IH]; intros acc; cbn [foldl]; [done|]. by rewrite H, IH. Qed.
Lemma omap_sublist {A B C} (f : A -> option B) (g : A -> option C) (h : B -> C) (l : list A) : (forall a b, f a = Some b -> g a = Some (h b)) -> h <$> omap f l `sublist_of` omap g l.
Proof.
  intros H. induction l as [|a l IH]; cbn; [done|]. destruct (f a) as [b|] eqn:E; cbn; [rewrite (H _ _ E); by apply sublist_skip|]. destruct (g a); [by apply sublist_cons|done].
Qed.

Section mesh.
  Context (p : pose) (observations : list string) (points : gmap string vec) (project : vec -> option (R * R)).
  Definition visible_point (dx dy : R) (id : string) : option (vec * (R * R)) :=
    match points !! id with
    | None => None
    | Some point => match project point with Some pixel => if (if Rle_dec (- dx) pixel.1 then if Rle_dec pixel.1 dx then if Rle_dec (- dy) pixel.2 then if Rle_dec pixel.2 dy then true else false else false else false else false) then Some (point, pixel) else None | None => None end
    end.
  Lemma visible_omap dx dy : visible_points observations points project dx dy = omap (visible_point dx dy) observations.
  Proof.
    unfold visible_points. rewrite <- (app_nil_l (omap _ _)), <- foldl_omap. apply foldl_ext_list. intros acc id. unfold visible_point. destruct (points !! id) as [x|]; [|done]. destruct (project x); [|done]. by destruct (if Rle_dec _ _ then _ else _).
  Qed.
  Lemma visible_iff dx dy id x px : visible_point dx dy id = Some (x, px) <-> points !! id = Some x /\ project x = Some px /\ inside dx dy px.
  Proof.
    unfold visible_point, inside. destruct (points !! id) as [y|]; [|split; [done|]; by intros [? _]]. split.
    - destruct (project y) as [q|] eqn:Eq; [|done]. destruct (Rle_dec _ _); [|done]. destruct (Rle_dec _ _); [|done]. destruct (Rle_dec _ _); [|done]. destruct (Rle_dec _ _); [|done]. intros [= <- <-]. split; [done|]. split; [done|]. lra.
    - intros ([= <-] & -> & H). repeat (destruct (Rle_dec _ _); [|lra]). done.
  Qed.
  Definition seen_point (id : string) : option (vec * vec) :=
    match points !! id with None => None | Some point => if Req_EM_T (norm (transform p point)) 0 then None else Some (point, vscale (/ norm (transform p point)) (transform p point)) end.
  Lemma seen_omap : seen_points p observations points = omap seen_point observations.
  Proof.
    unfold seen_points. rewrite <- (app_nil_l (omap _ _)), <- foldl_omap. apply foldl_ext_list. intros acc id. unfold seen_point. destruct (points !! id) as [x|]; [|done]. cbn zeta. by destruct (Req_EM_T _ _).
  Qed.

  (** The mean depth *)
  Lemma inner_depth (vertices : list vec) (l : list nat) acc : foldl (fun acc j => if decide (4 <= j)%nat then (acc.1 + vz (transform p (default v0 (vertices !! j))), acc.2 + 1) else acc) acc l =
    (acc.1 + foldr Rplus 0 ((fun j => vz (transform p (default v0 (vertices !! j)))) <$> filter (fun j => 4 <= j)%nat l), acc.2 + INR (length (filter (fun j => 4 <= j)%nat l))).
  Proof.
    revert acc. induction l as [|j l IH]; intros [a b]; cbn [foldl fst snd]. { rewrite filter_nil. cbn. by rewrite !Rplus_0_r. }
    rewrite IH, filter_cons. destruct (decide (4 <= j)%nat); [|done]. cbn [fst snd fmap list_fmap foldr length]. rewrite S_INR. f_equal; lra.
  Qed.
  Lemma corner_depth_spec (vertices : list vec) faces i l : shares i faces l -> corner_depth p vertices faces i = (foldr Rplus 0 ((fun j => vz (transform p (default v0 (vertices !! j)))) <$> l), INR (length l)).
  Proof.
    intros Hs. unfold corner_depth. 
    assert (forall acc, foldl (fun acc t => if decide (i ∈ corners t) then foldl (fun acc j => if decide (4 <= j)%nat then (acc.1 + vz (transform p (default v0 (vertices !! j))), acc.2 + 1) else acc) acc (corners t) else acc) acc faces =
      (acc.1 + foldr Rplus 0 ((fun j => vz (transform p (default v0 (vertices !! j)))) <$> l), acc.2 + INR (length l))) as H; [|by rewrite H; cbn [fst snd]; rewrite !Rplus_0_l].
    assert (forall a b : list R, foldr Rplus 0 (a ++ b) = foldr Rplus 0 a + foldr Rplus 0 b) as Happ. { induction a as [|x a IH]; intros b; cbn; [lra|]. rewrite IH. lra. }
    induction Hs as [|f faces l Hi _ IH|f faces l Hi _ IH]; intros [a b]; cbn [foldl fst snd].
    - cbn. by rewrite !Rplus_0_r.
    - rewrite decide_True by done. rewrite inner_depth, IH. cbn [fst snd]. rewrite fmap_app, Happ, app_length, plus_INR. f_equal; lra.
    - rewrite decide_False by done. apply IH.
  Qed.
  Lemma shares_exists faces i : exists l, shares i faces l.
  Proof.
    induction faces as [|f faces [l IH]]; [exists []; constructor|]. destruct (decide (i ∈ corners f)); eexists; [by apply shares_with|by apply shares_without].
  Qed.
  Lemma shares_range faces i l n : shares i faces l -> in_range n faces -> forall j, j ∈ l -> (4 <= j < n)%nat.
  Proof.
    intros Hs. induction Hs as [|f faces l Hi Hs IH|f faces l Hi Hs IH]; intros Hr j Hj.
    - by apply elem_of_nil in Hj.
    - apply elem_of_app in Hj as [Hj|Hj]; [|apply IH; [|done]; intros g k Hg; apply Hr; by right]. apply elem_of_list_filter in Hj as [H4 Hj]. split; [done|]. apply (Hr f); [left|done].
    - apply IH; [|done]. intros g k Hg. apply Hr. by right.
  Qed.
End mesh.
Lemma norm_scale s v : 0 <= s -> norm (vscale s v) = s * norm v.
Proof.
  intros Hs. unfold norm. replace (dot (vscale s v) (vscale s v)) with (s * s * dot v v) by (unfold dot, vscale; cbn [vx vy vz]; ring). rewrite sqrt_mult_alt by nra. by rewrite sqrt_square.
Qed.
Lemma norm_nonneg v : 0 <= norm v.
Proof. apply sqrt_pos. Qed.
Lemma unit_norm v : norm v <> 0 -> norm (vscale (/ norm v) v) = 1.
Proof. intros H. pose proof (norm_nonneg v). rewrite norm_scale by (apply Rlt_le, Rinv_0_lt_compat; lra). field. done. Qed.
Lemma circle_norm i : norm (circle_point i) = 30.
Proof.
  unfold circle_point. cbn zeta. rewrite norm_scale by lra. set (a := 2 * PI * INR i / INR num_circle_points). unfold norm, dot. cbn [vx vy vz]. pose proof (sin2_cos2 a) as E. unfold Rsqr in E.
  replace (cos a * cos a + sin a * sin a + 0 * 0) with 1 by lra. rewrite sqrt_1. lra.
Qed.
Lemma cube_norm q : q ∈ cube -> norm q = sqrt 3.
Proof.
  unfold cube. rewrite !elem_of_cons, elem_of_nil. intros [-> | [-> | [-> | [-> | [-> | [-> | [-> | [-> | []]]]]]]]]; unfold norm, dot; cbn [vx vy vz]; f_equal; lra.
Qed.
Lemma filter_sublist {A} (P : A -> Prop) `{forall x, Decision (P x)} (l : list A) : filter P l `sublist_of` l.
Proof. induction l as [|a l IH]; [done|]. rewrite filter_cons. destruct (decide _); [by apply sublist_skip|by apply sublist_cons]. Qed.
