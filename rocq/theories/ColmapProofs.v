(** Proofs about ColmapModel.v *)
From stdpp Require Import prelude gmap strings.
From Coq Require Import Reals Lra Psatz.
From Verif Require Import Base JsonModel CamModel ProjModel Lin RotModel RotProofs TracksModel PoseModel PixelModel PoseSpec PoseProofs CamSpec CamProofs CameraSpec CameraProofs CameraProps
  BundlerModel NvmModel NvmSpec NvmProofs ColmapModel ColmapSpec.
Local Open Scope R_scope.

(** In front of the camera the angle to the axis is the arc tangent of the radius *)
Lemma axis_angle_atan p : 0 < vz p -> axis_angle p = atan (sqrt ((vx p / vz p) ^ 2 + (vy p / vz p) ^ 2)).
Proof.
  intros Hz. set (r := sqrt _).
  assert (Hr2 : r * r = (vx p / vz p) ^ 2 + (vy p / vz p) ^ 2).
  { apply sqrt_sqrt. pose proof (pow2_ge_0 (vx p / vz p)). pose proof (pow2_ge_0 (vy p / vz p)). lra. }
  assert (Hn : norm p = vz p * sqrt (1 + r²)).
  { unfold Rsqr. rewrite Hr2. transitivity (sqrt (vz p * vz p) * sqrt (1 + ((vx p / vz p) ^ 2 + (vy p / vz p) ^ 2))); [|by rewrite sqrt_square by lra]. rewrite <- sqrt_mult.
    - unfold norm, dot. f_equal. field. lra.
    - nra.
    - pose proof (pow2_ge_0 (vx p / vz p)). pose proof (pow2_ge_0 (vy p / vz p)). lra. }
  unfold axis_angle. rewrite Hn.
  assert (Hs : 0 < sqrt (1 + r²)) by (apply sqrt_lt_R0; pose proof (Rle_0_sqr r); lra).
  replace (vz p / (vz p * sqrt (1 + r²))) with (cos (atan r)).
  - pose proof (atan_bound r). assert (0 <= atan r). { destruct (Rle_lt_or_eq_dec 0 r (sqrt_pos _)) as [H0|H0]; [rewrite <- atan_0; apply Rlt_le, atan_increasing; done|rewrite <- H0, atan_0; lra]. }
    pose proof PI_RGT_0. rewrite acos_cos by lra. done.
  - rewrite cos_atan. field. lra.
Qed.
Lemma axis_dist_radius p : 0 < vz p -> sqrt ((vx p / vz p) ^ 2 + (vy p / vz p) ^ 2) = axis_dist p / vz p.
Proof.
  intros Hz. unfold axis_dist. assert (Hp : 0 <= vx p ^ 2 + vy p ^ 2) by (pose proof (pow2_ge_0 (vx p)); pose proof (pow2_ge_0 (vy p)); lra).
  replace ((vx p / vz p) ^ 2 + (vy p / vz p) ^ 2) with ((vx p ^ 2 + vy p ^ 2) / (vz p * vz p)) by (field; lra).
  rewrite sqrt_div by nra. by rewrite sqrt_square by lra.
Qed.

Definition representable (t : ptype) : Prop := match t with PERSPECTIVE | FISHEYE | BROWN => True | _ => False end.
Ltac params c Hm Ht :=
  let Hs := fresh in pose proof (made_shape c Hm) as Hs;
  let id := fresh "id" in let w := fresh "w" in let h := fresh "h" in let t := fresh "t" in
  let ps := fresh "ps" in let vs := fresh "vs" in
  destruct c as [id w h t ps vs]; destruct Hs as (Hp & Hl & Hsp); cbn in Hp, Hl, Hsp, Ht; subst ps.
(** Distorting: the coefficients of OpenSfM in the order of powers *)
Lemma camera_exact c p params m : made c -> representable (cam_type c) -> 0 < vz p -> (cam_type c = FISHEYE -> / 10 ^ 8 <= axis_dist p) ->
  camera_to_colmap_params c = Ok params -> COLMAP_TYPES_MAP (cam_type c) = Ok m ->
  exists q, Project c p = Some q /\ colmap_sees m params p = Some (colmap_pixel (cam_width c) (cam_height c) q).
Proof.
  intros Hm Hr Hz Hd Hp Ht. exists (documented (cam_type c) (value_of c) p). split.
  { apply C45_project_documented; [done|by intros E; rewrite E in Hr|]. intros [H|H]; [|by rewrite H in Hr]. apply Hd. by destruct (cam_type c). }
  unfold camera_to_colmap_params in Hp. unfold documented, value_of.
  assert (HE : / 10 ^ 8 <= axis_dist p -> forall k1 k2, 
     let u := vx p / vz p in let v := vy p / vz p in let th := atan (sqrt (u ^ 2 + v ^ 2)) in
     radially [k1; k2] (equidistant p) = (u * (th * (1 + k1 * th ^ 2 + k2 * th ^ 4)) / sqrt (u ^ 2 + v ^ 2), v * (th * (1 + k1 * th ^ 2 + k2 * th ^ 4)) / sqrt (u ^ 2 + v ^ 2))).
  { intros Ha k1 k2 u v th. assert (0 < / 10 ^ 8) by (apply Rinv_0_lt_compat, pow_lt; lra). assert (Ha' : 0 < axis_dist p) by lra.
    unfold radially, equidistant. rewrite axis_angle_atan by done. fold u v. fold th. assert (Hq : sqrt (u ^ 2 + v ^ 2) = axis_dist p / vz p) by (apply axis_dist_radius; done). rewrite Hq. clearbody th.
    assert (HR : radius2 (th * (vx p / axis_dist p), th * (vy p / axis_dist p)) = th ^ 2).
    { unfold radius2. cbn [fst snd]. replace ((th * (vx p / axis_dist p)) ^ 2 + (th * (vy p / axis_dist p)) ^ 2) with (th ^ 2 * ((vx p ^ 2 + vy p ^ 2) / (axis_dist p * axis_dist p))) by (field; lra).
      replace (axis_dist p * axis_dist p) with (vx p ^ 2 + vy p ^ 2). { field. intros E. unfold axis_dist in Ha'. rewrite E, sqrt_0 in Ha'. lra. }
      unfold axis_dist. rewrite sqrt_sqrt; [done|]. pose proof (pow2_ge_0 (vx p)). pose proof (pow2_ge_0 (vy p)). lra. }
    rewrite HR. unfold radial_factor. cbn [foldr fst snd]. unfold u, v. f_equal; field; lra. }
  destruct (cam_type c) eqn:Et; try contradiction; cbn [COLMAP_TYPES_MAP] in Ht; injection Ht as <-;
    repeat (match type of Hp with context [get_param c ?a] => destruct (get_param c a); [|done] end; cbn [res_bind] in Hp); injection Hp as <-.
  - unfold colmap_sees, colmap_pixel, to_image, radially, radial_factor, radius2, pinhole. cbn [foldr fst snd]. replace 0.5 with (/ 2) by lra. f_equal. f_equal; field; lra.
  - unfold colmap_sees, colmap_pixel, to_image, radially, radial_factor, radius2, pinhole, plus, tangent, radius2. cbn [foldr fst snd]. replace 0.5 with (/ 2) by lra. f_equal. f_equal; field; lra.
  - rewrite HE by auto. unfold colmap_sees, colmap_pixel, to_image. cbn [fst snd]. replace 0.5 with (/ 2) by lra. f_equal. f_equal; unfold Rdiv; ring.
Qed.
Lemma params_ok c : made c -> representable (cam_type c) \/ cam_type c = FISHEYE_OPENCV -> exists params m, camera_to_colmap_params c = Ok params /\ COLMAP_TYPES_MAP (cam_type c) = Ok m.
Proof.
  intros Hm Hr. apply made_shape in Hm.
  assert (G : forall a, a ∈ cam_params c -> exists x, get_param c a = Ok x) by (intros a; apply has_param, Hm).
  destruct Hm as (Hp & _ & _). rewrite Hp in G. unfold camera_to_colmap_params.
  destruct (cam_type c) eqn:Et; try (destruct Hr as [Hr|Hr]; [contradiction|discriminate]); cbn [params_of] in G;
    repeat (match goal with |- context [get_param c ?a] => destruct (G a) as [? ->]; [repeat first [apply elem_of_list_here|apply elem_of_list_further]|] end; cbn [res_bind]);
    by eexists _, _.
Qed.

(** The quaternion of a rotation vector *)
Lemma angle_axis_turn r : norm r <> 0 -> norm r <= PI -> exists q, angle_axis_to_quaternion r = Some q /\ unit4 q /\ forall x, turn q x = mvec (vector_to_rotation r) x.
Proof.
  intros Hn Hp. unfold angle_axis_to_quaternion. destruct (Req_EM_T (norm r) 0) as [|_]; [done|]. eexists. split; [reflexivity|].
  assert (Hpos : 0 < norm r) by (pose proof (norm_nonneg r); lra).
  set (n := norm r) in *. set (h := n / 2).
  assert (Hsq : sqrt (1 - cos h * cos h) = sin h).
  { replace (1 - cos h * cos h) with ((sin h)²) by (pose proof (sin2_cos2 h) as E; unfold Rsqr in *; lra). apply sqrt_Rsqr. apply sin_ge_0; unfold h; lra. }
  rewrite Hsq. set (u := Vec (vx r / n) (vy r / n) (vz r / n)).
  assert (Hu : dot u u = 1). { pose proof (unit_axis r Hn) as E. fold n in E. rewrite <- E. unfold u, dot, vscale. cbn. field. lra. }
  pose proof (sin2_cos2 h) as Hsc. unfold Rsqr in Hsc.
  assert (Hsc' : sin h * sin h = 1 - cos h * cos h) by lra.
  assert (U : unit4 (Vec4 (cos h) (vx r / n * sin h) (vy r / n * sin h) (vz r / n * sin h))).
  { unfold unit4. cbn [q0 q1 q2 q3]. transitivity (cos h * cos h + sin h * sin h * dot u u); [unfold dot, u; cbn; ring|]. rewrite Hu. lra. }
  split; [exact U|]. intros x. rewrite (turn_qmat (cos h) (vscale (sin h) u)); [|done|unfold u, vscale; cbn; f_equal; ring].
  f_equal. unfold vector_to_rotation. fold n. destruct (Req_EM_T n 0) as [|_]; [done|].
  replace (vscale (/ n) r) with u by (unfold u, vscale; f_equal; unfold Rdiv; ring).
  replace n with (2 * h) by (unfold h; field). unfold angle_axis_matrix. rewrite sin_2a, cos_2a. clearbody u h. destruct u as [a b c]. unfold dot in Hu. cbn in Hu.
  assert (C2 : 1 - (cos h * cos h - sin h * sin h) = 2 * (sin h * sin h)) by lra. rewrite C2.
  assert (E1 : cos h * cos h = 1 - sin h * sin h) by lra. rewrite E1. set (s := sin h) in *. set (k := cos h) in *.
  assert (E2 : k * k = 1 - s * s) by lra. assert (E3 : 1 = a * a + b * b + c * c) by lra. clearbody s k. clear Hsc Hsc' E1 C2 Hsq U.
  unfold qmat, vscale. cbn [fst snd vx vy vz]. rewrite !E2.
  f_equal; ring_simplify; try ring; 
  (assert (E4 : s ^ 2 = s ^ 2 * (a * a + b * b + c * c)) by (rewrite <- E3; ring)); lra.
Qed.

Lemma equidistant_four p k1 k2 k3 k4 : 0 < vz p -> / 10 ^ 8 <= axis_dist p ->
  let u := vx p / vz p in let v := vy p / vz p in let th := atan (sqrt (u ^ 2 + v ^ 2)) in
  let td := th * (1 + k1 * th ^ 2 + k2 * th ^ 4 + k3 * th ^ 6 + k4 * th ^ 8) in
  radially [k1; k2; k3; k4] (equidistant p) = (u * td / sqrt (u ^ 2 + v ^ 2), v * td / sqrt (u ^ 2 + v ^ 2)).
Proof.
  intros Hz Ha u v th td. assert (0 < / 10 ^ 8) by (apply Rinv_0_lt_compat, pow_lt; lra). assert (Ha' : 0 < axis_dist p) by lra.
  unfold radially, equidistant. rewrite axis_angle_atan by done. fold u v. fold th. assert (Hq : sqrt (u ^ 2 + v ^ 2) = axis_dist p / vz p) by (apply axis_dist_radius; done). rewrite Hq.
  assert (HR : radius2 (th * (vx p / axis_dist p), th * (vy p / axis_dist p)) = th ^ 2).
  { unfold radius2. cbn [fst snd]. replace ((th * (vx p / axis_dist p)) ^ 2 + (th * (vy p / axis_dist p)) ^ 2) with (th ^ 2 * ((vx p ^ 2 + vy p ^ 2) / (axis_dist p * axis_dist p))) by (field; lra).
    replace (axis_dist p * axis_dist p) with (vx p ^ 2 + vy p ^ 2). { field. intros E. unfold axis_dist in Ha'. rewrite E, sqrt_0 in Ha'. lra. }
    unfold axis_dist. rewrite sqrt_sqrt; [done|]. pose proof (pow2_ge_0 (vx p)). pose proof (pow2_ge_0 (vy p)). lra. }
  rewrite HR. unfold radial_factor. cbn [foldr fst snd]. unfold td, u, v. clearbody th. f_equal; field; lra.
Qed.
(** The principal point of the opencv fisheye model is not scaled *)
Lemma opencv_fisheye c p params : made c -> cam_type c = FISHEYE_OPENCV -> 0 < vz p -> / 10 ^ 8 <= axis_dist p -> camera_to_colmap_params c = Ok params ->
  exists q, Project c p = Some q /\ colmap_sees M_OPENCV_FISHEYE params p =
    Some ((colmap_pixel (cam_width c) (cam_height c) q).1 + (1 - IZR (Z.max (cam_width c) (cam_height c))) * value_of c Cx,
          (colmap_pixel (cam_width c) (cam_height c) q).2 + (1 - IZR (Z.max (cam_width c) (cam_height c))) * value_of c Cy).
Proof.
  intros Hm Ht Hz Hd Hp. exists (documented (cam_type c) (value_of c) p). split.
  { apply C45_project_documented; [done|by rewrite Ht|]. done. }
  unfold camera_to_colmap_params in Hp. unfold documented, value_of. rewrite Ht in *.
  repeat (match type of Hp with context [get_param c ?a] => destruct (get_param c a); [|done] end; cbn [res_bind] in Hp); injection Hp as <-.
  rewrite equidistant_four by done. unfold colmap_sees, colmap_pixel, to_image. cbn [fst snd]. replace 0.5 with (/ 2) by lra. f_equal. f_equal; unfold Rdiv; ring.
Qed.

Lemma rotation_vector p : valid p -> vector_to_rotation (get_rotation p) = w_rot p /\ norm (get_rotation p) <= PI.
Proof.
  intros (HR & Hc & _). unfold get_rotation. rewrite exp_opp, norm_vopp. destruct (exp_log (c_rot p)) as [E L]; [rewrite Hc; by apply rotation_T|].
  split; [|done]. rewrite E, Hc. apply mT_T.
Qed.

Lemma number_from_spec l : forall i m k n, NoDup l -> (forall x, x ∈ l -> m !! x = None) ->
  number_from i l m !! k = Some n <-> m !! k = Some n \/ (i <= n)%Z /\ l !! Z.to_nat (n - i) = Some k.
Proof.
  induction l as [|a l IH]; intros i m k n HN HD; cbn.
  { split; [by left|]. intros [H|[_ H]]; [done|]. by rewrite lookup_nil in H. }
  apply NoDup_cons in HN as [Ha HN]. rewrite IH; [|done|].
  2:{ intros x Hx. rewrite lookup_insert_ne by (intros ->; done). apply HD. by right. }
  destruct (decide (a = k)) as [<-|Hk].
  - rewrite lookup_insert. split.
    + intros [[= <-]|[H1 H2]]; [right; split; [lia|]; by replace (Z.to_nat (i - i)) with 0%nat by lia|].
      exfalso. apply Ha. eapply elem_of_list_lookup_2, H2.
    + intros [H|[H1 H2]]; [by rewrite HD in H by left|].
      destruct (decide (n = i)) as [->|Hn]; [by left|]. right. split; [lia|].
      replace (Z.to_nat (n - i)) with (S (Z.to_nat (n - (i + 1)))) in H2 by lia. done.
  - rewrite lookup_insert_ne by done. split; (intros [H|[H1 H2]]; [by left|right]).
    + split; [lia|]. replace (Z.to_nat (n - i)) with (S (Z.to_nat (n - (i + 1)))) by lia. done.
    + destruct (decide (n = i)) as [->|Hn]. { replace (Z.to_nat (i - i)) with 0%nat in H2 by lia. cbn in H2. congruence. }
      split; [lia|]. replace (Z.to_nat (n - i)) with (S (Z.to_nat (n - (i + 1)))) in H2 by lia. done.
Qed.
Lemma number_spec l k n : NoDup l -> number_from 1 l ∅ !! k = Some n <-> (1 <= n)%Z /\ l !! Z.to_nat (n - 1) = Some k.
Proof.
  intros HN. rewrite number_from_spec; [|done|intros; apply lookup_empty]. rewrite lookup_empty. split; [intros [H|H]; done|by right].
Qed.

Section M.
Variable ltb : string -> string -> bool.
(** A strict total order *)
Hypothesis ltb_asym : forall a b, ltb a b = true -> ltb b a = false.
Hypothesis ltb_total : forall a b, a <> b -> ltb a b = true \/ ltb b a = true.
Definition found (files : list (string * list (string * list (Z * Z)))) (a b : string) (i j : Z) : Prop :=
  exists l ms, (a, l) ∈ files /\ (b, ms) ∈ l /\ (i, j) ∈ ms.

Lemma foldl_union (f : Z * Z -> Z * Z) ms : forall (s : gset (Z * Z)) x, x ∈ foldl (fun s m => s ∪ {[f m]}) s ms <-> x ∈ s \/ exists m, m ∈ ms /\ x = f m.
Proof.
  induction ms as [|m ms IH]; intros s x; cbn.
  - split; [by left|]. intros [H|(m & H & _)]; [done|]. by apply elem_of_nil in H.
  - rewrite IH. rewrite elem_of_union, elem_of_singleton. split.
    + intros [[H|H]|(m' & H & E)]; [by left|right; exists m; split; [by left|done]|right; exists m'; split; [by right|done]].
    + intros [H|(m' & [->|H]%elem_of_cons & E)]; [by left; left|by left; right|right; by exists m'].
Qed.
Definition has (d : gmap (string * string) (gset (Z * Z))) (k : string * string) (x : Z * Z) : Prop := exists s, d !! k = Some s /\ x ∈ s.
Lemma add_pair_spec image1 image2 ms d a b x : ltb a b = true -> image1 <> image2 ->
  has (add_pair_matches ltb image1 image2 ms d) (a, b) x <-> has d (a, b) x \/ (a = image1 /\ b = image2 /\ x ∈ ms) \/ (a = image2 /\ b = image1 /\ (x.2, x.1) ∈ ms).
Proof.
  intros Hab Hne. unfold add_pair_matches, has, pair_key.
  assert (D : forall k, (exists s, d !! k = Some s /\ x ∈ s) <-> x ∈ default ∅ (d !! k)).
  { intros k. split; [intros (s & -> & H); done|]. destruct (d !! k) as [s|]; cbn; [intros H; by exists s|]. intros H. by apply elem_of_empty in H. }
  destruct (ltb image1 image2) eqn:E12.
  - rewrite (ltb_asym _ _ E12). destruct (decide ((image1, image2) = (a, b))) as [[= -> ->]|Hk].
    + rewrite lookup_insert. rewrite D. split.
      * intros (s & [= <-] & Hx). apply (foldl_union (fun m => (m.1, m.2))) in Hx as [Hx|([i j] & Hm & ->)]; [by left|right; left; done].
      * intros H. eexists. split; [reflexivity|]. apply (foldl_union (fun m => (m.1, m.2))). destruct H as [H|[(_ & _ & H)|(Ea & _ & _)]]; [by left|right; exists x; split; [done|by destruct x]|congruence].
    + rewrite lookup_insert_ne by done. split; [by left|]. intros [H|[(-> & -> & _)|(-> & -> & _)]]; [done|done|]. rewrite (ltb_asym _ _ E12) in Hab. done.
  - destruct (ltb_total image1 image2 Hne) as [E|E21]; [congruence|]. rewrite E21. destruct (decide ((image2, image1) = (a, b))) as [[= -> ->]|Hk].
    + rewrite lookup_insert. rewrite D. split.
      * intros (s & [= <-] & Hx). apply (foldl_union (fun m => (m.2, m.1))) in Hx as [Hx|([i j] & Hm & ->)]; [by left|right; right; done].
      * intros H. eexists. split; [reflexivity|]. apply (foldl_union (fun m => (m.2, m.1))). destruct H as [H|[(Ea & _ & _)|(_ & _ & H)]]; [by left|congruence|right; exists (x.2, x.1); split; [done|by destruct x]].
    + rewrite lookup_insert_ne by done. split; [by left|]. intros [H|[(-> & -> & _)|(-> & -> & _)]]; [done|congruence|done].
Qed.
Lemma per_pair_spec files a b i j : ltb a b = true -> (forall f l ms, (f, l) ∈ files -> (f, ms) ∉ l) ->
  has (matches_per_pair ltb files) (a, b) (i, j) <-> found files a b i j \/ found files b a j i.
Proof.
  intros Hab Hself. unfold matches_per_pair.
  assert (Inner : forall f l d, (forall ms, (f, ms) ∉ l) -> has (foldl (fun d im => add_pair_matches ltb f im.1 im.2 d) d l) (a, b) (i, j) <->
     has d (a, b) (i, j) \/ exists im, im ∈ l /\ ((a = f /\ b = im.1 /\ (i, j) ∈ im.2) \/ (a = im.1 /\ b = f /\ (j, i) ∈ im.2))).
  { intros f. induction l as [|im l IH]; intros d Hs; cbn.
    - split; [by left|]. intros [H|(im & H & _)]; [done|by apply elem_of_nil in H].
    - rewrite IH by (intros ms Hms; apply (Hs ms); by right). rewrite add_pair_spec; [|done|]. 2:{ intros ->. apply (Hs im.2). destruct im. by left. }
      cbn [fst snd]. split.
      + intros [[H|H]|(im' & H & E)]; [by left|right; exists im; split; [by left|done]|right; exists im'; split; [by right|done]].
      + intros [H|(im' & [->|H]%elem_of_cons & E)]; [by left; left|by left; right|right; by exists im']. }
  assert (Outer : forall d, has (foldl (fun d f => foldl (fun d im => add_pair_matches ltb f.1 im.1 im.2 d) d f.2) d files) (a, b) (i, j) <->
     has d (a, b) (i, j) \/ found files a b i j \/ found files b a j i).
  { induction files as [|[f l] files IH]; intros d; cbn.
    - split; [by left|]. intros [H|[(? & ? & H & _)|(? & ? & H & _)]]; [done|by apply elem_of_nil in H|by apply elem_of_nil in H].
    - rewrite IH by (intros f' l' ms Hf; apply (Hself f' l' ms); by right). cbn [fst snd]. rewrite Inner by (intros ms; apply (Hself f l ms); by left). split.
      + intros [[H|([g ms] & Hin & [(-> & -> & Hm)|(-> & -> & Hm)])]|[(l' & ms & H1 & H2 & H3)|(l' & ms & H1 & H2 & H3)]]; [by left| | | |]; right.
        * left. exists l, ms. split; [by left|done].
        * right. exists l, ms. split; [by left|done].
        * left. exists l', ms. split; [by right|done].
        * right. exists l', ms. split; [by right|done].
      + intros [H|[(l' & ms & [[= -> ->]|H1]%elem_of_cons & H2 & H3)|(l' & ms & [[= -> ->]|H1]%elem_of_cons & H2 & H3)]]; [by left; left| | | |].
        * left. right. exists (b, ms). split; [done|]. left. done.
        * right. left. by exists l', ms.
        * left. right. exists (a, ms). split; [done|]. right. done.
        * right. right. by exists l', ms. }
  rewrite Outer. split; [|by right]. intros [(s & Hs & _)|H]; [by rewrite lookup_empty in Hs|done].
Qed.
End M.
