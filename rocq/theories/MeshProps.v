From stdpp Require Import prelude strings gmap.
From Coq Require Import Reals Lra Lia.
From Verif Require Import Base Lin PoseModel PoseSpec PoseProofs CamModel MeshModel MeshSpec MeshProofs.
Local Open Scope R_scope.

(** C95. The mesh of a shot of a perspective camera: the faces are the triangles of the pixels of the vertices, in the same numbering; after the first four, the vertices are the points that the
    shot observes, that are reconstructed and that project into the image, in the order of the observations, each at the pixel where it projects. *)
Theorem C95_perspective_vertices_are_the_visible_points p observations (points : gmap string vec) project delaunay c width height vertices faces :
  let dx := IZR width / 2 / Rmax (IZR width) (IZR height) in let dy := IZR height / 2 / Rmax (IZR width) (IZR height) in
  triangle_mesh_perspective p observations points project delaunay c width height = (vertices, faces) ->
  (forall pixels, in_range (length pixels) (delaunay pixels)) ->
  in_range (length vertices) faces /\
  (exists pixels, faces = delaunay pixels /\ length pixels = length vertices /\ take 4 pixels = image_corners dx dy /\
    forall k q, vertices !! k = Some q -> (4 <= k)%nat -> exists pixel, pixels !! k = Some pixel /\ project q = Some pixel /\ inside dx dy pixel) /\
  drop 4 vertices `sublist_of` omap (fun id => points !! id) observations /\
  (forall q, q ∈ drop 4 vertices <-> exists id pixel, id ∈ observations /\ points !! id = Some q /\ project q = Some pixel /\ inside dx dy pixel).
Proof.
  intros dx dy E Hd. unfold triangle_mesh_perspective in E. cbn zeta in E. fold dx dy in E.
  set (vis := visible_points observations points project dx dy) in *.
  set (px := [(- dx, - dy); (- dx, dy); (dx, dy); (dx, - dy)] ++ vis.*2) in *.
  set (f := fun i : nat => _) in E. apply pair_equal_spec in E as [<- <-]. assert (length px = length ((f <$> seq 0 4) ++ vis.*1)) as Hl. { unfold px. by rewrite !app_length, !fmap_length. }
  assert (drop 4 ((f <$> seq 0 4) ++ vis.*1) = vis.*1) as Hdrop by reflexivity.
  split; [rewrite <- Hl; apply Hd|]. split; [|rewrite Hdrop; split].
  - exists px. split; [done|]. split; [done|]. split; [reflexivity|]. intros k q Hk H4.
    rewrite lookup_app_r in Hk by done. rewrite fmap_length, seq_length in Hk. apply list_lookup_fmap_Some in Hk as ([y pix] & Hy & ->). exists pix.
    assert (px !! k = Some pix) as ->. { unfold px. rewrite lookup_app_r by done. cbn [length]. by rewrite list_lookup_fmap, Hy. }
    apply elem_of_list_lookup_2 in Hy. unfold vis in Hy. rewrite visible_omap in Hy. apply elem_of_list_omap in Hy as (id & _ & Hid). apply visible_iff in Hid as (_ & H1 & H2). done.
  - unfold vis. rewrite visible_omap. apply omap_sublist. intros id [y pix] Hid. by apply visible_iff in Hid as (? & _).
  - intros q. unfold vis. rewrite visible_omap, elem_of_list_fmap. split.
    + intros ([y pix] & -> & Hy). apply elem_of_list_omap in Hy as (id & Hi & Hid). apply visible_iff in Hid as (H1 & H2 & H3). by exists id, pix.
    + intros (id & pix & Hi & H1 & H2 & H3). exists (q, pix). split; [done|]. apply elem_of_list_omap. exists id. split; [done|]. by apply visible_iff.
Qed.

(** The first four vertices are shown, without distortion, at the four corners of the image, at the mean depth of the points that share a face with them, or at 50 when no face has such a point. *)
Theorem C95_perspective_corners_are_at_the_depth_of_their_neighbours p observations points project delaunay c width height vertices faces i :
  let dx := IZR width / 2 / Rmax (IZR width) (IZR height) in let dy := IZR height / 2 / Rmax (IZR width) (IZR height) in
  triangle_mesh_perspective p observations points project delaunay c width height = (vertices, faces) ->
  (forall pixels, in_range (length pixels) (delaunay pixels)) -> valid p -> ph_focal c <> 0 -> ph_aspect c <> 0 -> (i < 4)%nat ->
  exists q corner d l near, vertices !! i = Some q /\ image_corners dx dy !! i = Some corner /\ shows p c q corner d /\
    shares i faces l /\ mapM (fun j => vertices !! j) l = Some near /\
    (near <> [] -> mean_of ((fun x => vz (transform p x)) <$> near) d) /\ (near = [] -> d = 50).
Proof.
  intros dx dy E Hd Hp Hf Ha Hi. unfold triangle_mesh_perspective in E. cbn zeta in E. fold dx dy in E.
  set (vis := visible_points observations points project dx dy) in *.
  set (px := [(- dx, - dy); (- dx, dy); (dx, dy); (dx, - dy)] ++ vis.*2) in *.
  set (f := fun i : nat => _) in E. apply pair_equal_spec in E as [<- <-].
  assert (((f <$> seq 0 4) ++ vis.*1) !! i = Some (f i)) as Hq. { do 4 (destruct i as [|i]; [reflexivity|]). lia. }
  assert (exists corner, image_corners dx dy !! i = Some corner /\ px !! i = Some corner) as (corner & Hc & Hpx). { do 4 (destruct i as [|i]; [eexists; split; reflexivity|]). lia. }
  destruct (shares_exists (delaunay px) i) as [l Hl].
  assert (length px = length ((f <$> seq 0 4) ++ vis.*1)) as Hlen. { unfold px. by rewrite !app_length, !fmap_length. }
  assert (forall j, j ∈ l -> exists x, (replicate 4 v0 ++ vis.*1) !! j = Some x /\ ((f <$> seq 0 4) ++ vis.*1) !! j = Some x) as Hj.
  { intros j Hj. destruct (shares_range _ _ _ _ Hl (Hd px) _ Hj) as [H4 Hn]. rewrite Hlen in Hn. rewrite !lookup_app_r by done. rewrite fmap_length, seq_length, replicate_length.
    rewrite app_length, fmap_length, seq_length in Hn. destruct (lookup_lt_is_Some_2 (vis.*1) (j - 4)) as [x Hx]; [lia|]. by exists x. }
  assert (exists near, mapM (fun j => ((f <$> seq 0 4) ++ vis.*1) !! j) l = Some near /\ (fun j => vz (transform p (default v0 ((replicate 4 v0 ++ vis.*1) !! j)))) <$> l = (fun x => vz (transform p x)) <$> near) as (near & Hnear & Hmap).
  { clear Hl. induction l as [|j l IH]; [by exists []|]. destruct IH as (near & H1 & H2); [intros k Hk; apply Hj; by right|]. destruct (Hj j) as (x & H3 & H4); [left|].
    exists (x :: near). split; [cbn [mapM]; rewrite H4, H1; reflexivity|]. cbn [fmap list_fmap]. rewrite H3. f_equal. exact H2. }
  pose proof (corner_depth_spec p (replicate 4 v0 ++ vis.*1) (delaunay px) i l Hl) as Hcd. rewrite Hmap in Hcd.
  assert (length l = length near) as Hll. { apply mapM_length in Hnear. done. }
  set (d := if Rlt_dec 0 (INR (length l)) then foldr Rplus 0 ((fun x => vz (transform p x)) <$> near) / INR (length l) else 50).
  exists (f i), corner, d, l, near. split; [done|]. split; [done|]. split; [|split; [done|]; split; [done|]; split].
  - unfold f. rewrite Hcd, Hpx. cbn [default from_option]. by apply back_project_shows.
  - intros Hne. unfold mean_of, d. rewrite fmap_length, <- Hll. assert (0 < INR (length l)). { apply lt_0_INR. rewrite Hll. destruct near; [done|cbn; lia]. }
    destruct (Rlt_dec _ _); [|lra]. field. lra.
  - intros ->. unfold d. rewrite Hll. cbn [length INR]. destruct (Rlt_dec 0 0) as [H|]; [by apply Rlt_irrefl in H|done].
Qed.

(** The mesh of a shot of a fisheye camera: every vertex is seen from the camera in the direction given to the hull, which has length 1 except for the one in front of the camera; the faces are those of the
    hull with a corner beyond the circle. *)
Theorem C95_fisheye p observations (points : gmap string vec) convex_hull vertices faces :
  triangle_mesh_fisheye p observations points convex_hull = (vertices, faces) -> (forall b, in_range (length b) (convex_hull b)) -> valid p ->
  in_range (length vertices) faces /\ (forall q, q ∈ drop 21 vertices <-> exists id, id ∈ observations /\ points !! id = Some q /\ transform p q <> v0) /\
  drop 21 vertices `sublist_of` omap (fun id => points !! id) observations /\
  exists bearings, length bearings = length vertices /\ (forall f, f ∈ faces <-> f ∈ convex_hull bearings /\ exists j, j ∈ corners f /\ (20 <= j)%nat) /\
    faces `sublist_of` convex_hull bearings /\
    (forall k q b, vertices !! k = Some q -> bearings !! k = Some b -> seen_towards p q b /\ norm b = (if decide (k = 20%nat) then 3 / 10 else 1)) /\
    (forall k q, (k <= 20)%nat -> vertices !! k = Some q -> norm (transform p q) = 30 /\ (vz (transform p q) = if decide (k = 20%nat) then 30 else 0)).
Proof.
  intros E Hd Hp. unfold triangle_mesh_fisheye in E. cbn zeta in E.
  set (circle := circle_point <$> seq 0 num_circle_points) in *. set (front := vscale 30 (Vec 0 0 1)) in *. set (pts := seen_points p observations points) in *.
  set (bearings := _ ++ _ ++ pts.*2) in E. apply pair_equal_spec in E as [<- <-]. set (vertices := _ ++ _ ++ pts.*1).
  assert (length circle = 20%nat) as Hc by reflexivity. assert (norm front = 30) as Hfront. { unfold front. rewrite norm_scale by lra. unfold norm, dot. cbn [vx vy vz]. replace (0 * 0 + 0 * 0 + 1 * 1) with 1 by lra. rewrite sqrt_1. lra. }
  assert (length bearings = length vertices) as Hl. { unfold bearings, vertices. by rewrite !app_length, !fmap_length. }
  assert (drop 21 vertices = pts.*1) as Hdrop by reflexivity.
  assert (forall q b, (q, b) ∈ pts <-> exists id, id ∈ observations /\ points !! id = Some q /\ transform p q <> v0 /\ b = vscale (/ norm (transform p q)) (transform p q)) as Hpts.
  { intros q b. unfold pts. rewrite seen_omap, elem_of_list_omap. apply exist_proper. intros id. unfold seen_point. destruct (points !! id) as [y|]; [|split; [by intros [_ ?]|by intros (_ & ? & _)]].
    destruct (Req_EM_T _ _) as [Hz|Hz]; (split; [intros [Hi Hy]; try discriminate Hy|intros (Hi & [= ->] & Hn & Hb)]).
    - destruct Hn. by apply norm_0.
    - injection Hy as -> <-. split; [done|]. split; [done|]. split; [|done]. intros H0. by rewrite H0, norm_v0 in Hz.
    - by rewrite Hb. }
  split; [|split; [|split]].
  - rewrite <- Hl. intros f j Hf. apply elem_of_list_filter in Hf as [_ Hf]. by apply Hd.
  - intros q. rewrite Hdrop, elem_of_list_fmap. split.
    + intros ([y b] & -> & Hy). apply Hpts in Hy as (id & H1 & H2 & H3 & _). by exists id.
    + intros (id & H1 & H2 & H3). exists (q, vscale (/ norm (transform p q)) (transform p q)). split; [done|]. apply Hpts. by exists id.
  - rewrite Hdrop. unfold pts. rewrite seen_omap. apply omap_sublist. intros id [y b]. unfold seen_point. destruct (points !! id); [|done]. destruct (Req_EM_T _ _); [done|]. by intros [= -> _].
  - exists bearings. split; [done|]. split; [|split; [apply filter_sublist|]; split].
    + intros f. rewrite elem_of_list_filter. rewrite (and_comm _ (f ∈ _)). apply and_iff_compat_l. destruct f as [[a b] e]. unfold good_face, corners. cbn [fst snd]. unfold num_circle_points.
      rewrite !orb_True, !bool_decide_spec. setoid_rewrite elem_of_cons. setoid_rewrite elem_of_cons. setoid_rewrite elem_of_cons. setoid_rewrite elem_of_nil. split; [intros [[?|?]|?]; eauto 8|]. intros (j & [-> | [-> | [-> | []]]] & ?); auto.
    + intros k q b Hq Hb. unfold vertices, bearings in Hq, Hb. destruct (decide (k < 20)%nat) as [Hk|Hk].
      * rewrite lookup_app_l in Hq by by rewrite fmap_length, Hc. rewrite lookup_app_l in Hb by by rewrite fmap_length, Hc.
        apply list_lookup_fmap_Some in Hq as (x & Hx & ->). apply list_lookup_fmap_Some in Hb as (x' & Hx' & ->). assert (x' = x) as -> by congruence.
        assert (norm x = 30) as Hn. { apply elem_of_list_lookup_2, elem_of_list_fmap in Hx as (i & -> & _). apply circle_norm. }
        rewrite decide_False by lia. split; [|by apply unit_norm; lra]. exists 30. split; [lra|]. rewrite transform_cancel' by done. rewrite Hn. destruct x as [x1 x2 x3]. unfold vscale. cbn [vx vy vz]. f_equal; lra.
      * rewrite lookup_app_r in Hq by (rewrite fmap_length, Hc; lia). rewrite lookup_app_r in Hb by (rewrite fmap_length, Hc; lia). rewrite fmap_length, Hc in Hq, Hb.
        destruct (k - 20)%nat as [|n] eqn:Ek; cbn [app] in Hq, Hb; [injection Hq as <-; injection Hb as <-|].
        -- rewrite decide_True by lia. split.
           ++ exists 100. split; [lra|]. rewrite transform_cancel' by done. rewrite Hfront. unfold front, vscale. cbn [vx vy vz]. f_equal; lra.
           ++ rewrite Hfront, norm_scale by lra. rewrite norm_scale by lra. rewrite Hfront. lra.
        -- rewrite decide_False by lia. cbn [lookup list_lookup] in Hq, Hb. apply list_lookup_fmap_Some in Hq as ([q' b'] & Hx & ->). apply list_lookup_fmap_Some in Hb as ([q'' b''] & Hx' & ->). cbn [fst snd]. assert ((q'', b'') = (q', b')) as [= -> ->] by congruence.
           apply elem_of_list_lookup_2, Hpts in Hx as (id & _ & _ & Hn & ->). assert (norm (transform p q') <> 0) as Hnz. { intros H0. by apply norm_0 in H0. } pose proof (norm_nonneg (transform p q')).
           split; [|by apply unit_norm]. exists (norm (transform p q')). split; [lra|]. destruct (transform p q') as [x y z] eqn:Et. set (nn := norm _) in *. unfold vscale. cbn [vx vy vz]. f_equal; field; done.
    + intros k q Hk Hq. unfold vertices in Hq. destruct (decide (k = 20%nat)) as [-> |Hk'].
      * cbn in Hq. injection Hq as <-. rewrite transform_cancel' by done. rewrite Hfront. split; [done|]. cbn. lra.
      * rewrite lookup_app_l in Hq by (rewrite fmap_length, Hc; lia). apply list_lookup_fmap_Some in Hq as (x & Hx & ->). rewrite transform_cancel' by done. apply elem_of_list_lookup_2, elem_of_list_fmap in Hx as (i & -> & _).
        split; [apply circle_norm|]. cbn. lra.
Qed.

(** The mesh of a shot of a panorama: eight vertices at 0.3 of the camera are around it, so that it is strictly inside their hull, and the others are the reconstructed points that the shot observes, in their directions. *)
Theorem C95_spherical p observations (points : gmap string vec) convex_hull vertices faces :
  triangle_mesh_spherical p observations points convex_hull = (vertices, faces) -> (forall b, in_range (length b) (convex_hull b)) -> valid p ->
  in_range (length vertices) faces /\ (forall q, q ∈ drop 8 vertices <-> exists id, id ∈ observations /\ points !! id = Some q /\ transform p q <> v0) /\
  drop 8 vertices `sublist_of` omap (fun id => points !! id) observations /\
  exists bearings, length bearings = length vertices /\ faces = convex_hull bearings /\
    (forall k q b, vertices !! k = Some q -> bearings !! k = Some b -> seen_towards p q b /\ norm b = (if decide (k < 8)%nat then 3 / 10 else 1)) /\
    (forall k q b, (k < 8)%nat -> vertices !! k = Some q -> bearings !! k = Some b -> transform p q = b) /\
    (forall n, n <> v0 -> exists k b, (k < 8)%nat /\ bearings !! k = Some b /\ dot n b < 0).
Proof.
  intros E Hd Hp. unfold triangle_mesh_spherical in E. cbn zeta in E.
  set (around := _ <$> cube) in *. set (pts := seen_points p observations points) in *. apply pair_equal_spec in E as [<- <-]. set (vertices := _ ++ pts.*1). set (bearings := _ ++ pts.*2).
  assert (length around = 8%nat) as Hc by reflexivity.
  assert (length bearings = length vertices) as Hl. { unfold bearings, vertices. by rewrite !app_length, !fmap_length. }
  assert (drop 8 vertices = pts.*1) as Hdrop by reflexivity.
  assert (forall q b, (q, b) ∈ pts <-> exists id, id ∈ observations /\ points !! id = Some q /\ transform p q <> v0 /\ b = vscale (/ norm (transform p q)) (transform p q)) as Hpts.
  { intros q b. unfold pts. rewrite seen_omap, elem_of_list_omap. apply exist_proper. intros id. unfold seen_point. destruct (points !! id) as [y|]; [|split; [by intros [_ ?]|by intros (_ & ? & _)]].
    destruct (Req_EM_T _ _) as [Hz|Hz]; (split; [intros [Hi Hy]; try discriminate Hy|intros (Hi & [= ->] & Hn & Hb)]).
    - destruct Hn. by apply norm_0.
    - injection Hy as -> <-. split; [done|]. split; [done|]. split; [|done]. intros H0. by rewrite H0, norm_v0 in Hz.
    - by rewrite Hb. }
  assert (0 < sqrt 3) as H3 by (apply sqrt_lt_R0; lra).
  assert (forall q, q ∈ around -> norm q = 3 / 10) as Har.
  { intros q Hq. apply elem_of_list_fmap in Hq as (x & -> & Hx). apply cube_norm in Hx. rewrite Hx, norm_scale by (apply Rlt_le, Rinv_0_lt_compat; lra). rewrite norm_scale by lra. rewrite Hx. field. lra. }
  split; [|split; [|split]].
  - rewrite <- Hl. apply Hd.
  - intros q. rewrite Hdrop, elem_of_list_fmap. split.
    + intros ([y b] & -> & Hy). apply Hpts in Hy as (id & H1 & H2 & Hz & _). by exists id.
    + intros (id & H1 & H2 & Hz). exists (q, vscale (/ norm (transform p q)) (transform p q)). split; [done|]. apply Hpts. by exists id.
  - rewrite Hdrop. unfold pts. rewrite seen_omap. apply omap_sublist. intros id [y b]. unfold seen_point. destruct (points !! id); [|done]. destruct (Req_EM_T _ _); [done|]. by intros [= -> _].
  - exists bearings. split; [done|]. split; [done|].
    assert (forall k q b, (k < 8)%nat -> vertices !! k = Some q -> bearings !! k = Some b -> transform p q = b /\ b ∈ around) as Hfirst.
    { intros k q b Hk Hq Hb. unfold vertices, bearings in Hq, Hb. rewrite lookup_app_l in Hq by by rewrite fmap_length, Hc. rewrite lookup_app_l in Hb by by rewrite Hc.
      apply list_lookup_fmap_Some in Hq as (x & Hx & ->). assert (x = b) as -> by congruence. rewrite transform_cancel' by done. split; [done|]. by apply elem_of_list_lookup_2 in Hb. }
    split; [|split].
    + intros k q b Hq Hb. destruct (decide (k < 8)%nat) as [Hk|Hk].
      * destruct (Hfirst k q b Hk Hq Hb) as [H1 H2]. split; [|by apply Har]. exists 1. split; [lra|]. rewrite H1. destruct b as [b1 b2 b3]. unfold vscale. cbn [vx vy vz]. f_equal; lra.
      * unfold vertices, bearings in Hq, Hb. rewrite lookup_app_r in Hq by (rewrite fmap_length, Hc; lia). rewrite lookup_app_r in Hb by (rewrite Hc; lia). rewrite fmap_length, Hc in Hq. rewrite Hc in Hb.
        apply list_lookup_fmap_Some in Hq as ([q' b'] & Hx & ->). apply list_lookup_fmap_Some in Hb as ([q'' b''] & Hx' & ->). cbn [fst snd]. assert ((q'', b'') = (q', b')) as [= -> ->] by congruence.
        apply elem_of_list_lookup_2, Hpts in Hx as (id & _ & _ & Hn & ->). assert (norm (transform p q') <> 0) as Hnz. { intros H0. by apply norm_0 in H0. } pose proof (norm_nonneg (transform p q')).
        split; [|by apply unit_norm]. exists (norm (transform p q')). split; [lra|]. destruct (transform p q') as [x y z] eqn:Et. set (nn := norm _) in *. unfold vscale. cbn [vx vy vz]. f_equal; field; done.
    + intros k q b Hk Hq Hb. by destruct (Hfirst k q b Hk Hq Hb).
    + intros n Hn. 
      assert (exists k x, (k < 8)%nat /\ cube !! k = Some x /\ dot n x < 0) as (k & x & Hk & Hx & Hneg).
      { destruct n as [a b e]. assert (a <> 0 \/ b <> 0 \/ e <> 0) as Hnz. { destruct (Req_dec a 0) as [-> |]; [|by left]. destruct (Req_dec b 0) as [-> |]; [|by right; left]. destruct (Req_dec e 0) as [-> |]; [by destruct Hn|by right; right]. }
        exists ((if Rle_dec 0 a then 0 else 4) + (if Rle_dec 0 b then 0 else 2) + (if Rle_dec 0 e then 0 else 1))%nat. 
        destruct (Rle_dec 0 a), (Rle_dec 0 b), (Rle_dec 0 e); eexists; (split; [lia|]); (split; [reflexivity|]); unfold dot; cbn [vx vy vz]; lra. }
      exists k, (vscale (/ norm x) (vscale (3 / 10) x)). split; [done|]. split. { unfold bearings. rewrite lookup_app_l by by rewrite Hc. unfold around. by rewrite list_lookup_fmap, Hx. }
      rewrite (cube_norm x) by (by eapply elem_of_list_lookup_2). replace (dot n _) with (/ sqrt 3 * (3 / 10) * dot n x) by (unfold dot, vscale; cbn [vx vy vz]; ring).
      assert (0 < / sqrt 3) by by apply Rinv_0_lt_compat. nra.
Qed.

(** Every projection that a camera can have has a mesh, and a shot that is missing has the empty one. *)
Theorem C95_every_projection_has_a_mesh p observations points project delaunay convex_hull has_shot t c width height :
  exists mesh, triangle_mesh p observations points project delaunay convex_hull has_shot (projection_string t) c width height = Ok mesh /\
    (has_shot = false -> mesh = ([], [])) /\
    (has_shot = true -> mesh = match t with
      | PERSPECTIVE | BROWN | RADIAL | SIMPLE_RADIAL => triangle_mesh_perspective p observations points project delaunay c width height
      | FISHEYE | FISHEYE_OPENCV | FISHEYE62 | FISHEYE624 | DUAL => triangle_mesh_fisheye p observations points convex_hull
      | SPHERICAL => triangle_mesh_spherical p observations points convex_hull
      end).
Proof. destruct has_shot; [|by exists ([], [])]. destruct t; eexists; (split; [reflexivity|]); done. Qed.

(** A pose and a camera to which the theorems apply: a point two in front of a camera at the origin, the centre of a fan of triangles. *)
Definition fan (pixels : list (R * R)) : list face := if decide (5 <= length pixels)%nat then [(0, 1, 4); (1, 2, 4); (2, 3, 4); (3, 0, 4)]%nat else [].
Lemma fan_in_range pixels : in_range (length pixels) (fan pixels).
Proof.
  unfold fan. destruct (decide _) as [H|]; intros f j Hf Hj; [|by apply elem_of_nil in Hf]. repeat (apply elem_of_cons in Hf as [-> |Hf]; [unfold corners in Hj; cbn [fst snd] in Hj; repeat (apply elem_of_cons in Hj as [-> |Hj]; [lia|]); by apply elem_of_nil in Hj|]). by apply elem_of_nil in Hf.
Qed.
Example C95_a_fan :
  let pts := {[ "t" := Vec 0 0 2 ]} : gmap string vec in
  let mesh := triangle_mesh_perspective pose0 ["s"; "t"]%string pts (fun q => Some (vx q / vz q, vy q / vz q)) fan (Pinhole 1 1 0 0) 640 480 in
  length mesh.1 = 5%nat /\ length mesh.2 = 4%nat /\ mesh.1 !! 4%nat = Some (Vec 0 0 2) /\ exists q, mesh.1 !! 2%nat = Some q /\ vz (transform pose0 q) = 2.
Proof.
  cbn zeta. unfold triangle_mesh_perspective. cbn zeta. rewrite Rmax_left by lra. rewrite visible_omap.
  assert (omap (visible_point {["t" := Vec 0 0 2]} (fun q => Some (vx q / vz q, vy q / vz q)) (640 / 2 / 640) (480 / 2 / 640)) ["s"; "t"]%string = [(Vec 0 0 2, (0 / 2, 0 / 2))]) as ->.
  { cbn [omap list_omap]. assert (visible_point {["t" := Vec 0 0 2]} (fun q => Some (vx q / vz q, vy q / vz q)) (640 / 2 / 640) (480 / 2 / 640) "s" = None) as -> by reflexivity.
    assert (visible_point {["t" := Vec 0 0 2]} (fun q => Some (vx q / vz q, vy q / vz q)) (640 / 2 / 640) (480 / 2 / 640) "t" = Some (Vec 0 0 2, (0 / 2, 0 / 2))) as ->; [|done].
    apply visible_iff. split; [done|]. split; [done|]. unfold inside. cbn [fst snd]. lra. }
  cbn [fst snd]. split; [reflexivity|]. split; [reflexivity|]. split; [reflexivity|]. eexists. split; [reflexivity|]. cbn [fmap list_fmap app snd fst length].
  assert (valid pose0) as Hv. { apply valid_pose0. }
  match goal with |- context [corner_depth ?a ?b ?f ?i] => set (fs := f); set (vs := b); assert (shares 2 fs [4; 4]%nat) as Hs end.
  { unfold fs, fan. rewrite decide_True by (cbn [length]; lia). 
    apply shares_without; [unfold corners; cbn [fst snd]; rewrite !elem_of_cons, elem_of_nil; lia|].
    apply (shares_with 2%nat (1, 2, 4)%nat _ [4%nat]); [unfold corners; cbn [fst snd]; rewrite !elem_of_cons; lia|].
    apply (shares_with 2%nat (2, 3, 4)%nat _ []); [unfold corners; cbn [fst snd]; rewrite !elem_of_cons; lia|].
    apply shares_without; [unfold corners; cbn [fst snd]; rewrite !elem_of_cons, elem_of_nil; lia|]. constructor. }
  rewrite (corner_depth_spec pose0 vs fs 2 _ Hs).
  destruct (back_project_shows pose0 (Pinhole 1 1 0 0) (640 / 2 / 640, 480 / 2 / 640) 2 Hv) as (H & _); [cbn; lra|cbn; lra|].
  assert (transform pose0 (Vec 0 0 2) = Vec 0 0 2) as Ht. { cbv [transform pose0 from_world_to_cam w_rot w_tr]. rewrite mvec_I. vring. }
  cbn [fmap list_fmap foldr length INR]. assert (vs !! 4%nat = Some (Vec 0 0 2)) as -> by reflexivity. cbn [default from_option Datatypes.id]. rewrite Ht. cbn [vz].
  destruct (Rlt_dec _ _) as [_|H']; [|lra]. replace ((2 + (2 + 0)) / (1 + 1)) with 2 by lra. exact H.
Qed.
Print Assumptions C95_perspective_vertices_are_the_visible_points.
Print Assumptions C95_perspective_corners_are_at_the_depth_of_their_neighbours.
Print Assumptions C95_fisheye.
Print Assumptions C95_spherical.
Print Assumptions C95_every_projection_has_a_mesh.
