(** C50: the incremental reconstruction. *)
From stdpp Require Import prelude gmap strings sorting.
From Verif Require Import Base RigModel IncModel IncSpec IncProofs.
Open Scope list_scope.
Open Scope nat_scope.

Section C50.
(** the tracks, the rigs and the options *)
Context (observations : gmap string (gset string)) (rigs : list (string * rig_instance)) (Hrigs : valid_rigs rigs)
  (five_min min_inliers : nat).
(** any geometric computation whatsoever *)
Context {G : Type} (points : G -> gset string)
  (two_view : string -> string -> bool) (boot_triangulate : string -> string -> gset string -> G)
  (boot_retriangulate boot_bundle : G -> gset string -> G) (inliers : G -> gset string -> string -> nat)
  (resected : G -> gset string -> gset string -> string -> G) (prepare finalize : G -> gset string -> G).
(** any order of iteration over sets *)
Context (enum : G -> gset string -> list string) (Henum : forall g s, enum g s ≡ₚ elements s).
Notation assignments := (rig_assignments_per_image rigs).
Notation run := (incremental observations assignments five_min min_inliers points two_view boot_triangulate boot_retriangulate boot_bundle inliers resected prepare finalize enum).
Notation images := (dom observations).
Notation addable := (can_be_added observations min_inliers points inliers).

(** For every list of candidate pairs the reconstruction terminates (in at most one iteration per image and pair) and
    raises none of its errors: no shot is ever created twice. *)
Theorem C50_incremental_total fuel pairs : size images < fuel -> exists remaining recs, run fuel pairs = Ok (remaining, recs).
Proof. intros H. edestruct incremental_ok as (rem & recs & E & _); eauto. Qed.

Lemma run_inv fuel pairs remaining recs : size images < fuel -> run fuel pairs = Ok (remaining, recs) ->
  inv rigs observations five_min min_inliers points two_view boot_triangulate boot_retriangulate boot_bundle inliers finalize pairs remaining recs.
Proof. intros H E. edestruct incremental_ok as (rem & rs & E' & Hi); eauto. rewrite E in E'. by injection E' as <- <-. Qed.

(** the number of iterations allowed does not change the result *)
Theorem C50_fuel_irrelevant fuel fuel' pairs : size images < fuel -> fuel <= fuel' -> run fuel' pairs = run fuel pairs.
Proof.
  intros Hf Hle.
  assert (forall f f' r ims steps x, f <= f' -> grow_loop observations assignments min_inliers points inliers resected enum f r ims steps = Ok x -> grow_loop observations assignments min_inliers points inliers resected enum f' r ims steps = Ok x) as Hg.
  { induction f as [|f IH]; intros f' r ims steps x Hf' E; [done|]. destruct f' as [|f']; [lia|]. cbn [grow_loop] in *.
    destruct (reconstructed_points_for_images _ _ _ _ _) as [c|]; [|done]. cbn [res_bind] in *. destruct c as [|ca c]; [done|].
    destruct (try_candidates _ _ _ _ _ _ _ _) as [[[r' n]|]|]; cbn [res_bind] in *; [|done|done]. apply IH; [lia|done]. }
  assert (forall ps rem rs x, inc_loop observations assignments five_min min_inliers points two_view boot_triangulate boot_retriangulate boot_bundle inliers resected prepare finalize enum fuel ps rem rs = Ok x ->
    inc_loop observations assignments five_min min_inliers points two_view boot_triangulate boot_retriangulate boot_bundle inliers resected prepare finalize enum fuel' ps rem rs = Ok x) as Hl.
  { induction ps as [|[a b] ps IH]; intros rem rs x E; [done|]. cbn [inc_loop] in *. destruct (decide _); [|by apply IH].
    destruct (bootstrap _ _ _ _ _ _ _ _ _) as [[r|]|]; cbn [res_bind] in *; [|by apply IH|done].
    unfold grow in *. destruct (grow_loop _ _ _ _ _ _ _ fuel _ _ _) as [[[r' im'] st]|] eqn:Eg; cbn [res_bind] in *; [|done].
    rewrite (Hg _ _ _ _ _ _ Hle Eg). cbn [res_bind]. by apply IH. }
  destruct (C50_incremental_total fuel pairs Hf) as (rem & recs & E). rewrite E. by apply Hl.
Qed.

(** Every image of the tracks is either reported as not reconstructed, and is then in no reconstruction, or it is in
    exactly one reconstruction. *)
Theorem C50_each_image_once fuel pairs remaining recs im : size images < fuel -> run fuel pairs = Ok (remaining, recs) -> im ∈ images ->
  (im ∈ remaining /\ forall r, r ∈ recs -> im ∉ shots r) \/
  (im ∉ remaining /\ exists i r, recs !! i = Some r /\ im ∈ shots r /\ forall j r', recs !! j = Some r' -> im ∈ shots r' -> j = i).
Proof.
  intros Hf E Him. apply run_inv in E; [|done]. destruct E. destruct (i_cover _ Him) as [Hr|(r & Hr & Hs)].
  - left. split; [done|]. intros r Hr' Hs. by apply (i_apart r Hr' im).
  - right. split. { intros H. by apply (i_apart r Hr im). }
    apply elem_of_list_lookup in Hr as [i Hi]. exists i, r. split; [done|]. split; [done|].
    intros j r' Hj Hs'. destruct (decide (j = i)) as [|Hne]; [done|]. exfalso.
    assert (forall (l : list (@reconstruction G)) i j r r', i < j -> l !! i = Some r -> l !! j = Some r' -> im ∈ shots r -> im ∈ shots r' -> ~ NoDup (all_shots l)) as Hd.
    { clear. induction l as [|a l IH]; intros i j r r' Hlt Hi Hj H1 H2 Hn; [done|]. destruct j as [|j]; [lia|].
      unfold all_shots in Hn. cbn [map mjoin list_join] in Hn. apply NoDup_app in Hn as (_ & Hd & Hn). destruct i as [|i].
      - cbn in Hi, Hj. injection Hi as ->. apply (Hd im); [by apply elem_of_elements|]. apply elem_of_all_shots. exists r'. split; [by eapply elem_of_list_lookup_2|done].
      - cbn in Hi, Hj. apply (IH i j r r' ltac:(lia) Hi Hj H1 H2 Hn). }
    destruct (decide (i < j)); [eapply (Hd recs i j); eauto|eapply (Hd recs j i); eauto; lia].
Qed.
Theorem C50_not_reconstructed_are_images fuel pairs remaining recs : size images < fuel -> run fuel pairs = Ok (remaining, recs) -> remaining ⊆ images.
Proof. intros Hf E. apply run_inv in E; [|done]. by destruct E. Qed.

(** No shot, whether an image of the tracks or not, is in two reconstructions. *)
Theorem C50_disjoint fuel pairs remaining recs i j r r' : size images < fuel -> run fuel pairs = Ok (remaining, recs) ->
  recs !! i = Some r -> recs !! j = Some r' -> i <> j -> shots r ## shots r'.
Proof.
  intros Hf E Hi Hj Hne x Hx Hx'. pose proof E as E'. apply run_inv in E; [|done]. destruct E.
  destruct (i_why r x ltac:(by eapply elem_of_list_lookup_2) Hx) as (im & Him & Hs & Ht).
  destruct (C50_each_image_once fuel pairs remaining recs im Hf E' Him) as [[_ H]|(_ & k & r0 & Hk & Hk1 & Huniq)].
  - eapply H; [|exact Hs]. by eapply elem_of_list_lookup_2.
  - assert (i = k) as -> by (eapply Huniq; eauto). assert (j = k) as ->; [|done]. eapply Huniq; [done|].
    eapply (i_closed r'); [by eapply elem_of_list_lookup_2|exact Hx'|]. by apply taken_sym.
Qed.

(** The shots of a rig instance are never separated, and a shot that is not an image of the tracks is there only as
    companion of one that is. *)
Theorem C50_rigs_together fuel pairs remaining recs r k l : size images < fuel -> run fuel pairs = Ok (remaining, recs) -> r ∈ recs ->
  (k, l) ∈ rigs -> (exists im, im ∈ map fst l /\ im ∈ shots r) -> forall x, x ∈ map fst l -> x ∈ shots r.
Proof.
  intros Hf E Hr Hk (im & H1 & H2) x Hx. apply run_inv in E; [|done]. destruct E. apply (i_closed r Hr im x H2). right. eauto.
Qed.
Theorem C50_shots_have_a_reason fuel pairs remaining recs r x : size images < fuel -> run fuel pairs = Ok (remaining, recs) -> r ∈ recs -> x ∈ shots r ->
  x ∈ images \/ exists im k l, im ∈ images /\ im ∈ shots r /\ (k, l) ∈ rigs /\ im ∈ map fst l /\ x ∈ map fst l.
Proof.
  intros Hf E Hr Hx. apply run_inv in E; [|done]. destruct E. destruct (i_why r x Hr Hx) as (im & Him & Hs & [->|(k & l & ? & ? & ?)]); [by left|right; eauto 10].
Qed.

(** The reconstructions are returned from the one with most shots to the one with fewest. *)
Theorem C50_largest_first fuel pairs remaining recs i j r r' : size images < fuel -> run fuel pairs = Ok (remaining, recs) ->
  recs !! i = Some r -> recs !! j = Some r' -> i <= j -> size (shots r') <= size (shots r).
Proof.
  intros Hf E Hi Hj Hle. apply run_inv in E; [|done]. destruct E. clear -i_sorted Hi Hj Hle. revert i j Hi Hj Hle.
  induction i_sorted as [|a l Hs IH Ha]; intros i j Hi Hj Hle; [done|]. destruct i as [|i], j as [|j]; cbn in *.
  - by simplify_eq.
  - injection Hi as ->. rewrite Forall_forall in Ha. apply (Ha r'). by eapply elem_of_list_lookup_2.
  - lia.
  - eapply (IH i j); eauto. lia.
Qed.

(** Each reconstruction started from one of the candidate pairs, for which a motion was found. *)
Theorem C50_seeded fuel pairs remaining recs r : size images < fuel -> run fuel pairs = Ok (remaining, recs) -> r ∈ recs ->
  exists im1 im2, (im1, im2) ∈ pairs /\ two_view im1 im2 = true /\ im1 ∈ shots r /\ im2 ∈ shots r.
Proof. intros Hf E Hr. apply run_inv in E; [|done]. destruct E. destruct (i_seed r Hr) as (a & b & ? & ? & ? & ?). exists a, b. split; [done|]. split; [by apply Is_true_eq_true|done]. Qed.

(** Nothing that could be reconstructed is left: no remaining image could be added to any of the reconstructions when its
    growth ended, and no candidate pair with both images remaining can start a reconstruction. *)
Theorem C50_maximal fuel pairs remaining recs r : size images < fuel -> run fuel pairs = Ok (remaining, recs) -> r ∈ recs ->
  exists g, geo r = finalize g (shots r) /\ forall im, im ∈ remaining -> ~ addable {| shots := shots r; geo := g |} im.
Proof. intros Hf E Hr. apply run_inv in E; [|done]. destruct E. by apply i_fin. Qed.
Theorem C50_pairs_exhausted fuel pairs remaining recs im1 im2 : size images < fuel -> run fuel pairs = Ok (remaining, recs) ->
  (im1, im2) ∈ pairs -> im1 ∈ remaining -> im2 ∈ remaining ->
  bootstrap assignments five_min points two_view boot_triangulate boot_retriangulate boot_bundle im1 im2 = Ok None.
Proof. intros Hf E Hp H1 H2. apply run_inv in E; [|done]. destruct E. by apply i_done. Qed.

(** The start of a reconstruction: exactly the two images and their companions, and enough points after the first and after the
    second triangulation. *)
Theorem C50_bootstrap im1 im2 :
  let boot := bootstrap assignments five_min points two_view boot_triangulate boot_retriangulate boot_bundle im1 im2 in
  boot = Ok None \/ exists r g s, boot = Ok (Some r) /\ two_view im1 im2 = true /\
    (forall x, x ∈ shots r <-> taken_with rigs im1 x \/ taken_with rigs im2 x) /\
    five_min <= size (points g) /\ geo r = boot_bundle g s /\ five_min <= size (points (boot_triangulate im1 im2 s)) /\ g = boot_retriangulate (boot_triangulate im1 im2 s) s /\ s = shots r.
Proof.
  intros boot. destruct (bootstrap_ok rigs Hrigs five_min points two_view boot_triangulate boot_retriangulate boot_bundle inliers resected prepare finalize enum Henum im1 im2) as (o & E & Ho).
  fold boot in E. destruct o as [r|]; [right|by left]. destruct (Ho r eq_refl) as [_ Hs]. clear Ho. pose proof E as E0. unfold boot, bootstrap in E.
  destruct (two_view im1 im2) eqn:Et; [|done].
  destruct (add_shot_ok rigs Hrigs ∅ im1 (closed_empty rigs Hrigs) ltac:(set_solver)) as (n1 & E1 & Hn1 & _). rewrite E1 in E. cbn [res_bind] in E.
  assert (closed rigs (n1 ∪ ∅)) as Hc1 by (eapply closed_add; [exact Hrigs|by apply closed_empty|exact Hn1]).
  destruct (decide (im2 ∈ n1)) as [Hin|Hin]; cbn [res_bind] in E.
  - destruct (decide _) as [|P1] in E; [done|]. destruct (decide _) as [|P2] in E; [done|]. injection E as <-.
    eexists _, _, n1. split; [done|]. split; [done|]. split; [done|]. split; [|split; [reflexivity|]]; [lia|]. split; [lia|]. split; [done|]. cbn. set_solver.
  - destruct (add_shot_ok rigs Hrigs (n1 ∪ ∅) im2 Hc1 ltac:(set_solver)) as (n2 & E2 & Hn2 & _). rewrite E2 in E. cbn [res_bind] in E.
    destruct (decide _) as [|P1] in E; [done|]. destruct (decide _) as [|P2] in E; [done|]. injection E as <-.
    eexists _, _, (n1 ∪ n2). split; [done|]. split; [done|]. split; [done|]. split; [|split; [reflexivity|]]; [lia|]. split; [lia|]. split; [done|]. cbn. set_solver.
Qed.

(** The growth of a reconstruction, whatever the reconstruction (with whole rig instances) and the images (not in it) to choose from: the
    steps are those of the specification. The images of the caller's set that were added, and no other, are removed from it. *)
Theorem C50_growth fuel r ims : (forall im x, im ∈ shots r -> taken_with rigs im x -> x ∈ shots r) -> ims ⊆ images -> ims ## shots r -> size ims < fuel ->
  exists g r' ims' steps, grow observations assignments min_inliers points inliers resected prepare finalize enum fuel r ims = Ok (r', ims', steps) /\
    grows rigs observations min_inliers points inliers resected {| shots := shots r; geo := prepare (geo r) (shots r) |} ims steps {| shots := shots r'; geo := g |} ims' /\
    geo r' = finalize g (shots r') /\ ims' = ims ∖ shots r' /\ shots r' = ⋃ steps ∪ shots r.
Proof.
  intros Hc Hi Hd Hf. unfold grow.
  destruct (grow_loop_ok rigs Hrigs observations min_inliers points two_view boot_triangulate boot_retriangulate boot_bundle inliers resected prepare finalize enum Henum fuel {| shots := shots r; geo := prepare (geo r) (shots r) |} ims [] Hc Hi Hd Hf) as (r' & ims' & steps & -> & Hg).
  cbn [res_bind app]. exists (geo r'). eexists _, _, _. split; [done|]. cbn [shots geo].
  pose proof (grows_facts rigs Hrigs observations min_inliers points two_view boot_triangulate boot_retriangulate boot_bundle inliers resected prepare finalize enum Henum _ _ _ _ _ Hg Hc Hd) as (_ & _ & F3 & _ & _ & F6).
  split; [|by split]. by destruct r'.
Qed.
End C50.

(** The candidate pairs: exactly the pairs of images with at least [min_common] common tracks of which at least 30% do
    not fit a pure rotation, those with most outliers first. *)
Theorem C50_pairs min_common rotation_inliers connectivity : 0 < min_common ->
  exists results pairs, compute_image_pairs min_common rotation_inliers connectivity = Ok pairs /\ pairs = map fst results /\
    (forall im1 im2 n, (im1, im2, n) ∈ results <-> exists c, (im1, im2, c) ∈ connectivity /\ min_common <= c /\
        n = (Z.of_nat c - rotation_inliers im1 im2)%Z /\ (3 * Z.of_nat c <= 10 * n)%Z /\ (0 < n)%Z) /\
    (forall i j a b, results !! i = Some a -> results !! j = Some b -> i <= j -> (b.2 <= a.2)%Z).
Proof.
  intros Hm. unfold compute_image_pairs.
  assert (exists results, pair_results min_common rotation_inliers connectivity = Ok results /\ forall im1 im2 n, (im1, im2, n) ∈ results <-> exists c, (im1, im2, c) ∈ connectivity /\ min_common <= c /\
        n = (Z.of_nat c - rotation_inliers im1 im2)%Z /\ (3 * Z.of_nat c <= 10 * n)%Z /\ (0 < n)%Z) as (results & -> & Hr).
  { induction connectivity as [|[[a b] c] l IH]; cbn [pair_results].
    - exists []. split; [done|]. intros. split; [by intros ?%elem_of_nil|]. by intros (? & ?%elem_of_nil & _).
    - destruct IH as (rs & Ers & IH). destruct (decide (c < min_common)).
      + exists rs. split; [done|]. intros im1 im2 n. rewrite IH. split; intros (c' & H & Hc' & ?); exists c'.
        * split; [by right|done]. * apply elem_of_cons in H as [[= -> -> ->]|H]; [lia|done].
      + unfold pairwise_reconstructability. rewrite decide_False by lia. rewrite Ers.
        destruct (decide (3 * _ <= _)%Z) as [Hge|Hge]; cbn [res_bind].
        * destruct (decide (0 < _)%Z) as [Hpos|Hpos].
          -- eexists. split; [done|]. intros im1 im2 n'. rewrite elem_of_cons, IH. split.
             ++ intros [[= -> -> ->]|(c' & H & ?)]; [exists c; split; [by left|split; [lia|split; [done|lia]]]|exists c'; split; [by right|done]].
             ++ intros (c' & [[= -> -> ->]|H]%elem_of_cons & Hc' & -> & Hr); [by left|right; eauto].
          -- exists rs. split; [done|]. intros im1 im2 n'. rewrite IH. split; intros (c' & H & Hc' & ?); exists c'.
             ++ split; [by right|done]. ++ apply elem_of_cons in H as [[= -> -> ->]|H]; [lia|done].
        * rewrite decide_False by lia. exists rs. split; [done|]. intros im1 im2 n'. rewrite IH. split; intros (c' & H & Hc' & ?); exists c'.
          ++ split; [by right|done]. ++ apply elem_of_cons in H as [[= -> -> ->]|H]; [lia|done]. }
  cbn [res_bind]. eexists _, _. split; [done|]. split; [done|]. split.
  - intros im1 im2 n. rewrite merge_sort_Permutation. apply Hr.
  - assert (StronglySorted score_ge (merge_sort score_ge results)) as Hs by (apply StronglySorted_merge_sort; apply _).
    clear Hr. intros i j. revert i j. induction Hs as [|a l Hs IH Ha]; intros i j x y Hi Hj Hle; [done|]. destruct i as [|i], j as [|j]; cbn in *.
    + by simplify_eq. + injection Hi as ->. rewrite Forall_forall in Ha. apply (Ha y). by eapply elem_of_list_lookup_2.
    + lia. + eapply (IH i j); eauto. lia.
Qed.

(** Non-vacuity: images a, b, c, e; c and d (which has no tracks) are taken by one rig; a and b give the first
    reconstruction, c can be added, e cannot. *)
Definition ex_obs : gmap string (gset string) :=
  <["a" := list_to_set ["1"; "2"; "3"; "4"; "5"]]> (<["b" := list_to_set ["1"; "2"; "3"; "4"; "5"; "6"]]> (<["c" := list_to_set ["1"; "2"; "3"; "4"; "5"]]> (<["e" := list_to_set ["1"; "2"; "3"; "4"]]> ∅))).
Definition ex_rigs : list (string * rig_instance) := [("i", [("c", "left"); ("d", "right")])].
Definition ex_run := incremental ex_obs (rig_assignments_per_image ex_rigs) 5 4 (fun g : gset string => g) (fun _ _ => true)
  (fun _ _ _ => list_to_set ["1"; "2"; "3"; "4"; "5"]) (fun g _ => g) (fun g _ => g) (fun _ _ _ => 4) (fun g _ _ _ => g) (fun g _ => g) (fun g _ => g) (fun _ s => elements s) 5 [("a", "b"); ("a", "e"); ("e", "e")].
Example C50_rigs_nonvacuous : valid_rigs ex_rigs.
Proof. unfold valid_rigs. cbn. repeat (apply NoDup_cons; split; [set_solver|]). by apply NoDup_nil_2. Qed.
Example C50_nonvacuous : match ex_run with Ok (remaining, recs) => elements remaining = [] /\ map (fun r => length (elements (shots r))) recs = [4; 1]%nat | Err _ => False end.
Proof. vm_compute. split; reflexivity. Qed.
Example C50_pairs_nonvacuous : compute_image_pairs 50 (fun a b => if String.eqb a "a" then 10%Z else 60%Z) [("a", "b", 60); ("b", "c", 70); ("a", "c", 80); ("a", "d", 40)] = Ok [("a", "c"); ("a", "b")].
Proof. vm_compute. reflexivity. Qed.
Print Assumptions C50_incremental_total.
Print Assumptions C50_each_image_once.
Print Assumptions C50_growth.
Print Assumptions C50_pairs.
