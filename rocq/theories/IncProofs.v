(** Proofs about the incremental reconstruction. *)
From stdpp Require Import prelude gmap strings sorting.
From Verif Require Import Base RigModel RigProofs IncModel IncSpec.
Open Scope list_scope.
Open Scope nat_scope.

Global Instance more_points_trans : Transitive more_points.
Proof. intros ???. unfold more_points. lia. Qed.
Global Instance more_points_total : Total more_points.
Proof. intros ??. unfold more_points. lia. Qed.
Global Instance larger_trans {G} : Transitive (@larger G).
Proof. intros ???. unfold larger. lia. Qed.
Global Instance larger_total {G} : Total (@larger G).
Proof. intros ??. unfold larger. lia. Qed.
Global Instance score_trans : Transitive score_ge.
Proof. intros ???. unfold score_ge. lia. Qed.
Global Instance score_total : Total score_ge.
Proof. intros ??. unfold score_ge. lia. Qed.

Section Proofs.
Context (rigs : list (string * rig_instance)) (Hrigs : valid_rigs rigs).
Let A := rig_assignments_per_image rigs.

Lemma assign_some im k c l : A !! im = Some (k, c, l) -> im ∈ l /\ NoDup l /\ (forall x, x ∈ l -> is_Some (A !! x)) /\ (forall x, x ∈ l <-> taken_with rigs im x).
Proof.
  intros H. apply assignments_spec in H as (l0 & Hl0 & Him & ->); [|done].
  assert (im ∈ map fst l0) as Hin. { apply elem_of_list_fmap. exists (im, c). done. }
  split; [done|]. split; [|split].
  - unfold valid_rigs in Hrigs. apply elem_of_list_split in Hl0 as (r1 & r2 & ->).
    rewrite map_app in Hrigs. cbn in Hrigs. rewrite mjoin_app in Hrigs. cbn in Hrigs. rewrite !map_app in Hrigs.
    apply NoDup_app in Hrigs as (_ & _ & Hrigs). by apply NoDup_app in Hrigs as (? & _).
  - intros x Hx. apply elem_of_list_fmap in Hx as ([x' c'] & -> & Hx). exists (k, c', map fst l0). apply assignments_spec; [done|]. eauto.
  - intros x. split.
    + intros Hx. right. eauto.
    + intros [->|(k' & l' & Hl' & H1 & H2)]; [done|].
      apply elem_of_list_fmap in H1 as ([im' c'] & E & H1). cbn in E. subst im'.
      assert (A !! im = Some (k', c', map fst l')) as E1 by (apply assignments_spec; eauto).
      assert (A !! im = Some (k, c, map fst l0)) as E2 by (apply assignments_spec; eauto).
      rewrite E1 in E2. injection E2 as _ _ E2. by rewrite <- E2.
Qed.
Lemma assign_none im : A !! im = None -> forall x, taken_with rigs im x <-> x = im.
Proof.
  intros H x. split; [|by left]. intros [->|(k & l & Hl & H1 & H2)]; [done|].
  apply elem_of_list_fmap in H1 as ([im' c'] & E & H1). cbn in E. subst im'.
  assert (A !! im = Some (k, c', map fst l)) as E1 by (apply assignments_spec; eauto). by rewrite E1 in H.
Qed.
Lemma taken_refl im : taken_with rigs im im.
Proof. by left. Qed.
Lemma taken_sym im x : taken_with rigs im x -> taken_with rigs x im.
Proof. intros [->|(k & l & ? & ? & ?)]; [by left|right; eauto 6]. Qed.
Lemma taken_trans x y z : taken_with rigs x y -> taken_with rigs y z -> taken_with rigs x z.
Proof.
  intros H1 H2. destruct (A !! x) as [[[k c] l]|] eqn:E.
  - apply assign_some in E as (Hx & _ & _ & H). destruct H1 as [->|(k1 & l1 & Hl1 & H1 & H1')]; [done|].
    destruct H2 as [->|(k2 & l2 & Hl2 & H2 & H2')]; [right; eauto 6|].
    apply elem_of_list_fmap in H1' as ([y1 c1] & E & H1'). cbn in E. subst y1.
    apply elem_of_list_fmap in H2 as ([y2 c2] & E & H2). cbn in E. subst y2.
    assert (A !! y = Some (k1, c1, map fst l1)) as E1 by (apply assignments_spec; eauto).
    assert (A !! y = Some (k2, c2, map fst l2)) as E2 by (apply assignments_spec; eauto).
    rewrite E1 in E2. injection E2 as _ _ E2. right. exists k1, l1. rewrite E2 in *. done.
  - apply (assign_none x E) in H1 as ->. done.
Qed.

(** no rig instance is cut *)
Definition closed (s : gset string) : Prop := forall im x, im ∈ s -> taken_with rigs im x -> x ∈ s.

Lemma create_shots_ok l s : NoDup l -> (forall x, x ∈ l -> is_Some (A !! x)) -> (forall x, x ∈ l -> x ∉ s) -> create_shots A l s = Ok (list_to_set l ∪ s).
Proof.
  revert s. induction l as [|x l IH]; intros s Hn HA Hs; cbn [create_shots].
  - f_equal. set_solver.
  - destruct (HA x ltac:(set_solver)) as [v ->]. unfold create_shot. rewrite decide_False by set_solver. cbn [res_bind].
    apply NoDup_cons in Hn as [Hx Hn]. rewrite IH; [f_equal; set_solver|done|set_solver|].
    intros y Hy. assert (y <> x) by set_solver. specialize (Hs y). set_solver.
Qed.
Lemma add_shot_ok s im : closed s -> im ∉ s -> exists new, add_shot A s im = Ok (new ∪ s, new) /\ (forall x, x ∈ new <-> taken_with rigs im x) /\ new ## s.
Proof.
  intros Hc Him. assert (forall x, taken_with rigs im x -> x ∉ s) as Hd.
  { intros x Hx Hs. apply Him. eapply Hc; [done|]. by apply taken_sym. }
  unfold add_shot. destruct (A !! im) as [[[k c] l]|] eqn:E.
  - apply assign_some in E as (Hx & Hn & HA & H). rewrite create_shots_ok; [|done|done|]. 2:{ intros x Hx'. apply Hd. by apply H. }
    cbn [res_bind]. rewrite decide_True by done. exists (list_to_set l). split; [done|]. split.
    + intros x. rewrite elem_of_list_to_set. apply H.
    + intros x Hx1 Hx2. eapply Hd; [|done]. apply H. by apply elem_of_list_to_set in Hx1.
  - unfold create_shot. rewrite decide_False by done. cbn [res_bind]. exists {[im]}. split; [done|]. split; [|set_solver].
    intros x. rewrite (assign_none im E). set_solver.
Qed.
Lemma closed_add new s im : closed s -> (forall x, x ∈ new <-> taken_with rigs im x) -> closed (new ∪ s).
Proof.
  intros Hc Hn y x Hy Hx. apply elem_of_union in Hy as [Hy|Hy].
  - apply elem_of_union_l. apply Hn. apply Hn in Hy. by eapply taken_trans.
  - apply elem_of_union_r. by eapply Hc.
Qed.
Lemma closed_empty : closed ∅.
Proof. intros ? ? H. set_solver. Qed.

Section Run.
Context (observations : gmap string (gset string)) (five_min min_inliers : nat) {G : Type} (points : G -> gset string)
  (two_view : string -> string -> bool) (boot_triangulate : string -> string -> gset string -> G)
  (boot_retriangulate boot_bundle : G -> gset string -> G) (inliers : G -> gset string -> string -> nat)
  (resected : G -> gset string -> gset string -> string -> G) (prepare finalize : G -> gset string -> G)
  (enum : G -> gset string -> list string) (Henum : forall g s, enum g s ≡ₚ elements s).

Notation boot := (bootstrap A five_min points two_view boot_triangulate boot_retriangulate boot_bundle).
Notation addable := (can_be_added observations min_inliers points inliers).

Lemma bootstrap_ok im1 im2 : exists o, boot im1 im2 = Ok o /\ forall r, o = Some r -> closed (shots r) /\ (forall x, x ∈ shots r <-> taken_with rigs im1 x \/ taken_with rigs im2 x).
Proof.
  unfold bootstrap. destruct (two_view im1 im2); [|by eexists].
  destruct (add_shot_ok ∅ im1 closed_empty ltac:(set_solver)) as (n1 & -> & Hn1 & _). cbn [res_bind].
  assert (closed (n1 ∪ ∅)) as Hc1 by (by eapply closed_add, Hn1; apply closed_empty).
  destruct (decide (im2 ∈ n1)) as [Hin|Hin].
  - cbn [res_bind]. destruct (decide _); [by eexists|]. destruct (decide _); [by eexists|]. eexists. split; [done|].
    intros r [= <-]. cbn. split; [done|]. intros x. rewrite elem_of_union. split.
    + intros [Hx|Hx]; [left; by apply Hn1|set_solver].
    + intros [Hx|Hx]; left; apply Hn1; [done|]. apply Hn1 in Hin. by eapply taken_trans.
  - destruct (add_shot_ok (n1 ∪ ∅) im2 Hc1 ltac:(set_solver)) as (n2 & -> & Hn2 & _). cbn [res_bind].
    destruct (decide _); [by eexists|]. destruct (decide _); [by eexists|]. eexists. split; [done|].
    intros r [= <-]. cbn. split; [by eapply closed_add|]. intros x. rewrite !elem_of_union, Hn1, Hn2. set_solver.
Qed.

Lemma counts_ok g l : (forall im, im ∈ l -> im ∈ dom observations) ->
  exists c, counts observations points g l = Ok c /\ map fst c = l /\ (forall im n, (im, n) ∈ c -> n = size (default ∅ (observations !! im) ∩ points g)).
Proof.
  induction l as [|im l IH]; intros H; cbn [counts].
  - exists []. split; [done|]. split; [done|]. intros ? ? ?%elem_of_nil. done.
  - destruct IH as (c & -> & Hc & Hn); [set_solver|]. unfold count_tracks.
    assert (im ∈ dom observations) as Him by set_solver. apply elem_of_dom in Him as [o Ho]. rewrite Ho. cbn.
    eexists. split; [done|]. cbn. split; [by rewrite Hc|]. intros x n [[= -> ->]|Hx]%elem_of_cons; [by rewrite Ho|by apply Hn].
Qed.
Lemma candidates_ok r images : images ⊆ dom observations -> images ## shots r -> exists c, reconstructed_points_for_images observations points enum r images = Ok c /\
  (forall im, im ∈ map fst c <-> im ∈ images) /\ (forall im n, (im, n) ∈ c -> n = visible observations points r im) /\ StronglySorted more_points c.
Proof.
  intros Hi Hd. unfold reconstructed_points_for_images.
  assert (forall im, im ∈ filter (fun im => im ∉ shots r) (enum (geo r) images) <-> im ∈ images) as Hf.
  { intros im. rewrite elem_of_list_filter, Henum, elem_of_elements. set_solver. }
  destruct (counts_ok (geo r) (filter (fun im => im ∉ shots r) (enum (geo r) images))) as (c & -> & Hc & Hn).
  { intros im Him%Hf. set_solver. }
  cbn [res_bind]. eexists. split; [done|]. split; [|split].
  - intros im. rewrite <- Hf, <- Hc. split; intros Hx.
    + apply elem_of_list_fmap in Hx as (y & -> & Hy). rewrite merge_sort_Permutation in Hy. apply elem_of_list_fmap. eauto.
    + apply elem_of_list_fmap in Hx as (y & -> & Hy). apply elem_of_list_fmap. exists y. split; [done|]. by rewrite merge_sort_Permutation.
  - intros im n Hin. rewrite merge_sort_Permutation in Hin. by apply Hn.
  - apply StronglySorted_merge_sort; apply _.
Qed.

Lemma resect_ok r im : closed (shots r) -> im ∈ dom observations -> im ∉ shots r ->
  (~ addable r im /\ resect observations A min_inliers points inliers resected r im = Ok None) \/
  (addable r im /\ exists new, (forall x, x ∈ new <-> taken_with rigs im x) /\ new ## shots r /\
    resect observations A min_inliers points inliers resected r im = Ok (Some ({| shots := new ∪ shots r; geo := resected (geo r) (new ∪ shots r) new im |}, new))).
Proof.
  intros Hc Hd Hn. unfold resect, count_tracks. apply elem_of_dom in Hd as [o Ho]. rewrite Ho. cbn [of_option res_bind].
  destruct (decide (_ < 5)) as [H5|H5].
  { left. split; [|done]. intros (o' & Ho' & ? & _). rewrite Ho in Ho'. injection Ho' as <-. lia. }
  destruct (decide (min_inliers <= _)) as [Hi|Hi].
  - right. split; [exists o; split; [done|lia]|]. rewrite decide_False by done.
    destruct (add_shot_ok (shots r) im Hc Hn) as (new & -> & Hnew & Hdis). cbn [res_bind]. exists new. done.
  - left. split; [|done]. intros (o' & _ & _ & ?). lia.
Qed.
Lemma try_ok r c : closed (shots r) -> (forall im, im ∈ map fst c -> im ∈ dom observations /\ im ∉ shots r) ->
  ((forall im, im ∈ map fst c -> ~ addable r im) /\ try_candidates observations A min_inliers points inliers resected r c = Ok None) \/
  (exists c1 im n c2 new, c = c1 ++ (im, n) :: c2 /\ (forall im, im ∈ map fst c1 -> ~ addable r im) /\ addable r im /\
     (forall x, x ∈ new <-> taken_with rigs im x) /\ new ## shots r /\
     try_candidates observations A min_inliers points inliers resected r c = Ok (Some ({| shots := new ∪ shots r; geo := resected (geo r) (new ∪ shots r) new im |}, new))).
Proof.
  intros Hc. induction c as [|[im n] c IH]; intros H; cbn [try_candidates].
  - left. split; [set_solver|done].
  - destruct (H im ltac:(set_solver)) as [Hd Hs]. destruct (resect_ok r im Hc Hd Hs) as [[Hno ->]|(Hyes & new & Hnew & Hdis & ->)]; cbn [res_bind].
    + destruct IH as [[IH ->]|(c1 & im' & n' & c2 & new & -> & H1 & H2 & H3 & H4 & ->)]; [set_solver| |].
      * left. split; [set_solver|done].
      * right. exists ((im, n) :: c1), im', n', c2, new. split; [done|]. split; [set_solver|done].
    + right. exists [], im, n, c, new. split; [done|]. split; [set_solver|done].
Qed.

Notation gloop := (grow_loop observations A min_inliers points inliers resected enum).
Lemma grow_loop_ok fuel : forall r images steps, closed (shots r) -> images ⊆ dom observations -> images ## shots r -> size images < fuel ->
  exists r' images' more, gloop fuel r images steps = Ok (r', images', steps ++ more) /\ grows rigs observations min_inliers points inliers resected r images more r' images'.
Proof.
  induction fuel as [|fuel IH]; intros r images steps Hc Hi Hd Hf; [lia|]. cbn [grow_loop].
  destruct (candidates_ok r images Hi Hd) as (c & -> & Hc1 & Hc2 & Hc3). cbn [res_bind].
  destruct c as [|ca c].
  { exists r, images, []. rewrite app_nil_r. split; [done|]. constructor. intros im Him. apply Hc1 in Him. set_solver. }
  destruct (try_ok r (ca :: c) Hc) as [[Hno ->]|(c1 & im & n & c2 & new & E & H1 & H2 & H3 & H4 & ->)]; cbn [res_bind].
  { intros im Him. apply Hc1 in Him. set_solver. }
  { exists r, images, []. rewrite app_nil_r. split; [done|]. constructor. intros im Him. apply Hno. by apply Hc1. }
  assert (im ∈ images) as Him. { apply Hc1. rewrite E. rewrite map_app. set_solver. }
  assert (im ∈ new) as Hnew by (apply H3; by left).
  destruct (IH {| shots := new ∪ shots r; geo := resected (geo r) (new ∪ shots r) new im |} (images ∖ new) (steps ++ [new])) as (r' & images' & more & -> & Hg).
  - cbn. by eapply closed_add.
  - set_solver.
  - cbn. set_solver.
  - assert (size (images ∖ new) < size images); [|lia]. apply subset_size. set_solver.
  - exists r', images', (new :: more). split; [by rewrite <- app_assoc|]. apply grows_step with im; try done.
    intros im' Him' Ha'. apply Hc1 in Him'. rewrite E, map_app in Him'. apply elem_of_app in Him' as [Him'|Him'].
    { exfalso. by eapply H1. }
    assert (n = visible observations points r im) as Hvis. { apply Hc2. rewrite E. set_solver. }
    cbn [map fst] in Him'. apply elem_of_cons in Him' as [->|Him']; [done|].
    apply elem_of_list_fmap in Him' as ([x m] & -> & Hx). cbn [fst].
    assert (m = visible observations points r x) as Hvis2. { apply Hc2. rewrite E. set_solver. }
    rewrite E in Hc3. apply StronglySorted_app_inv_r in Hc3. apply StronglySorted_inv in Hc3 as [_ Hc3]. rewrite Forall_forall in Hc3.
    specialize (Hc3 _ Hx). unfold more_points in Hc3. cbn in Hc3. lia.
Qed.

(** what a growth implies *)
Lemma grows_facts r images steps r' images' : grows rigs observations min_inliers points inliers resected r images steps r' images' -> closed (shots r) -> images ## shots r ->
  closed (shots r') /\ shots r ⊆ shots r' /\ images' = images ∖ shots r' /\
  (forall x, x ∈ shots r' -> x ∈ shots r \/ exists im, im ∈ images /\ im ∈ shots r' /\ taken_with rigs im x) /\
  (forall im, im ∈ images' -> ~ addable r' im) /\ shots r' = ⋃ steps ∪ shots r.
Proof.
  induction 1 as [r images Hno|r images im new steps r' images' Him Ha Hbest Hnew Hdis Hg IH]; intros Hc Hd.
  - split; [done|]. split; [done|]. split; [set_solver|]. split; [by left|]. split; [done|]. set_solver.
  - destruct IH as (I1 & I2 & I3 & I4 & I5 & I6); [by eapply closed_add|cbn; set_solver|]. cbn [shots geo] in *.
    assert (im ∈ new) as Hin by (apply Hnew; by left).
    split; [done|]. split; [set_solver|]. split; [set_solver|]. split; [|split; [done|set_solver]].
    intros x Hx. destruct (I4 x Hx) as [[Hx'|Hx']%elem_of_union|(im' & ? & ? & ?)].
    + right. exists im. split; [done|]. split; [set_solver|]. by apply Hnew.
    + by left.
    + right. exists im'. set_solver.
Qed.

Notation iloop := (inc_loop observations A five_min min_inliers points two_view boot_triangulate boot_retriangulate boot_bundle inliers resected prepare finalize enum).
(** everything that is known about the reconstructions found so far, and the images left *)
Definition all_shots (recs : list (@reconstruction G)) : list string := mjoin (map (fun r => elements (shots r)) recs).
Definition finished (remaining : gset string) (r : reconstruction) : Prop :=
  exists g, geo r = finalize g (shots r) /\ forall im, im ∈ remaining -> ~ addable {| shots := shots r; geo := g |} im.
Record inv (done : list (string * string)) (remaining : gset string) (recs : list reconstruction) : Prop := {
  i_rem : remaining ⊆ dom observations;
  i_closed : forall r, r ∈ recs -> closed (shots r);
  i_apart : forall r, r ∈ recs -> shots r ## remaining;
  i_cover : forall im, im ∈ dom observations -> im ∈ remaining \/ exists r, r ∈ recs /\ im ∈ shots r;
  i_nodup : NoDup (all_shots recs);
  i_why : forall r x, r ∈ recs -> x ∈ shots r -> exists im, im ∈ dom observations /\ im ∈ shots r /\ taken_with rigs im x;
  i_fin : forall r, r ∈ recs -> finished remaining r;
  i_seed : forall r, r ∈ recs -> exists im1 im2, (im1, im2) ∈ done /\ im1 ∈ shots r /\ im2 ∈ shots r /\ two_view im1 im2;
  i_done : forall im1 im2, (im1, im2) ∈ done -> im1 ∈ remaining -> im2 ∈ remaining -> boot im1 im2 = Ok None;
  i_sorted : StronglySorted larger recs }.

Lemma elem_of_all_shots x recs : x ∈ all_shots recs <-> exists r, r ∈ recs /\ x ∈ shots r.
Proof.
  unfold all_shots. rewrite elem_of_list_join. split.
  - intros (l & Hx & Hl). apply elem_of_list_fmap in Hl as (r & -> & Hr). exists r. split; [done|]. by apply elem_of_elements.
  - intros (r & Hr & Hx). exists (elements (shots r)). split; [by apply elem_of_elements|]. apply elem_of_list_fmap. eauto.
Qed.
Lemma all_shots_perm l1 l2 : l1 ≡ₚ l2 -> all_shots l1 ≡ₚ all_shots l2.
Proof. unfold all_shots. intros H. by rewrite H. Qed.

Lemma boot_two_view im1 im2 r : boot im1 im2 = Ok (Some r) -> two_view im1 im2.
Proof. unfold bootstrap. destruct (two_view im1 im2); [done|]. intros [=]. Qed.

Lemma inc_loop_ok fuel pairs : size (dom observations) < fuel -> forall d remaining recs, inv d remaining recs ->
  exists remaining' recs', iloop fuel pairs remaining recs = Ok (remaining', recs') /\ inv (d ++ pairs) remaining' recs' /\ remaining' ⊆ remaining.
Proof.
  intros Hf. induction pairs as [|[im1 im2] pairs IH]; intros d remaining recs Hi; cbn [inc_loop].
  { exists remaining, recs. rewrite app_nil_r. done. }
  rewrite cons_middle, app_assoc.
  destruct (decide _) as [[Hr1 Hr2]|Hno].
  2:{ apply IH. destruct Hi. constructor; try done.
      - intros r Hr. destruct (i_seed0 r Hr) as (a & b & ? & ?). exists a, b. set_solver.
      - intros a b [Hab|Hab]%elem_of_app Ha Hb; [auto|]. apply elem_of_list_singleton in Hab. injection Hab as -> ->. tauto. }
  destruct (bootstrap_ok im1 im2) as (o & Eb & Ho). rewrite Eb. cbn [res_bind]. destruct o as [r|].
  2:{ apply IH. destruct Hi. constructor; try done.
      - intros r Hr. destruct (i_seed0 r Hr) as (a & b & ? & ?). exists a, b. set_solver.
      - intros a b [Hab|Hab]%elem_of_app Ha Hb; [auto|]. apply elem_of_list_singleton in Hab. by injection Hab as -> ->. }
  destruct (Ho r eq_refl) as [Hc Hs]. unfold grow.
  destruct (grow_loop_ok fuel {| shots := shots r; geo := prepare (geo r) (shots r) |} (remaining ∖ shots r) []) as (r' & images' & steps & Eg & Hg).
  { done. } { destruct Hi. set_solver. } { cbn. set_solver. }
  { assert (size (remaining ∖ shots r) <= size (dom observations)); [|lia]. apply subseteq_size. destruct Hi. set_solver. }
  rewrite Eg. cbn [res_bind app].
  apply grows_facts in Hg as (F1 & F2 & F3 & F4 & F5 & F6); [|done|cbn; set_solver]. cbn [shots geo] in *.
  set (r'' := {| shots := shots r'; geo := finalize (geo r') (shots r') |}).
  assert (forall x, x ∈ shots r' -> exists im, im ∈ remaining /\ im ∈ shots r' /\ taken_with rigs im x) as Hwhy.
  { intros x Hx. destruct (F4 x Hx) as [Hx'|(im & ? & ? & ?)].
    - apply Hs in Hx' as [Hx'|Hx']; [exists im1|exists im2]; (split; [done|split; [|done]]); apply F2, Hs; [left|right]; by left.
    - exists im. set_solver. }
  assert (images' ⊆ remaining) as Hsub by set_solver.
  assert (im1 ∈ shots r) as Hm1 by (apply Hs; left; by left). assert (im2 ∈ shots r) as Hm2 by (apply Hs; right; by left).
  destruct (IH (d ++ [(im1, im2)]) images' (merge_sort larger (recs ++ [r'']))) as (rem' & recs' & E & Hinv & Hle).
  2:{ exists rem', recs'. split; [done|]. split; [done|]. set_solver. }
  assert (forall a, a ∈ merge_sort larger (recs ++ [r'']) <-> a ∈ recs \/ a = r'') as Hel.
  { intros a. rewrite merge_sort_Permutation. rewrite elem_of_app, elem_of_list_singleton. done. }
  destruct Hi. constructor.
  - by transitivity remaining.
  - intros a [Ha| ->]%Hel; [by apply i_closed0|done].
  - intros a [Ha| ->]%Hel; [intros x Hx Hx'; apply (i_apart0 a Ha x Hx); by apply Hsub|cbn; rewrite F3; clear; set_solver].
  - intros im Him. destruct (i_cover0 im Him) as [H|(a & Ha & Hx)].
    + destruct (decide (im ∈ shots r')) as [H'|H']; [right; exists r''; split; [by apply Hel; right|done]|left; rewrite F3; apply elem_of_difference; split; [|done]; apply elem_of_difference; split; [done|]; intros H''; apply H'; by apply F2].
    + right. exists a. split; [by apply Hel; left|done].
  - rewrite (all_shots_perm _ (recs ++ [r''])) by (apply merge_sort_Permutation).
    unfold all_shots. rewrite map_app, mjoin_app. cbn. rewrite app_nil_r. apply NoDup_app. split; [done|]. split; [|apply NoDup_elements].
    intros x Hx Hx'. apply elem_of_all_shots in Hx as (a & Ha & Hx). apply elem_of_elements in Hx'.
    destruct (Hwhy x Hx') as (im & Hrem & _ & Ht). apply taken_sym in Ht. apply (i_apart0 a Ha im); [|done]. exact (i_closed0 a Ha x im Hx Ht).
  - intros a x [Ha| ->]%Hel Hx; [by eapply i_why0|]. destruct (Hwhy x Hx) as (im & ? & ? & ?). exists im. split; [by apply i_rem0|done].
  - intros a [Ha| ->]%Hel.
    + destruct (i_fin0 a Ha) as (g & Hg & Hfin). exists g. split; [done|]. intros im Him. apply Hfin. by apply Hsub.
    + exists (geo r'). split; [done|]. intros im Him. cbn [shots]. destruct r'; cbn in *. by apply F5.
  - intros a [Ha| ->]%Hel; [destruct (i_seed0 a Ha) as (x & y & ? & ?); exists x, y; split; [apply elem_of_app; by left|done]|].
    exists im1, im2. split; [apply elem_of_app; right; by apply elem_of_list_singleton|]. split; [by apply F2|]. split; [by apply F2|]. by eapply boot_two_view.
  - intros a b [Hab|Hab]%elem_of_app Ha Hb; [apply i_done0; [done|by apply Hsub|by apply Hsub]|]. apply elem_of_list_singleton in Hab. injection Hab as -> ->. rewrite F3 in Ha. apply elem_of_difference in Ha as [_ []]. by apply F2.
  - apply StronglySorted_merge_sort; apply _.
Qed.
Lemma inv_init : inv [] (dom observations) [].
Proof.
  constructor; try done; try (by intros ? ?%elem_of_nil); try (by intros ? ? ?%elem_of_nil); try (by constructor).
Qed.
Lemma incremental_ok fuel pairs : size (dom observations) < fuel ->
  exists remaining recs, incremental observations A five_min min_inliers points two_view boot_triangulate boot_retriangulate boot_bundle inliers resected prepare finalize enum fuel pairs = Ok (remaining, recs) /\ inv pairs remaining recs.
Proof.
  intros Hf. destruct (inc_loop_ok fuel pairs Hf [] (dom observations) [] inv_init) as (rem & recs & E & Hi & _). eauto.
Qed.
End Run.
End Proofs.
