(** Proofs about BundlerModel.v *)
From stdpp Require Import prelude gmap strings.
From Coq Require Import Reals Lra Psatz.
From Verif Require Import Base JsonModel CamModel ProjModel Lin RotModel TracksModel PoseModel CamSpec CameraSpec CameraProofs CameraProps GcpProofs BundlerModel BundlerSpec.
Local Open Scope R_scope.

Lemma enumerate_from_spec l : forall i d k n, NoDup l -> (forall x, x ∈ l -> d !! x = None) ->
  enumerate_from i l d !! k = Some n <-> d !! k = Some n \/ (i <= n)%nat /\ l !! (n - i)%nat = Some k.
Proof.
  induction l as [|a l IH]; intros i d k n HN HD; cbn.
  { split; [by left|]. intros [H|[_ H]]; [done|]. by rewrite lookup_nil in H. }
  apply NoDup_cons in HN as [Ha HN]. rewrite IH; [|done|].
  2:{ intros x Hx. rewrite lookup_insert_ne by (intros ->; done). apply HD. by right. }
  destruct (decide (a = k)) as [<-|Hk].
  - rewrite lookup_insert. split.
    + intros [[= <-]|[H1 H2]]; [right; split; [lia|]; by replace (i - i)%nat with 0%nat by lia|].
      exfalso. apply Ha. eapply elem_of_list_lookup_2, H2.
    + intros [H|[H1 H2]]; [by rewrite HD in H by left|].
      destruct (decide (n = i)) as [->|Hn]; [by left|]. right. split; [lia|].
      replace (n - i)%nat with (S (n - S i)) in H2 by lia. done.
  - rewrite lookup_insert_ne by done. split; (intros [H|[H1 H2]]; [by left|right]).
    + split; [lia|]. replace (n - i)%nat with (S (n - S i)) by lia. done.
    + destruct (decide (n = i)) as [->|Hn]. { replace (i - i)%nat with 0%nat in H2 by lia. cbn in H2. congruence. }
      split; [lia|]. replace (n - i)%nat with (S (n - S i)) in H2 by lia. done.
Qed.
Lemma enumerate_spec l k n : NoDup l -> enumerate_from 0 l ∅ !! k = Some n <-> l !! n = Some k.
Proof.
  intros HN. rewrite enumerate_from_spec; [|done|intros; apply lookup_empty]. rewrite lookup_empty.
  replace (n - 0)%nat with n by lia. split; [intros [H|[_ H]]; done|intros H; right; split; [lia|done]].
Qed.

Lemma perspective_projection c p b X : made c -> cam_type c = PERSPECTIVE -> bundler_camera_of c p = Ok b -> vz (transform p X) <> 0 ->
  exists q, Project c (transform p X) = Some q /\
    bundler_sees (bc_focal b) (bc_k1 b) (bc_k2 b) (bc_rotation b) (bc_translation b) X = in_pixels_y_up (cam_width c) (cam_height c) q.
Proof.
  intros Hm Ht Hb Hz. exists (documented (cam_type c) (value_of c) (transform p X)). split.
  { apply C45_project_documented; [done|by rewrite Ht|]. rewrite Ht. cbn. by intros [|]. }
  unfold bundler_camera_of, bundler_focal in Hb. rewrite Ht in Hb |- *.
  unfold documented, value_of. 
  destruct (get_param c Focal) as [f|]; [|done]. cbn [res_bind] in Hb.
  destruct (get_param c K1) as [k1|]; [|done]. cbn [res_bind] in Hb.
  destruct (get_param c K2) as [k2|]; [|done]. cbn [res_bind] in Hb. injection Hb as <-. cbn [bc_focal bc_k1 bc_k2 bc_rotation bc_translation].
  unfold bundler_sees. 
  set (P := transform p X) in *.
  assert (HP : vadd (mvec (flip_rows (w_rot p)) X) (flip (get_translation p)) = flip P).
  { unfold P, transform, flip_rows, flip, get_translation, vadd, mvec. cbn. f_equal; ring. }
  rewrite HP. unfold in_pixels_y_up, to_image, radially, radial_factor, radius2, pinhole, flip, camera_scale. cbn [vx vy vz foldr fst snd].
  f_equal; field; done.
Qed.

Section Views.
Variable enumO : gmap string obs -> list (string * obs).
Lemma views_spec s order l vs : bundler_views s order l = Ok vs ->
  vs = omap (fun so => match sc_shots s !! so.1 with
                       | Some (c, _) => Some (BundlerView (default 0%nat (order !! so.1)) (o_feature so.2) (o_x so.2 * camera_scale c) (- o_y so.2 * camera_scale c))
                       | None => None end) l
  /\ forall so, so ∈ l -> is_Some (sc_shots s !! so.1) -> is_Some (order !! so.1).
Proof.
  revert vs. induction l as [|so l IH]; intros vs; cbn.
  { intros [= <-]. split; [done|]. intros so Hso. by apply elem_of_nil in Hso. }
  fold (bundler_views s order l). destruct (bundler_views s order l) as [vs'|] eqn:E; [|done]. cbn [res_bind].
  destruct (IH vs' eq_refl) as [IH1 IH2]. destruct (sc_shots s !! so.1) as [[c p]|] eqn:Es.
  - destruct (order !! so.1) as [i|] eqn:Eo; [|done]. cbn [of_option res_bind]. intros [= <-]. split; [by rewrite IH1|].
    intros so' [->|H]%elem_of_cons; [by rewrite Eo|by apply IH2].
  - intros [= <-]. split; [by rewrite IH1|]. intros so' [->|H]%elem_of_cons Hs; [by rewrite Es in Hs; destruct Hs|by apply IH2].
Qed.
Lemma views_ok s order l : (forall so, so ∈ l -> is_Some (sc_shots s !! so.1) -> is_Some (order !! so.1)) -> exists vs, bundler_views s order l = Ok vs.
Proof.
  induction l as [|so l IH]; intros H; [by exists []|]. cbn. fold (bundler_views s order l).
  destruct IH as [vs ->]; [intros so' Hso'; apply H; by right|]. cbn.
  destruct (sc_shots s !! so.1) as [[c p]|] eqn:Es; [|by exists vs].
  destruct (H so) as [i Hi]; [by left|by rewrite Es|]. rewrite Hi. cbn. by eexists.
Qed.
End Views.
