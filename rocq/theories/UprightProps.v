(** C94: upright coordinates. *)
From stdpp Require Import prelude strings.
From Coq Require Import Reals Lra Lia.
From Verif Require Import Base UprightModel UprightSpec.
Local Open Scope R_scope.

(** Every place of an image with sides above 0, given by its normalised coordinates, comes to where the quarter turns of its orientation bring it, in pixels of the upright image *)
Theorem C94_upright spots width height orientation n : (0 < width)%Z -> (0 < height)%Z -> upright_turns orientation n ->
  (forall p, p ∈ spots -> s_width p = IZR width /\ s_height p = IZR height) ->
  opensfm_to_upright (normalised <$> spots) width height orientation None None = Ok ((fun p => (s_left (turns n p), s_top (turns n p))) <$> spots).
Proof.
  intros Hw Hh Ho Hs. apply IZR_lt in Hw as Hw', Hh as Hh'. assert (0 < Rmax (IZR width) (IZR height)) as Hm by (eapply Rlt_le_trans; [exact Hw'|apply Rmax_l]).
  assert (forall r sw sh, (forall p, p ∈ spots -> let c := normalised p in let T := compose r (Affine (Rmax (IZR width) (IZR height) / IZR width) 0 (/ 2) 0 (Rmax (IZR width) (IZR height) / IZR height) (/ 2)) in
      (sw * (a11 T * c.1 + a12 T * c.2 + a13 T), sh * (a21 T * c.1 + a22 T * c.2 + a23 T)) = (s_left (turns n p), s_top (turns n p))) ->
    orientation_matrix orientation = Ok r -> sw = IZR (if decide (orientation < 6)%Z then width else height) -> sh = IZR (if decide (orientation < 6)%Z then height else width) ->
    opensfm_to_upright (normalised <$> spots) width height orientation None None = Ok ((fun p => (s_left (turns n p), s_top (turns n p))) <$> spots)) as H.
  { intros r sw sh H Hr -> ->. unfold opensfm_to_upright. rewrite decide_False by lia. rewrite Hr. cbn [res_bind default from_option Datatypes.id]. f_equal. rewrite <- list_fmap_compose. apply list_fmap_ext. intros i p Hp.
    apply elem_of_list_lookup_2 in Hp. exact (H p Hp). }
  destruct Ho; (eapply H; [|reflexivity|reflexivity|reflexivity]); intros p Hp; cbn zeta; destruct (Hs p Hp) as [E1 E2]; unfold compose, normalised; repeat first [rewrite decide_True by lia|rewrite decide_False by lia];
    cbn [a11 a12 a13 a21 a22 a23 fst snd turns]; unfold turn; cbn [s_left s_top s_width s_height]; rewrite E1, E2; f_equal; field; lra.
Qed.
(** With another size the coordinates are those of the upright image resized to it *)
Theorem C94_resized coords width height orientation new_width new_height l : (0 < width)%Z -> (0 < height)%Z ->
  opensfm_to_upright coords width height orientation None None = Ok l ->
  exists l', opensfm_to_upright coords width height orientation (Some new_width) (Some new_height) = Ok l' /\ length l' = length coords /\ length l = length coords /\
  let size := if decide (orientation < 6)%Z then (IZR width, IZR height) else (IZR height, IZR width) in
  forall i p p', l !! i = Some p -> l' !! i = Some p' -> p'.1 * size.1 = p.1 * IZR new_width /\ p'.2 * size.2 = p.2 * IZR new_height.
Proof.
  intros Hw Hh. unfold opensfm_to_upright. repeat (destruct (decide (width = 0%Z \/ height = 0%Z)) as [?|_]; [lia|]). destruct (orientation_matrix orientation) as [r|e]; cbn [res_bind default from_option Datatypes.id]; [|done]. intros H.
  assert (forall (A : Type) (x y : A), Ok x = Ok y -> x = y) as Hinj by (intros A x y E; by injection E). apply Hinj in H as <-.
  eexists. split; [reflexivity|]. rewrite !fmap_length. split; [done|]. split; [done|]. cbn zeta. intros i p p' Hp Hp'. rewrite list_lookup_fmap in Hp, Hp'. destruct (coords !! i) as [c|]; [|done].
  cbn [fmap option_fmap option_map] in Hp, Hp'. apply (stdpp.base.inj Some) in Hp as <-, Hp' as <-. cbn [fst snd]. destruct (decide (orientation < 6)%Z); cbn [fst snd]; split; ring.
Qed.
(** Only the orientations 1, 3, 6 and 8 are known, a side of 0 is a division by zero *)
Theorem C94_errors coords width height orientation new_width new_height e : opensfm_to_upright coords width height orientation new_width new_height = Err e <->
  ((width = 0 \/ height = 0)%Z /\ e = ZeroDivisionError) \/ (~ (width = 0 \/ height = 0)%Z /\ (~ exists n, upright_turns orientation n) /\ e = KeyError).
Proof.
  unfold opensfm_to_upright. destruct (decide _) as [H|H]; [split; [intros [= <-]; by left|intros [[_ ->] | [? _]]; done]|].
  assert ((exists n, upright_turns orientation n) <-> orientation = 1%Z \/ orientation = 3%Z \/ orientation = 6%Z \/ orientation = 8%Z) as Ho.
  { split; [intros [n Hn]; inversion Hn; auto|]. intros [-> | [-> | [-> | -> ]]]; eexists; constructor. }
  assert ((exists r, orientation_matrix orientation = Ok r) /\ (exists n, upright_turns orientation n) \/ orientation_matrix orientation = Err KeyError /\ ~ exists n, upright_turns orientation n) as [[[r ->] Hn]|[-> Hn]].
  { unfold orientation_matrix. destruct (decide (orientation = 1%Z)); [left; split; [eauto|apply Ho; tauto]|]. destruct (decide (orientation = 3%Z)); [left; split; [eauto|apply Ho; tauto]|]. destruct (decide (orientation = 6%Z)); [left; split; [eauto|apply Ho; tauto]|].
    destruct (decide (orientation = 8%Z)); [left; split; [eauto|apply Ho; tauto]|]. right. split; [done|]. rewrite Ho. tauto. }
  - cbn [res_bind]. split; [done|]. tauto.
  - cbn [res_bind]. split; [intros [= <-]; tauto|]. intros [[? _] | (_ & _ & ->)]; [tauto|done].
Qed.
(** A place inside the image stays inside, and its distance from another place stays *)
Theorem C94_rigid n p q : s_width p = s_width q -> s_height p = s_height q ->
  (0 <= s_left p <= s_width p -> 0 <= s_top p <= s_height p -> 0 <= s_left (turns n p) <= s_width (turns n p) /\ 0 <= s_top (turns n p) <= s_height (turns n p)) /\
  (s_left (turns n p) - s_left (turns n q)) ^ 2 + (s_top (turns n p) - s_top (turns n q)) ^ 2 = (s_left p - s_left q) ^ 2 + (s_top p - s_top q) ^ 2.
Proof.
  intros Ew Eh. assert (s_width (turns n p) = s_width (turns n q) /\ s_height (turns n p) = s_height (turns n q)) as [_ _]. { induction n as [|n [IH1 IH2]]; cbn [turns turn s_width s_height]; unfold turn; cbn [s_width s_height]; done. }
  split.
  - intros Hl Ht. induction n as [|n [IH1 IH2]]; [done|]. cbn [turns]. unfold turn. cbn [s_left s_top s_width s_height]. lra.
  - assert (forall n, s_height (turns n p) = s_height (turns n q) /\ s_width (turns n p) = s_width (turns n q)) as Hs. { clear n. induction n as [|n [IH1 IH2]]; [done|]. cbn [turns]. unfold turn. cbn [s_width s_height]. done. }
    induction n as [|n IH]; [done|]. cbn [turns]. unfold turn. cbn [s_left s_top]. destruct (Hs n) as [-> _]. rewrite <- IH. ring.
Qed.
(** The orientation of a video turned by a multiple of 90 degrees is the one that makes it upright by these turns; other angles are a RuntimeError, a text that is
    not a number a ValueError *)
Theorem C94_video parse_float rotation :
  match video_orientation parse_float rotation with
  | Ok o => exists n, upright_turns o n /\ (rotation = ""%string /\ n = 0%nat \/ rotation <> ""%string /\ parse_float rotation = Some (90 * INR n))
  | Err e => rotation <> ""%string /\ (parse_float rotation = None /\ e = ValueError \/ (exists r, parse_float rotation = Some r /\ forall n, (n < 4)%nat -> r <> 90 * INR n) /\ e = RuntimeError)
  end.
Proof.
  unfold video_orientation. destruct (decide _) as [->|Hr]; [exists 0%nat; split; [constructor|by left]|]. destruct (parse_float rotation) as [r|]; cbn [of_option res_bind]; [|by split; [|left]].
  destruct (Req_EM_T r 0) as [->|H0]. { exists 0%nat. split; [constructor|]. right. split; [done|]. f_equal. cbn [INR]. lra. }
  destruct (Req_EM_T r 90) as [->|H1]. { exists 1%nat. split; [constructor|]. right. split; [done|]. f_equal. cbn [INR]. lra. }
  destruct (Req_EM_T r 180) as [->|H2]. { exists 2%nat. split; [constructor|]. right. split; [done|]. f_equal. cbn [INR]. lra. }
  destruct (Req_EM_T r 270) as [->|H3]. { exists 3%nat. split; [constructor|]. right. split; [done|]. f_equal. cbn [INR]. lra. }
  split; [done|]. right. split; [|done]. exists r. split; [done|]. intros [|[|[|[|n]]]] Hn; cbn [INR]; try lia; lra.
Qed.
Print Assumptions C94_upright.
Print Assumptions C94_resized.
Print Assumptions C94_errors.
Print Assumptions C94_rigid.
Print Assumptions C94_video.

(** * Non-vacuity: the upper left corner of an image of 320 x 240 with orientation 6 is the upper right one of the upright image *)
Example example_corner : opensfm_to_upright [(- / 2, - 3 / 8)] 320 240 6 None None = Ok [(240, 0)].
Proof.
  pose proof (C94_upright [Spot 320 240 0 0] 320 240 6 1) as H. cbn [fmap list_fmap turns turn s_left s_top] in H. unfold turn in H. cbn [s_left s_top s_height] in H. replace (240 - 0) with 240 in H by lra. rewrite <- H; [|lia|lia|constructor|].
  - do 2 f_equal. unfold normalised. cbn [s_left s_top s_width s_height]. rewrite Rmax_left by lra. f_equal; lra.
  - intros p ->%elem_of_list_singleton. done.
Qed.
Example example_video : video_orientation (fun s => if decide (s = "90"%string) then Some 90 else None) "90" = Ok 6%Z.
Proof. unfold video_orientation. rewrite decide_False by done. rewrite decide_True by done. cbn [of_option res_bind]. destruct (Req_EM_T 90 0); [lra|]. destruct (Req_EM_T 90 90); [done|lra]. Qed.
