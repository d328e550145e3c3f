(** C31, C43: PLY files. Specification in PlySpec.v. *)
From Coq Require Import Reals Lra Ascii.
From stdpp Require Import prelude strings pretty.
From Verif Require Import Base TextModel TextProofs PyText JsonModel Lin PoseModel PoseSpec PoseProofs PlyModel PlySpec GcpProofs.
Local Close Scope R_scope.

Lemma join_line ws : Forall word ws -> absent NL (join " " ws).
Proof.
  intros H. apply absent_join.
  - apply absent_cons. split; [done|apply absent_nil].
  - eapply Forall_impl; [exact H|]. intros w [_ Hw]. by apply word_absent.
Qed.
Ltac words := rewrite ?Forall_cons, ?Forall_nil; split_and!; try done; try apply word_pretty.

Section Vertices.
Context (fmt : R -> string) (Hfmt : forall x, word (fmt x)).
Definition vertex_words (p : vec) (c : Z * Z * Z) : list string := [fmt (vx p); fmt (vy p); fmt (vz p); pretty c.1.1; pretty c.1.2; pretty c.2].
Lemma vertex_join p c : vertex fmt p c = join " " (vertex_words p c).
Proof. reflexivity. Qed.
Lemma vertex_words_word p c : Forall word (vertex_words p c).
Proof. unfold vertex_words. words; apply Hfmt. Qed.
Lemma join_snoc sep l x : l <> [] -> join sep l +:+ (sep +:+ x) = join sep (l ++ [x]).
Proof.
  intros H. induction l as [|a l IH]; [done|]. destruct l as [|b l]; [done|]. cbn [app]. rewrite !join_cons, !str_app_assoc. do 2 f_equal. apply IH. done.
Qed.
Lemma point_vertex_words tracks pv p s : point_vertex fmt tracks pv p = Ok s ->
  absent NL s /\ exists views, py_words s = vertex_words (pp_xyz p) (pp_color p) ++ views /\
    match pv, tracks with
    | true, Some t => exists n, views = [pretty (Z.of_nat n)] /\ (if decide (pp_nobs p = 0%nat) then t (pp_id p) = Ok n else n = pp_nobs p)
    | _, _ => views = []
    end.
Proof.
  unfold point_vertex. rewrite vertex_join. pose proof (vertex_words_word (pp_xyz p) (pp_color p)) as HW.
  assert (forall v, Ok (join " " (vertex_words (pp_xyz p) (pp_color p))) = Ok v -> absent NL v /\ exists views, py_words v = vertex_words (pp_xyz p) (pp_color p) ++ views /\ views = []) as H0.
  { intros v Hv. assert (v = join " " (vertex_words (pp_xyz p) (pp_color p))) as -> by congruence. split; [by apply join_line|]. exists []. split; [|done]. rewrite app_nil_r. by apply py_words_join. }
  destruct pv; [|apply H0]. destruct tracks as [t|]; [|apply H0]. clear H0.
  destruct (if decide (pp_nobs p = 0%nat) then t (pp_id p) else Ok (pp_nobs p)) as [n|e] eqn:E; [|done]. cbn [res_bind]. intros Hs.
  rewrite join_snoc in Hs by done. assert (s = join " " (vertex_words (pp_xyz p) (pp_color p) ++ [pretty (Z.of_nat n)])) as -> by congruence. clear Hs. assert (Forall word (vertex_words (pp_xyz p) (pp_color p) ++ [pretty (Z.of_nat n)])) as HW2 by (apply Forall_app; split; [done|]; words).
  split; [by apply join_line|]. exists [pretty (Z.of_nat n)]. split; [by apply py_words_join|]. exists n. split; [done|]. destruct (decide (pp_nobs p = 0%nat)); congruence.
Qed.
Lemma shot_vertices_eq pv p : valid p -> exists ls, shot_vertices fmt pv p = ls /\
  Forall2 (fun a l => absent NL l /\ py_words l = camera_values fmt p a ++ (if pv then ["0"] else [])) camera_points ls.
Proof.
  intros Hv. eexists. split; [reflexivity|]. unfold shot_vertices, camera_points.
  assert (forall (l : list (vec * (Z * Z * Z))) (l' : list (vec * (Z * Z * Z))),
    Forall2 (fun a rc => a.2 = rc.2 /\ forall d, transform_inverse p (vscale d a.1) = vadd (get_origin p) (vscale d rc.1)) l l' ->
    Forall2 (fun a l => absent NL l /\ py_words l = camera_values fmt p a ++ (if pv then ["0"] else []))
      (concat (map (fun a : vec * (Z * Z * Z) => map (fun i => (vscale (2 * INR i / 9) a.1, a.2)) (seq 0 10)) l))
      (concat (map (fun rc : vec * (Z * Z * Z) => map (fun depth => vertex fmt (vadd (get_origin p) (vscale depth rc.1)) rc.2 +:+ (if pv then " 0" else "")) depths) l'))) as H.
  { induction 1 as [|a rc l l' [Ec Hd] _ IH]; [constructor|]. cbn [map concat]. apply Forall2_app; [|exact IH]. unfold depths. rewrite List.map_map. generalize (seq 0 10). intros is. clear IH.
    induction is as [|i is IH]; [constructor|]. cbn [map]. constructor; [|exact IH]. clear IH. unfold camera_values. cbn [fst snd]. rewrite Hd, Ec. set (x := vadd _ _).
    rewrite vertex_join. pose proof (vertex_words_word x rc.2) as HW. change [fmt (vx x); _; _; _; _; _] with (vertex_words x rc.2). destruct pv.
    - change " 0" with (" " +:+ "0"). rewrite join_snoc by done. assert (Forall word (vertex_words x rc.2 ++ ["0"])) as HW2 by (apply Forall_app; split; [done|]; words; repeat constructor; done).
      split; [by apply join_line|by apply py_words_join].
    - rewrite str_app_nil, app_nil_r. split; [by apply join_line|by apply py_words_join]. }
  apply H. clear H. cbn [rows axis_colors zip zip_with axes]. destruct Hv as (Hrot & Hc & _).
  assert (c_rot p = mT (w_rot p)) as E by done.
  repeat constructor; intros d; unfold transform_inverse, get_origin; rewrite E; destruct (w_rot p), (c_tr p); unfold mvec, mT, vadd, vscale; cbn; f_equal; ring.
Qed.
End Vertices.

Lemma shot_vertices_six (fmt : R -> string) (pv : bool) (p : pose) : (forall x, word (fmt x)) ->
  Forall (fun l => absent NL l /\ length (py_words l) = (6 + if pv then 1 else 0)%nat) (shot_vertices fmt pv p).
Proof.
  intros Hfmt. unfold shot_vertices. apply Forall_concat, Forall_fmap, Forall_forall. intros rc _. apply Forall_fmap, Forall_forall. intros d _. cbn. rewrite vertex_join. set (x := vadd _ _).
  pose proof (vertex_words_word fmt Hfmt x rc.2) as HW. destruct pv.
  - change " 0" with (" " +:+ "0"). rewrite join_snoc by done. assert (Forall word (vertex_words fmt x rc.2 ++ ["0"])) as HW2 by (apply Forall_app; split; [done|]; words; repeat constructor; done).
    split; [by apply join_line|]. by rewrite py_words_join.
  - rewrite str_app_nil. split; [by apply join_line|]. by rewrite py_words_join.
Qed.
Definition properties_of (pv : bool) : list string :=
  ["property float x"; "property float y"; "property float z"; "property uchar red"; "property uchar green"; "property uchar blue"] ++ (if pv then ["property uchar views"] else []).
Lemma header_eq n pv : ply_header n false pv = ["ply"; "format ascii 1.0"; "element vertex " +:+ pretty (Z.of_nat n)] ++ properties_of pv ++ ["end_header"].
Proof. by destruct pv. Qed.
Lemma absent_NL_element n : absent NL ("element vertex " +:+ pretty (Z.of_nat n)).
Proof.
  apply absent_app. split; [apply (bool_decide_unpack _); vm_compute; exact I|]. apply word_absent; [done|]. apply no_space_pretty.
Qed.
Lemma ply_lines vertices pv : Forall (absent NL) vertices ->
  getlines NL (points_to_ply_string vertices pv) = ["ply"; "format ascii 1.0"; "element vertex " +:+ pretty (Z.of_nat (length vertices))] ++ properties_of pv ++ ["end_header"] ++ vertices.
Proof.
  intros H. unfold points_to_ply_string. rewrite app_assoc, getlines_join.
  - rewrite header_eq. by rewrite <- !app_assoc.
  - apply Forall_app. split; [|done]. rewrite header_eq. cbn [app]. rewrite !Forall_cons. split; [apply (bool_decide_unpack _); vm_compute; exact I|]. split; [apply (bool_decide_unpack _); vm_compute; exact I|].
    split; [apply absent_NL_element|]. apply (bool_decide_unpack _). destruct pv; vm_compute; exact I.
Qed.
Lemma properties_words pv : Forall (fun l => exists type name, py_words l = ["property"; type; name]) (properties_of pv).
Proof. destruct pv; repeat constructor; eexists _, _; vm_compute; reflexivity. Qed.

(** C31. Whatever the flags, if numbers are written as words, the file is well formed, provided the number of views is only
    asked for together with the tracks (or without the points). *)
Theorem C31_well_formed_partial : forall fmt points shots tracks no_cameras no_points point_num_views text,
  (forall x, word (fmt x)) ->
  (point_num_views = true -> tracks = None -> no_points = true \/ points = []) ->
  reconstruction_to_ply fmt points shots tracks no_cameras no_points point_num_views = Ok text ->
  well_formed_ply text.
Proof.
  intros fmt points shots tracks nc np pv text Hfmt Hpv. unfold reconstruction_to_ply.
  destruct (if np then Ok [] else mapR (point_vertex fmt tracks pv) points) as [vs|e] eqn:E; [|done]. cbn [res_bind]. intros [= <-].
  set (cs := if nc then [] else _).
  assert (Forall (fun l => absent NL l /\ length (py_words l) = (6 + if pv then 1 else 0)%nat) (vs ++ cs)) as HF.
  { apply Forall_app. split.
    - destruct np; [injection E as <-; constructor|]. apply mapR_ok in E. apply Forall_forall. intros l Hl. apply elem_of_list_lookup in Hl as [i Hl].
      destruct (Forall2_lookup_r _ _ _ _ _ E Hl) as (p & Hp & Hs). destruct (point_vertex_words fmt Hfmt _ _ _ _ Hs) as (Ha & views & Hw & Hm). split; [done|]. rewrite Hw, app_length. change (length (vertex_words _ _ _)) with 6%nat. f_equal.
      destruct pv; [|by subst]. destruct tracks; [destruct Hm as (n & -> & _); done|]. exfalso. destruct (Hpv eq_refl eq_refl) as [?|H]; [done|]. subst points. done.
    - unfold cs. destruct nc; [constructor|]. apply Forall_concat, Forall_fmap, Forall_forall. intros p _. by apply shot_vertices_six. }
  exists (properties_of pv), (vs ++ cs). split; [apply ply_lines; eapply Forall_impl; [exact HF|]; by intros l [? ?]|]. split; [apply properties_words|].
  eapply Forall_impl; [exact HF|]. intros l [_ ->]. by destruct pv.
Qed.
(** Its vertices: the points in order, with the number of observations of the point (or of its track if the map has none),
    then 30 vertices for each camera: its three axes. *)
Theorem C31_vertices : forall fmt points shots tracks no_cameras no_points point_num_views text,
  (forall x, word (fmt x)) -> Forall valid shots ->
  reconstruction_to_ply fmt points shots tracks no_cameras no_points point_num_views = Ok text ->
  exists vs cs, body_of (getlines NL text) (vs ++ cs) /\
    (if no_points then vs = [] else Forall2 (fun p l => exists views, py_words l = point_values fmt p ++ views /\
       match point_num_views, tracks with
       | true, Some t => exists n, views = [pretty (Z.of_nat n)] /\ (if decide (pp_nobs p = 0%nat) then t (pp_id p) = Ok n else n = pp_nobs p)
       | _, _ => views = []
       end) points vs) /\
    (if no_cameras then cs = [] else Forall2 (fun pa l => py_words l = camera_values fmt pa.1 pa.2 ++ (if point_num_views then ["0"] else []))
       (concat (map (fun p => map (fun a => (p, a)) camera_points) shots)) cs).
Proof.
  intros fmt points shots tracks nc np pv text Hfmt Hval. unfold reconstruction_to_ply.
  destruct (if np then Ok [] else mapR (point_vertex fmt tracks pv) points) as [vs|e] eqn:E; [|done]. cbn [res_bind]. intros [= <-].
  set (cs := if nc then [] else _).
  assert (if np then vs = [] else Forall2 (fun p l => absent NL l /\ exists views, py_words l = point_values fmt p ++ views /\
       match pv, tracks with
       | true, Some t => exists n, views = [pretty (Z.of_nat n)] /\ (if decide (pp_nobs p = 0%nat) then t (pp_id p) = Ok n else n = pp_nobs p)
       | _, _ => views = []
       end) points vs) as H1.
  { destruct np; [congruence|]. apply mapR_ok in E. eapply Forall2_impl; [exact E|]. intros p l Hl. by apply point_vertex_words. }
  assert (if nc then cs = [] else Forall2 (fun pa l => absent NL l /\ py_words l = camera_values fmt pa.1 pa.2 ++ (if pv then ["0"] else []))
       (concat (map (fun p => map (fun a => (p, a)) camera_points) shots)) cs) as H2.
  { unfold cs. destruct nc; [done|]. clear -Hval Hfmt. induction Hval as [|p shots Hp _ IH]; [constructor|]. cbn [map concat]. apply Forall2_app; [|exact IH]. apply Forall2_fmap_l. cbn.
    destruct (shot_vertices_eq fmt Hfmt pv p Hp) as (ls & <- & H). exact H. }
  exists vs, cs. split; [|split].
  - rewrite ply_lines.
    + generalize (vs ++ cs). intros b. repeat (constructor; [done|]). destruct pv; cbn [properties_of app]; repeat first [apply BodyHere|constructor; [done|]].
    + apply Forall_app. split.
      * destruct np; [subst vs; constructor|]. apply Forall_forall. intros l Hl. apply elem_of_list_lookup in Hl as [i Hl]. destruct (Forall2_lookup_r _ _ _ _ _ H1 Hl) as (p & Hp & Hs & _). done.
      * destruct nc; [rewrite H2; constructor|]. apply Forall_forall. intros l Hl. apply elem_of_list_lookup in Hl as [i Hl]. destruct (Forall2_lookup_r _ _ _ _ _ H2 Hl) as (p & Hp & Hs & _). done.
  - destruct np; [done|]. eapply Forall2_impl; [exact H1|]. by intros p l [? ?].
  - destruct nc; [done|]. eapply Forall2_impl; [exact H2|]. by intros p l [? ?].
Qed.
(** Asking for the number of views without the tracks announces a property that the points do not have. *)
Theorem C31_views_without_tracks_refuted : forall fmt p, (forall x, word (fmt x)) -> exists text,
  reconstruction_to_ply fmt [p] [] None true false true = Ok text /\ ~ well_formed_ply text.
Proof.
  intros fmt p Hfmt. eexists. split; [reflexivity|]. intros (props & body & E & _ & HF).
  change (vertex fmt (pp_xyz p) (pp_color p)) with (join " " (vertex_words fmt (pp_xyz p) (pp_color p))) in E.
  pose proof (vertex_words_word fmt Hfmt (pp_xyz p) (pp_color p)) as HW.
  change (getlines NL (points_to_ply_string ([join " " (vertex_words fmt (pp_xyz p) (pp_color p))] ++ []) true) = ["ply"; "format ascii 1.0"; "element vertex " +:+ pretty (Z.of_nat (length body))] ++ props ++ ["end_header"] ++ body) in E.
  rewrite ply_lines in E by (rewrite app_nil_r; apply Forall_singleton; by apply join_line).
  assert (length body = 1%nat) as EL.
  { apply (f_equal (fun l => match l with _ :: _ :: s :: _ => match substr_from (String.length "element vertex ") s with Ok r => atoi r | Err _ => 0%Z end | _ => 0%Z end)) in E.
    cbn [app length] in E. cbv beta iota in E. rewrite !substr_from_app, !atoi_pretty in E. lia. }
  destruct body as [|b [|? ?]]; try done.
  apply (f_equal reverse) in E. cbn [app] in E. rewrite !reverse_cons, !reverse_app, !reverse_cons, reverse_nil in E. cbn in E.
  pose proof (f_equal (fun l => match l with x :: _ => x | [] => "" end) E) as Eb. cbv beta iota in Eb. apply (proj1 (Forall_singleton _ _)) in HF. rewrite <- Eb in HF.
  change (length (py_words (join " " (vertex_words fmt (pp_xyz p) (pp_color p)))) = length props) in HF. rewrite py_words_join in HF by done. apply (f_equal length) in E. cbn [length] in E. rewrite !app_length, reverse_length in E. cbn in E, HF. lia.
Qed.

(** C43. A point cloud that is written and read again has the same points, in the same order, with colours and labels
    unchanged and coordinates rounded as they are printed. *)
Theorem C43_point_cloud_round_trip : forall fmt4 fmt3 parse_float parse_uint8 round4 round3 cloud,
  (forall x, word (fmt4 x) /\ parse_float (fmt4 x) = Ok (round4 x)) -> (forall x, word (fmt3 x) /\ parse_float (fmt3 x) = Ok (round3 x)) ->
  (forall z, (0 <= z < 256)%Z -> parse_uint8 (pretty z) = Ok z) ->
  Forall (fun r => Forall (fun z => 0 <= z < 256)%Z [(cr_color r).1.1; (cr_color r).1.2; (cr_color r).2; cr_label r]) cloud ->
  point_cloud_from_ply parse_float parse_uint8 (point_cloud_to_ply fmt4 fmt3 cloud) =
    Ok (map (fun r => let p := cr_xyz r in let n := cr_normal r in
      CloudRow (Vec (round4 (vx p)) (round4 (vy p)) (round4 (vz p))) (Vec (round3 (vx n)) (round3 (vy n)) (round3 (vz n))) (cr_color r) (cr_label r)) cloud).
Proof.
  intros fmt4 fmt3 pf pi r4 r3 cloud H4 H3 Hi Hc. unfold point_cloud_from_ply, point_cloud_to_ply.
  assert (forall l, Forall (absent NL) l -> getlines NL (write_lines l) = l) as HG. { induction 1 as [|x l Hx _ IH]; [done|]. cbn [write_lines]. rewrite getlines_cons by done. by rewrite IH. }
  set (ws := fun r => [fmt4 (vx (cr_xyz r)); fmt4 (vy (cr_xyz r)); fmt4 (vz (cr_xyz r)); fmt3 (vx (cr_normal r)); fmt3 (vy (cr_normal r)); fmt3 (vz (cr_normal r));
    pretty (cr_color r).1.1; pretty (cr_color r).1.2; pretty (cr_color r).2; pretty (cr_label r)]).
  assert (forall r, Forall word (ws r)) as HW. { intros r. unfold ws. words; first [apply H4|apply H3]. }
  assert (forall r, cloud_line fmt4 fmt3 r = join " " (ws r)) as HL by done.
  rewrite HG.
  - cbn [app after_header]. repeat (rewrite decide_False; [|done]).
    rewrite decide_True by done. cbn [res_bind].
    induction Hc as [|r cloud Hr Hc IH]; [done|]. cbn [map mapR]. unfold cloud_row_of at 1. rewrite HL, py_words_join by apply HW. unfold ws at 1. cbn [lookup list_lookup of_option res_bind].
    rewrite !Forall_cons in Hr. destruct Hr as (R1 & R2 & R3 & R4 & _). unfold ws at 1. rewrite !Hi by done. cbn [res_bind]. rewrite !(proj2 (H4 _)), !(proj2 (H3 _)). cbn [res_bind].
    fold (mapR (cloud_row_of pf pi)). rewrite IH. cbn [res_bind]. destruct r as [? ? [[? ?] ?] ?]. done.
  - cbn [app]. rewrite !Forall_cons. split_and!; try (apply (bool_decide_unpack _); vm_compute; exact I); [apply absent_NL_element|]. apply Forall_fmap, Forall_forall. intros r _. cbn. rewrite HL. by apply join_line.
Qed.
(** And it is well formed. *)
Theorem C43_point_cloud_well_formed : forall fmt4 fmt3 cloud, (forall x, word (fmt4 x)) -> (forall x, word (fmt3 x)) ->
  well_formed_ply (point_cloud_to_ply fmt4 fmt3 cloud).
Proof.
  intros fmt4 fmt3 cloud H4 H3. unfold point_cloud_to_ply.
  assert (forall l, Forall (absent NL) l -> getlines NL (write_lines l) = l) as HG. { induction 1 as [|x l Hx _ IH]; [done|]. cbn [write_lines]. rewrite getlines_cons by done. by rewrite IH. }
  assert (forall r, absent NL (cloud_line fmt4 fmt3 r) /\ length (py_words (cloud_line fmt4 fmt3 r)) = 10%nat) as HL.
  { intros r. assert (cloud_line fmt4 fmt3 r = join " " [fmt4 (vx (cr_xyz r)); fmt4 (vy (cr_xyz r)); fmt4 (vz (cr_xyz r)); fmt3 (vx (cr_normal r)); fmt3 (vy (cr_normal r)); fmt3 (vz (cr_normal r));
      pretty (cr_color r).1.1; pretty (cr_color r).1.2; pretty (cr_color r).2; pretty (cr_label r)]) as -> by done. set (ws := [_; _; _; _; _; _; _; _; _; _]).
    assert (Forall word ws) as HW by (unfold ws; words; first [apply H4|apply H3]). split; [by apply join_line|by rewrite py_words_join]. }
  eexists ["property float x"; "property float y"; "property float z"; "property float nx"; "property float ny"; "property float nz"; "property uchar red"; "property uchar green"; "property uchar blue"; "property uchar class"], (map (cloud_line fmt4 fmt3) cloud).
  split; [|split].
  - rewrite HG; [by rewrite map_length|]. cbn [app]. rewrite !Forall_cons. split_and!; try (apply (bool_decide_unpack _); vm_compute; exact I); [apply absent_NL_element|]. apply Forall_fmap, Forall_forall. intros r _. apply HL.
  - repeat constructor; eexists _, _; vm_compute; reflexivity.
  - apply Forall_fmap, Forall_forall. intros r _. apply HL.
Qed.
(** A file without header, or a row of fewer than 10 values (as those of reconstruction_to_ply), is an exception. *)
Theorem C43_bad_file : forall parse_float parse_uint8 text,
  ("end_header" ∉ getlines NL text -> point_cloud_from_ply parse_float parse_uint8 text = Err ValueError) /\
  (forall body l, body_of (getlines NL text) body -> l ∈ body -> (length (py_words l) < 10)%nat -> exists e, point_cloud_from_ply parse_float parse_uint8 text = Err e).
Proof.
  intros pf pi text. unfold point_cloud_from_ply. generalize (getlines NL text). intros ls. split.
  - intros H. assert (after_header ls = Err ValueError) as ->; [|done]. induction ls as [|x ls IH]; [done|]. cbn. rewrite not_elem_of_cons in H. rewrite decide_False by naive_solver. apply IH, H.
  - intros body l HB Hl Hlen. assert (after_header ls = Ok body) as ->. { clear -HB. induction HB as [l|x l b Hx _ IH]; cbn; [by rewrite decide_True|by rewrite decide_False]. }
    cbn [res_bind]. clear HB. induction body as [|x body IH]; [by apply elem_of_nil in Hl|]. cbn. fold (mapR (cloud_row_of pf pi)). apply elem_of_cons in Hl as [<- |Hl].
    + unfold cloud_row_of at 1. rewrite (lookup_ge_None_2 (py_words l) 9) by lia. by eexists.
    + destruct (cloud_row_of pf pi x) as [r|e]; [|by eexists]. cbn [res_bind]. destruct (IH Hl) as [e ->]. by eexists.
Qed.

Example C31_example : exists fmt, (forall x, word (fmt x)) /\ valid pose0 /\
  exists text, reconstruction_to_ply fmt [PlyPoint "1" v0 (1, 2, 3)%Z 0; PlyPoint "2" v0 (255, 0, 0)%Z 4] [pose0] (Some (fun _ => Ok 2%nat)) false false true = Ok text.
Proof.
  exists (fun _ => "0.0"). split; [intros _; split; [done|repeat constructor]|]. split; [exact valid_pose0|by eexists].
Qed.

Print Assumptions C31_well_formed_partial.
Print Assumptions C31_vertices.
Print Assumptions C31_views_without_tracks_refuted.
Print Assumptions C43_point_cloud_round_trip.
Print Assumptions C43_point_cloud_well_formed.
Print Assumptions C43_bad_file.
