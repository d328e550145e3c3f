(** The metadata of the images on files: what a run writes, kills and repetitions (C57). *)
From stdpp Require Import prelude gmap strings.
From Coq Require Import Lia Ascii.
From Verif Require Import Base TextProofs FilesModel FilesSpec FilesProofs.

Section C57.
Context {Meta Camera Overrides : Type}.
Variable parse_meta : string -> option Meta.
Variable print_meta : Meta -> string.
Variable extract : string -> Meta.
Variable camera_id : Meta -> string.
Variable camera_of : Meta -> Camera.
Variable parse_overrides : string -> option Overrides.
Variable override : Overrides -> string -> Meta -> Meta.
Variable parse_cameras : string -> option (gmap string Camera).
Variable with_id : string -> Camera -> Camera.
Variable print_cameras : gmap string Camera -> string.
Notation metadata_of := (metadata_of parse_meta print_meta extract override).
Notation metadata_loop := (metadata_loop parse_meta print_meta extract camera_id camera_of override).
Notation extract_metadata := (extract_metadata parse_meta print_meta extract camera_id camera_of parse_overrides override parse_cameras with_id print_cameras).
Notation fresh := (fresh extract override).
Notation meta := (meta parse_meta extract override).
Notation final_camera := (final_camera camera_id camera_of with_id).
Notation first_camera := (first_camera camera_id camera_of).

Lemma exif_inj i j : exif_file i = exif_file j -> i = j.
Proof. unfold exif_file. intros H. cbn in H. injection H. apply suffix_inj. Qed.
Lemma exif_neq i : exif_file i <> exif_overrides_file /\ exif_file i <> camera_models_file /\ exif_file i <> camera_overrides_file.
Proof. done. Qed.
Definition known (cams : gmap string Camera) (d : Meta) : gmap string Camera :=
  match cams !! camera_id d with None => <[camera_id d := camera_of d]> cams | Some _ => cams end.
(** the files after the loop, when nothing raises *)
Definition exifs (o : option Overrides) (images : list string) (m : fs) : fs :=
  foldl (fun m i => match m !! exif_file i with Some _ => m | None => <[exif_file i := print_meta (fresh o i)]> m end) m images.
Lemma exifs_lookup o images m p : exifs o images m !! p =
  match m !! p with Some s => Some s | None => match list_find (fun i => p = exif_file i) images with Some (_, i) => Some (print_meta (fresh o i)) | None => None end end.
Proof.
  revert m. induction images as [|i images IH]; intros m; cbn; [by destruct (m !! p)|]. unfold exifs in IH. rewrite IH. destruct (decide (p = exif_file i)) as [->|Hne].
  - destruct (m !! exif_file i) as [s|] eqn:E; [by rewrite E|]. by rewrite lookup_insert.
  - destruct (m !! exif_file i) as [s|] eqn:E; [|rewrite lookup_insert_ne by done]; destruct (m !! p); try done; by destruct (list_find _ images) as [[]|].
Qed.
Hypothesis round : forall d, parse_meta (print_meta d) = Some d.
Lemma of_exec {A} o i (k : Meta -> prog A) m : exec (metadata_of o i k) m =
  match meta o m i with None => (m, Err ValueError) | Some d => exec (k d) (exifs o [i] m) end.
Proof.
  cbn. unfold FilesSpec.meta. destruct (m !! exif_file i) as [s|] eqn:E.
  - rewrite bool_decide_eq_true_2 by eauto. cbn. rewrite E. by destruct (parse_meta s).
  - rewrite bool_decide_eq_false_2 by (by intros []). done.
Qed.
Lemma exifs_cons o i images m : exifs o (i :: images) m = exifs o images (exifs o [i] m). Proof. done. Qed.
Lemma meta_exifs o m i j : meta o (exifs o [i] m) j = meta o m j.
Proof.
  unfold FilesSpec.meta. rewrite exifs_lookup. destruct (m !! exif_file j) as [s|] eqn:E; [done|]. cbn. destruct (decide (exif_file j = exif_file i)) as [->%exif_inj|]; [|done]. by rewrite round.
Qed.
Lemma loop_exec {A} o images cams (k : gmap string Camera -> prog A) m ds : Forall2 (fun i d => meta o m i = Some d) images ds ->
  exec (metadata_loop o images cams k) m = exec (k (foldl known cams ds)) (exifs o images m).
Proof.
  revert cams m ds. induction images as [|i images IH]; intros cams m ds H; inversion H as [|i' d images' ds' H1 H2]; subst; [done|].
  cbn [FilesModel.metadata_loop]. rewrite of_exec, H1, (exifs_cons o i images). cbn [foldl]. apply IH. eapply Forall2_impl; [done|]. intros j e. cbv beta.
  by rewrite meta_exifs.
Qed.
Lemma loop_raises {A} o images cams (k : gmap string Camera -> prog A) m i : i ∈ images -> meta o m i = None -> (exec (metadata_loop o images cams k) m).2 = Err ValueError.
Proof.
  intros Hi Hm. revert cams m Hm. induction Hi as [i images|i j images Hi IH]; intros cams m Hm; cbn [FilesModel.metadata_loop]; rewrite of_exec; [by rewrite Hm|].
  destruct (meta o m j) as [d|]; [|done]. apply IH. by rewrite meta_exifs.
Qed.
Lemma known_first ds cams c : foldl known cams ds !! c = match cams !! c with Some x => Some x | None => first_camera ds c end.
Proof.
  revert cams. induction ds as [|d ds IH]; intros cams; cbn [foldl].
  - unfold FilesSpec.first_camera. cbn. by destruct (cams !! c).
  - rewrite IH. unfold known, FilesSpec.first_camera. destruct (cams !! camera_id d) as [x|] eqn:E.
    + destruct (cams !! c) eqn:Ec; [done|]. rewrite filter_cons_False; [done|]. intros Hc. congruence.
    + destruct (decide (camera_id d = c)) as [<-|Hne]; [rewrite lookup_insert, E, filter_cons_True by done; done|]. rewrite lookup_insert_ne, filter_cons_False by done. done.
Qed.
(** The last part of the stage *)
Lemma final_known ds (oc : option (gmap string Camera)) c :
  (match oc with Some o => override_cameras with_id o (foldl known ∅ ds) | None => foldl known ∅ ds end) !! c = final_camera oc ds c.
Proof.
  assert (forall c, foldl known ∅ ds !! c = first_camera ds c) as H by (intros c'; by rewrite known_first, lookup_empty).
  destruct oc as [o|]; cbn; [|apply H]. unfold override_cameras. destruct (o !! "all"%string) as [x|].
  - rewrite map_lookup_imap, H. by destruct (first_camera ds c).
  - rewrite lookup_union, H. destruct (o !! c), (first_camera ds c); done.
Qed.

Definition tail (cams : gmap string Camera) : prog unit :=
  IsFile camera_overrides_file (fun b =>
    if b then load parse_cameras camera_overrides_file (fun o => Save camera_models_file (print_cameras (override_cameras with_id o cams)) (Ret tt))
    else Save camera_models_file (print_cameras cams) (Ret tt)).
Lemma tail_exec cams m : exec (tail cams) m =
  match optional parse_cameras m camera_overrides_file with
  | None => (m, Err ValueError)
  | Some oc => (<[camera_models_file := print_cameras (match oc with Some o => override_cameras with_id o cams | None => cams end)]> m, Ok tt)
  end.
Proof.
  cbn. unfold optional. destruct (m !! camera_overrides_file) as [s|] eqn:E.
  - rewrite bool_decide_eq_true_2 by eauto. cbn. rewrite E. by destruct (parse_cameras s).
  - by rewrite bool_decide_eq_false_2 by (by intros []).
Qed.
Lemma stage_exec images m : exec (extract_metadata images) m =
  match optional parse_overrides m exif_overrides_file with None => (m, Err ValueError) | Some o => exec (metadata_loop o images ∅ tail) m end.
Proof.
  cbn. unfold optional. destruct (m !! exif_overrides_file) as [s|] eqn:E.
  - rewrite bool_decide_eq_true_2 by eauto. cbn. rewrite E. by destruct (parse_overrides s).
  - by rewrite bool_decide_eq_false_2 by (by intros []).
Qed.
Lemma metas_dec o m images : (exists ds, Forall2 (fun i d => meta o m i = Some d) images ds) \/ exists i, i ∈ images /\ meta o m i = None.
Proof.
  induction images as [|i images IH]; [left; exists []; constructor|]. destruct (meta o m i) as [d|] eqn:E; [|right; exists i; split; [by left|done]].
  destruct IH as [[ds H]|(j & H1 & H2)]; [left; exists (d :: ds); by constructor|right; exists j; split; [by right|done]].
Qed.
Lemma exifs_other o images m p : (forall i, i ∈ images -> p <> exif_file i) -> exifs o images m !! p = m !! p.
Proof.
  intros H. rewrite exifs_lookup. destruct (m !! p); [done|]. destruct (list_find _ images) as [[j i]|] eqn:E; [|done]. apply list_find_Some in E as (E1 & E2 & _).
  destruct (H i); [by eapply elem_of_list_lookup_2|done].
Qed.
Lemma exifs_exif o images m i : i ∈ images -> exifs o images m !! exif_file i = match m !! exif_file i with Some s => Some s | None => Some (print_meta (fresh o i)) end.
Proof.
  intros Hi. rewrite exifs_lookup. destruct (m !! exif_file i); [done|]. destruct (list_find _ images) as [[j k]|] eqn:E.
  - apply list_find_Some in E as (E1 & E2 & _). apply exif_inj in E2. by subst.
  - apply list_find_None in E. rewrite Forall_forall in E. by destruct (E i Hi).
Qed.
Lemma optional_exifs {X} (parse : string -> option X) o images m p : (forall i, p <> exif_file i) -> optional parse (exifs o images m) p = optional parse m p.
Proof. intros H. unfold optional. by rewrite exifs_other by auto. Qed.

(** A run that ends well: each image keeps the metadata it had or gets those of its file, with the overrides; the camera models are
    those of the first images that name them, with the overrides; nothing else changes *)
Theorem C57_result images m m' : runs (extract_metadata images) m (Ok tt) m' ->
  exists o oc ds cams,
    optional parse_overrides m exif_overrides_file = Some o /\ optional parse_cameras m camera_overrides_file = Some oc /\
    Forall2 (fun i d => meta o m i = Some d) images ds /\
    (forall i, i ∈ images -> m' !! exif_file i = match m !! exif_file i with Some s => Some s | None => Some (print_meta (fresh o i)) end) /\
    m' !! camera_models_file = Some (print_cameras cams) /\ (forall c, cams !! c = final_camera oc ds c) /\
    (forall p, p <> camera_models_file -> (forall i, i ∈ images -> p <> exif_file i) -> m' !! p = m !! p).
Proof.
  rewrite runs_exec, stage_exec. destruct (optional parse_overrides m exif_overrides_file) as [o|]; [|done]. destruct (metas_dec o m images) as [[ds Hds]|(i & Hi & Hm)].
  2: { intros H. pose proof (loop_raises o images ∅ tail m i Hi Hm) as E. by rewrite H in E. }
  rewrite (loop_exec _ _ _ _ _ ds Hds), tail_exec, optional_exifs by done. destruct (optional parse_cameras m camera_overrides_file) as [oc|]; [|done]. intros [= <-].
  exists o, oc, ds, (match oc with Some o' => override_cameras with_id o' (foldl known ∅ ds) | None => foldl known ∅ ds end).
  split_and!; [done|done|done| |by rewrite lookup_insert|apply final_known|].
  - intros i Hi. rewrite lookup_insert_ne by done. by apply exifs_exif.
  - intros p Hp Hi. rewrite lookup_insert_ne by done. by apply exifs_other.
Qed.
(** It ends well when every file it has to read parses *)
Theorem C57_total images m : (exists m', runs (extract_metadata images) m (Ok tt) m') <->
  is_Some (optional parse_overrides m exif_overrides_file) /\ is_Some (optional parse_cameras m camera_overrides_file) /\
  forall i s, i ∈ images -> m !! exif_file i = Some s -> is_Some (parse_meta s).
Proof.
  split.
  - intros (m' & H). destruct (C57_result _ _ _ H) as (o & oc & ds & _ & H1 & H2 & H3 & _). split; [eauto|]. split; [eauto|]. intros i s Hi Hs.
    apply elem_of_list_lookup in Hi as [n Hn]. destruct (Forall2_lookup_l _ _ _ _ _ H3 Hn) as (d & _ & Hd). cbv beta in Hd. unfold FilesSpec.meta in Hd. rewrite Hs in Hd. eauto.
  - intros ([o Ho] & [oc Hoc] & H). destruct (metas_dec o m images) as [[ds Hds]|(i & Hi & Hm)].
    + eexists. rewrite runs_exec, stage_exec, Ho, (loop_exec _ _ _ _ _ ds Hds), tail_exec, optional_exifs, Hoc by done. done.
    + exfalso. unfold FilesSpec.meta in Hm. destruct (m !! exif_file i) as [s|] eqn:E; [|done]. destruct (H i s Hi E) as [d Hd]. congruence.
Qed.
Lemma runs_reach {A} (x : prog A) m r m' : runs x m r m' -> reach x m m'.
Proof. intros (y & H & _). apply killed_reach. by exists y. Qed.
Lemma tail_reach cams m n : reach (tail cams) m n -> n = m \/ exists s oc, optional parse_cameras m camera_overrides_file = Some oc /\ n = <[camera_models_file := s]> m.
Proof.
  unfold tail, optional. cbn [reach]. intros [->|H]; [by left|]. destruct (m !! camera_overrides_file) as [s|] eqn:E.
  - rewrite bool_decide_eq_true_2 in H by eauto. cbn in H. rewrite E in H. destruct H as [->|H]; [by left|]. destruct (parse_cameras s); [|cbn in H; left; by destruct H].
    cbn in H. destruct H as [->|[(s' & _ & ->)|[->|[]]]]; [by left|right; eauto|right; eauto].
  - rewrite bool_decide_eq_false_2 in H by (by intros []). cbn in H. destruct H as [->|[(s' & _ & ->)|[->|[]]]]; [by left|right; eauto|right; eauto].
Qed.
(** the states in the loop *)
Lemma of_reach {A} o i (k : Meta -> prog A) m n : reach (metadata_of o i k) m n ->
  n = m \/ (m !! exif_file i = None /\ exists s, n = <[exif_file i := s]> m) \/ exists d, meta o m i = Some d /\ reach (k d) (exifs o [i] m) n.
Proof.
  cbn. unfold FilesSpec.meta. intros [->|H]; [by left|]. destruct (m !! exif_file i) as [s|] eqn:E.
  - rewrite bool_decide_eq_true_2 in H by eauto. cbn in H. destruct H as [->|H]; [by left|]. rewrite E in H. destruct (parse_meta s) as [d|]; [right; right; eauto|]. cbn in H. destruct H as [->|[]]. by left.
  - rewrite bool_decide_eq_false_2 in H by (by intros []). cbn in H. destruct H as [->|[(s & _ & ->)|H]]; [by left|right; left; eauto|right; right; eauto].
Qed.
Lemma exifs_kept o images m p : is_Some (m !! p) -> exifs o images m !! p = m !! p.
Proof. intros [s Hs]. by rewrite exifs_lookup, Hs. Qed.
Lemma loop_kept o images cams m n i : reach (metadata_loop o images cams tail) m n -> is_Some (m !! exif_file i) -> n !! exif_file i = m !! exif_file i.
Proof.
  revert cams m. induction images as [|j images IH]; intros cams m Hr Hi; cbn [FilesModel.metadata_loop] in Hr.
  - apply tail_reach in Hr as [->|(s & oc & _ & ->)]; [done|]. by rewrite lookup_insert_ne.
  - apply of_reach in Hr as [->|[(E & s & ->)|(d & _ & Hr)]]; [done| |].
    + destruct (decide (i = j)) as [->|Hne]; [rewrite E in Hi; by destruct Hi|]. rewrite lookup_insert_ne; [done|]. by intros ->%exif_inj.
    + apply IH in Hr; [|by rewrite exifs_kept]. by rewrite Hr, exifs_kept.
Qed.
Lemma loop_other o images cams m n p : reach (metadata_loop o images cams tail) m n -> p <> camera_models_file -> (forall i, i ∈ images -> p <> exif_file i) -> n !! p = m !! p.
Proof.
  revert cams m. induction images as [|j images IH]; intros cams m Hr Hp Hi; cbn [FilesModel.metadata_loop] in Hr.
  - apply tail_reach in Hr as [->|(s & oc & _ & ->)]; [done|]. by rewrite lookup_insert_ne.
  - assert (p <> exif_file j) by (apply Hi; by left). apply of_reach in Hr as [->|[(E & s & ->)|(d & _ & Hr)]]; [done|by rewrite lookup_insert_ne|].
    apply IH in Hr; [|done|intros i H'; apply Hi; by right]. rewrite Hr. apply exifs_other. intros i ->%elem_of_list_singleton. done.
Qed.
Lemma stage_reach images m n : reach (extract_metadata images) m n -> n = m \/ exists o, optional parse_overrides m exif_overrides_file = Some o /\ reach (metadata_loop o images ∅ tail) m n.
Proof.
  unfold FilesModel.extract_metadata, optional. cbn [reach]. intros [->|H]; [by left|]. destruct (m !! exif_overrides_file) as [s|] eqn:E.
  - rewrite bool_decide_eq_true_2 in H by eauto. unfold load in H. cbn [reach] in H. rewrite E in H. destruct H as [->|H]; [by left|]. destruct (parse_overrides s) as [o|]; [right; eauto|cbn in H; left; by destruct H].
  - rewrite bool_decide_eq_false_2 in H by (by intros []). right. eauto.
Qed.
(** Metadata that do not parse, such as those of a run killed while it wrote them, make every later run fail, and stay *)
Theorem C57_torn_stays images m r m' i s : i ∈ images -> m !! exif_file i = Some s -> parse_meta s = None ->
  runs (extract_metadata images) m r m' -> r = Err ValueError /\ m' !! exif_file i = Some s.
Proof.
  intros Hi Hs Hp Hr. split.
  - rewrite runs_exec, stage_exec in Hr. destruct (optional _ _ _) as [o|]; [|congruence]. pose proof (loop_raises o images ∅ tail m i Hi) as E. rewrite Hr in E. apply E. unfold FilesSpec.meta. by rewrite Hs.
  - apply runs_reach, stage_reach in Hr as [->|(o & _ & Hr)]; [done|]. rewrite (loop_kept _ _ _ _ _ i Hr); [done|eauto].
Qed.
Lemma loop_again o images cams m n : reach (metadata_loop o images cams tail) m n -> (forall i, i ∈ images -> untorn m n (exif_file i) (print_meta (fresh o i))) ->
  exec (metadata_loop o images cams tail) n = exec (metadata_loop o images cams tail) m.
Proof.
  revert cams m. induction images as [|i images IH]; intros cams m Hr Hu; cbn [FilesModel.metadata_loop] in *.
  - apply tail_reach in Hr as [->|(s & oc & Hoc & ->)]; [done|]. rewrite !tail_exec. assert (optional parse_cameras (<[camera_models_file:=s]> m) camera_overrides_file = Some oc) as -> by (unfold optional; by rewrite lookup_insert_ne).
    rewrite Hoc. by rewrite insert_insert.
  - apply of_reach in Hr as [->|[(E & s & ->)|(d & Hd & Hr)]]; [done| |].
    + destruct (Hu i ltac:(by left)) as [U|U]; rewrite lookup_insert in U; [congruence|]. injection U as ->. rewrite !of_exec.
      assert (<[exif_file i:=print_meta (fresh o i)]> m = exifs o [i] m) as -> by (cbn; by rewrite E). rewrite meta_exifs. destruct (meta o m i) as [d|] eqn:Ed.
      * replace (exifs o [i] (exifs o [i] m)) with (exifs o [i] m); [done|]. cbn. rewrite E. by rewrite lookup_insert.
      * unfold FilesSpec.meta in Ed. by rewrite E in Ed.
    + assert (n !! exif_file i = exifs o [i] m !! exif_file i) as Hn. { eapply loop_kept; [done|]. rewrite exifs_exif by (by left). destruct (m !! exif_file i); eauto. }
      rewrite !of_exec, Hd. assert (meta o n i = Some d) as ->. { unfold FilesSpec.meta. rewrite Hn. rewrite <- (meta_exifs o m i i) in Hd. exact Hd. }
      assert (exifs o [i] n = n) as ->. { cbn. rewrite Hn, exifs_exif by (by left). by destruct (m !! exif_file i). }
      apply IH; [done|]. intros j Hj. destruct (Hu j ltac:(by right)) as [U|U]; [|by right]. destruct (decide (j = i)) as [->|Hne]; [by left|]. left. rewrite U. symmetry. apply exifs_other. intros k ->%elem_of_list_singleton. by intros ->%exif_inj.
Qed.
(** Run again after a kill that tore no metadata: the outcome and all the files are those of a run that was not killed *)
Theorem C57_rerun images m m1 r m2 r' m2' o : killed (extract_metadata images) m m1 -> optional parse_overrides m exif_overrides_file = Some o ->
  (forall i, i ∈ images -> untorn m m1 (exif_file i) (print_meta (fresh o i))) ->
  runs (extract_metadata images) m1 r m2 -> runs (extract_metadata images) m r' m2' -> r = r' /\ m2 = m2'.
Proof.
  intros Hk Ho Hu. rewrite !runs_exec, !stage_exec. apply killed_reach, stage_reach in Hk as [->|(o' & Ho' & Hr)]; [rewrite Ho; intros -> [= <- <-]; done|]. assert (o' = o) as -> by congruence.
  assert (optional parse_overrides m1 exif_overrides_file = Some o) as ->. { rewrite <- Ho. unfold optional. erewrite loop_other; [done|exact Hr|done|done]. }
  rewrite Ho, (loop_again _ _ _ _ _ Hr Hu). intros -> [= <- <-]. done.
Qed.
(** Run again after a run that ended well: nothing changes *)
Theorem C57_repeat images m m1 r m2 : runs (extract_metadata images) m (Ok tt) m1 -> runs (extract_metadata images) m1 r m2 -> r = Ok tt /\ m2 = m1.
Proof.
  intros H1 H2. destruct (C57_result _ _ _ H1) as (o & oc & ds & cams & Ho & _ & _ & He & _). eapply (C57_rerun images m m1 r m2 (Ok tt) m1 o); [by destruct H1 as (y & ? & _); exists y|done| |done|done].
  intros i Hi. unfold untorn. rewrite (He i Hi). destruct (m !! exif_file i); [by left|by right].
Qed.
(** Overrides that are changed once the metadata are there have no effect on them *)
Theorem C57_overrides_late images m m1 r m2 i s : runs (extract_metadata images) m (Ok tt) m1 -> i ∈ images ->
  runs (extract_metadata images) (<[exif_overrides_file := s]> m1) r m2 -> m2 !! exif_file i = m1 !! exif_file i.
Proof.
  intros H1 Hi H2. destruct (C57_result _ _ _ H1) as (o & oc & ds & cams & _ & _ & _ & He & _).
  apply runs_reach, stage_reach in H2 as [->|(o' & _ & Hr)]; [by rewrite lookup_insert_ne|]. rewrite (loop_kept _ _ _ _ _ i Hr); rewrite lookup_insert_ne by done; [done|].
  rewrite (He i Hi). destruct (m !! exif_file i); eauto.
Qed.
End C57.
Print Assumptions C57_result.
Print Assumptions C57_total.
Print Assumptions C57_torn_stays.
Print Assumptions C57_rerun.
Print Assumptions C57_repeat.
Print Assumptions C57_overrides_late.

(** An instance: the metadata of an image are its camera, its text a quote before it; the overrides name a camera for an image *)
Definition toy_parse (s : string) : option string := match s with String "{"%char s => Some s | _ => None end.
Definition toy (images : list string) : prog unit :=
  extract_metadata toy_parse (fun d => String "{"%char d) (fun i => if String.eqb i "b.jpg" then "canon" else "sony")%string (fun d => d) (fun d => d)
    toy_parse (fun o i d => if String.eqb i "a.jpg" then o else d) (fun _ => None) (fun _ c => c) (fun cams => String.concat "," (snd <$> map_to_list cams)) images.
(** A run killed while it writes the metadata of the second image, and the failing run after it; a run that is not killed *)
Example C57_nonvacuous :
  (forall d, toy_parse (String "{"%char d) = Some d) /\
  (exists m1, killed (toy ["a.jpg"; "b.jpg"]%string) ∅ m1 /\ m1 !! exif_file "a.jpg" = Some "{sony"%string /\ m1 !! exif_file "b.jpg" = Some ""%string /\
     forall r m2, runs (toy ["a.jpg"; "b.jpg"]%string) m1 r m2 -> r = Err ValueError) /\
  (exists m1, runs (toy ["a.jpg"; "b.jpg"]%string) ∅ (Ok tt) m1 /\ m1 !! exif_file "b.jpg" = Some "{canon"%string /\ is_Some (m1 !! camera_models_file)) /\
  (* the overrides, before and after *)
  (exists m1, runs (toy ["a.jpg"; "b.jpg"]%string) {[exif_overrides_file := "{nikon"%string]} (Ok tt) m1 /\ m1 !! exif_file "a.jpg" = Some "{nikon"%string) /\
  (exists m1 m2, runs (toy ["a.jpg"; "b.jpg"]%string) ∅ (Ok tt) m1 /\ runs (toy ["a.jpg"; "b.jpg"]%string) (<[exif_overrides_file := "{nikon"%string]> m1) (Ok tt) m2 /\
     m2 !! exif_file "a.jpg" = Some "{sony"%string).
Proof.
  split_and!; [done| | | |].
  - assert (killed (toy ["a.jpg"; "b.jpg"]%string) ∅ (<[exif_file "b.jpg" := ""%string]> (<[exif_file "a.jpg" := "{sony"%string]> ∅))) as Hk.
    { eexists. unfold toy, extract_metadata. eapply steps_S; [apply step_isfile|]. rewrite bool_decide_eq_false_2 by (rewrite lookup_empty; by intros []). cbn [metadata_loop metadata_of].
      eapply steps_S; [apply step_isfile|]. rewrite bool_decide_eq_false_2 by (rewrite lookup_empty; by intros []). cbn.
      eapply steps_S; [apply step_open|]. eapply steps_S; [apply step_close|]. rewrite insert_insert. cbn.
      eapply steps_S; [apply step_isfile|]. rewrite bool_decide_eq_false_2 by (rewrite lookup_insert_ne, lookup_empty by done; by intros []).
      eapply steps_S; [apply step_open|]. apply steps_0. }
    eexists. split; [exact Hk|]. split; [done|]. split; [done|]. intros r m2 H. eapply C57_torn_stays; [| | | |exact H]; [done|right; left|done|done].
  - eexists. split; [by apply runs_exec|]. split; [done|]. vm_compute. eauto.
  - eexists. split; [by apply runs_exec|]. done.
  - do 2 eexists. split; [by apply runs_exec|]. split; [by apply runs_exec|]. done.
Qed.
(** So that the overrides hold after every run is refuted *)
Theorem C57_overrides_refuted :
  ~ forall images m m' i d, i ∈ images -> runs (toy images) m (Ok tt) m' -> m !! exif_overrides_file = Some (String "{"%char d) -> i = "a.jpg"%string ->
      m' !! exif_file i = Some (String "{"%char d).
Proof.
  intros H. destruct C57_nonvacuous as (_ & _ & _ & _ & m1 & m2 & _ & H2 & H3). specialize (H ["a.jpg"; "b.jpg"]%string _ m2 "a.jpg"%string "nikon"%string ltac:(left) H2 ltac:(by rewrite lookup_insert) eq_refl). congruence.
Qed.
Print Assumptions C57_overrides_refuted.
