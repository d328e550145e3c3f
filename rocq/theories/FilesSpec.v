(** Specification of the stages on files. *)
From stdpp Require Import prelude gmap strings.
From Verif Require Import Base FilesModel.

(** A run of a program alone from [m] to its end *)
Definition runs {A} (x : prog A) (m : fs) (r : res A) (m' : fs) : Prop :=
  exists y, steps x m y m' /\ match y, r with Ret a, Ok b => a = b | Raise e, Err e' => e = e' | _, _ => False end.
(** A program killed somewhere: the files it leaves *)
Definition killed {A} (x : prog A) (m m' : fs) : Prop := exists y, steps x m y m'.
(** The same for several programs at once *)
Definition all_run {A} (l : list (prog A)) (m m' : fs) : Prop := exists l', psteps l m l' m' /\ Forall finished l'.
Definition all_killed {A} (l : list (prog A)) (m m' : fs) : Prop := exists l', psteps l m l' m'.

(** ** detect_features *)
Section Detect.
Variable need_words : bool.
Variable features_of words_of report_of : string -> string.
Notation exists_in m p := (is_Some (m !! p)).
(** The image is left alone *)
Definition skipped (force : bool) (m : fs) (i : string) : Prop :=
  force = false /\ (exists_in m (feature_file i) \/ exists_in m (feature_file_legacy i)) /\ (need_words = true -> exists_in m (words_file i)).
(** What the files of the image should be after a run from [m] *)
Definition processed (force : bool) (m m' : fs) (i : string) : Prop :=
  (skipped force m i -> m' !! feature_file i = m !! feature_file i /\ m' !! words_file i = m !! words_file i) /\
  (~ skipped force m i -> m' !! feature_file i = Some (features_of i) /\ m' !! words_file i = if need_words then Some (words_of i) else m !! words_file i).
Definition reported (force : bool) (m m' : fs) (i : string) : Prop :=
  (skipped force m i -> m' !! feature_report i = m !! feature_report i) /\ (~ skipped force m i -> m' !! feature_report i = Some (report_of i)).
(** The paths that belong to an image *)
Definition own (i p : string) : Prop := p = feature_file i \/ p = words_file i \/ p = feature_report i.
Definition others_kept (images : list string) (m m' : fs) : Prop := forall p, (forall i, i ∈ images -> ~ own i p) -> m' !! p = m !! p.
(** A file as it was, or whole *)
Definition untorn (m m' : fs) (p s : string) : Prop := m' !! p = m !! p \/ m' !! p = Some s.
End Detect.
(** Image names such that the files of one are not those of another: none is the name of another followed by .features or .words *)
Definition plain_names (images : list string) : Prop :=
  NoDup images /\ forall i j, i ∈ images -> j ∈ images -> j <> i +:+ ".features" /\ j <> i +:+ ".words".

(** ** extract_metadata *)
Section Metadata.
Context {Meta Camera Overrides : Type}.
Variable parse_meta : string -> option Meta.
Variable print_meta : Meta -> string.
Variable extract : string -> Meta.
Variable camera_id : Meta -> string.
Variable camera_of : Meta -> Camera.
Variable parse_overrides : string -> option Overrides.
Variable override : Overrides -> string -> Meta -> Meta.
Variable parse_cameras : string -> option (gmap string Camera).
Variable with_id : string -> Camera -> Camera.
(** What an image that has not been processed gets *)
Definition fresh (o : option Overrides) (i : string) : Meta := match o with Some o => override o i (extract i) | None => extract i end.
(** Its metadata: what is on disk comes first *)
Definition meta (o : option Overrides) (m : fs) (i : string) : option Meta :=
  match m !! exif_file i with Some s => parse_meta s | None => Some (fresh o i) end.
(** A file that need not be there; None: it does not parse *)
Definition optional {X} (parse : string -> option X) (m : fs) (p : string) : option (option X) :=
  match m !! p with None => Some None | Some s => match parse s with Some x => Some (Some x) | None => None end end.
(** The camera of that name comes from the first image that names it *)
Definition first_camera (ds : list Meta) (c : string) : option Camera := camera_of <$> head (filter (fun d => camera_id d = c) ds).
(** The cameras that are saved *)
Definition final_camera (o : option (gmap string Camera)) (ds : list Meta) (c : string) : option Camera :=
  match o with
  | None => first_camera ds c
  | Some o => match o !! "all"%string with
              | Some x => match first_camera ds c with Some _ => Some (with_id c x) | None => None end
              | None => match o !! c with Some x => Some x | None => first_camera ds c end
              end
  end.
End Metadata.

(** ** Stages that overwrite *)
(** [x] looks only at paths in [R] and writes only paths in [W] *)
Fixpoint confined {A} (R W : string -> Prop) (x : prog A) : Prop :=
  match x with
  | Ret _ | Raise _ => True
  | IsFile p k => R p /\ forall b, confined R W (k b)
  | Read p k => R p /\ forall c, confined R W (k c)
  | Save p _ k | Saving p _ k => W p /\ confined R W k
  end.
