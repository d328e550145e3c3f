(** Programs that work on the files of a dataset, and the stages detect_features, extract_metadata, match_features, create_tracks and
    reconstruct as such programs. A program is killed between any two of its steps; several run in any interleaving.

    A file is written as python does with open(path, "w"): opening truncates it, the content arrives in pieces, and is whole only when
    the file is closed (/repo/opensfm/io.py:1466-1480; no stage writes to a temporary name and renames). Directories are not
    modelled (mkdir_p), nor a full disk, nor other programs working on the same dataset. *)
From stdpp Require Import prelude gmap strings.
From Verif Require Import Base.

Notation fs := (gmap string string).
Inductive prog (A : Type) : Type :=
  | Ret (a : A)
  | Raise (e : exn)
  | IsFile (p : string) (k : bool -> prog A)          (* io.py:1442-1443 *)
  | Read (p : string) (k : option string -> prog A)   (* open_rt, open_rb; None: no such file *)
  | Save (p s : string) (k : prog A)                  (* open_wt, open_wb, write, close *)
  | Saving (p s : string) (k : prog A).               (* the same, after the opening *)
Global Arguments Ret {A}. Global Arguments Raise {A}. Global Arguments IsFile {A}. Global Arguments Read {A}.
Global Arguments Save {A}. Global Arguments Saving {A}.
Fixpoint bind {A B} (x : prog A) (f : A -> prog B) : prog B :=
  match x with
  | Ret a => f a
  | Raise e => Raise e
  | IsFile p k => IsFile p (fun b => bind (k b) f)
  | Read p k => Read p (fun b => bind (k b) f)
  | Save p s k => Save p s (bind k f)
  | Saving p s k => Saving p s (bind k f)
  end.
Notation "'let*' x := r 'in' k" := (bind r (fun x => k)) (at level 200, x pattern, r at level 100, k at level 200, right associativity).

(** One step *)
Inductive step {A} : prog A -> fs -> prog A -> fs -> Prop :=
  | step_isfile p k m : step (IsFile p k) m (k (bool_decide (is_Some (m !! p)))) m
  | step_read p k m : step (Read p k) m (k (m !! p)) m
  | step_open p s k m : step (Save p s k) m (Saving p s k) (<[p := ""%string]> m)
  | step_write p s s' k m : String.prefix s' s = true -> step (Saving p s k) m (Saving p s k) (<[p := s']> m)
  | step_close p s k m : step (Saving p s k) m k (<[p := s]> m).
(** Any number of steps *)
Inductive steps {A} : prog A -> fs -> prog A -> fs -> Prop :=
  | steps_0 x m : steps x m x m
  | steps_S x m x' m' x'' m'' : step x m x' m' -> steps x' m' x'' m'' -> steps x m x'' m''.
(** Several programs: at each step one of them makes one *)
Inductive psteps {A} : list (prog A) -> fs -> list (prog A) -> fs -> Prop :=
  | psteps_0 l m : psteps l m l m
  | psteps_S l m i x x' m' l'' m'' : l !! i = Some x -> step x m x' m' -> psteps (<[i := x']> l) m' l'' m'' -> psteps l m l'' m''.
Definition finished {A} (x : prog A) : Prop := match x with Ret _ | Raise _ => True | _ => False end.

(** ** detect_features *)
(** dataset.py:287-304, 326-327, 595-600 *)
Definition feature_file (image : string) : string := "features/" +:+ image +:+ ".features.npz".
Definition feature_file_legacy (image : string) : string := "features/" +:+ image +:+ ".npz".
Definition words_file (image : string) : string := "features/" +:+ image +:+ ".words.npz".
Definition feature_report (image : string) : string := "reports/features/" +:+ image +:+ ".json".
Section Detect.
(** matcher_type or matching_bow_neighbors ask for words *)
Variable need_words : bool.
(** what the extraction gives for an image: the content of the three files. It does not depend on the other files written here;
    the wall time in the report is taken as fixed, and an extraction that raises is not modelled. *)
Variable features_of words_of report_of : string -> string.
(** dataset.py:312-315 *)
Definition features_exist {A} (image : string) (k : bool -> prog A) : prog A :=
  IsFile (feature_file image) (fun b => if b then k true else IsFile (feature_file_legacy image) k).
(** features_processing.py:252-342 *)
Definition detect (force : bool) (image : string) : prog unit :=
  let save := Save (feature_file image) (features_of image)
    (if need_words then Save (words_file image) (words_of image) (Save (feature_report image) (report_of image) (Ret tt))
     else Save (feature_report image) (report_of image) (Ret tt)) in
  let test has_words := features_exist image (fun has_features => if negb force && has_features && has_words then Ret tt else save) in
  if need_words then IsFile (words_file image) test else test true.
(** All the images, by any number of workers in any order (run_features_processing; that every image is processed once is C23) *)
Definition detect_features (force : bool) (images : list string) : list (prog unit) := detect force <$> images.
(** dataset.py:317-324: the file the features are read from *)
Definition load_features (m : fs) (image : string) : option string :=
  match m !! feature_file_legacy image with Some s => Some s | None => m !! feature_file image end.
End Detect.

(** ** extract_metadata *)
Definition exif_file (image : string) : string := "exif/" +:+ image +:+ ".exif".
Definition exif_overrides_file : string := "exif_overrides.json".
Definition camera_models_file : string := "camera_models.json".
Definition camera_overrides_file : string := "camera_models_overrides.json".
Section Metadata.
(** the metadata of an image, a camera, the overrides of the metadata and of the cameras, and their texts *)
Context {Meta Camera Overrides : Type}.
Variable parse_meta : string -> option Meta.   (* json.load; None: it raises *)
Variable print_meta : Meta -> string.          (* io.json_dump *)
Variable extract : string -> Meta.             (* _extract_exif, from the image file *)
Variable camera_id : Meta -> string.           (* d["camera"] *)
Variable camera_of : Meta -> Camera.           (* camera_from_exif_metadata *)
Variable parse_overrides : string -> option Overrides.
Variable override : Overrides -> string -> Meta -> Meta.   (* d.update(exif_overrides[image]) if there is such an entry *)
Variable parse_cameras : string -> option (gmap string Camera).   (* json.load, cameras_from_json *)
Variable with_id : string -> Camera -> Camera.   (* a copy of the camera with that id *)
Variable print_cameras : gmap string Camera -> string.   (* cameras_to_json, json_dump; the order of the cameras is not modelled *)
(** extract_metadata.py:43-50 *)
Definition override_cameras (overrides cameras : gmap string Camera) : gmap string Camera :=
  match overrides !! "all"%string with
  | Some c => map_imap (fun key _ => Some (with_id key c)) cameras
  | None => overrides ∪ cameras
  end.
(** Reading a file that exists *)
Definition load {A X} (parse : string -> option X) (p : string) (k : X -> prog A) : prog A :=
  Read p (fun c => match c with None => Raise ValueError | Some s => match parse s with None => Raise ValueError | Some x => k x end end).
(** extract_metadata.py:24-35: the metadata of one image *)
Definition metadata_of {A} (overrides : option Overrides) (image : string) (k : Meta -> prog A) : prog A :=
  IsFile (exif_file image) (fun b =>
    if b then load parse_meta (exif_file image) k
    else let d := match overrides with Some o => override o image (extract image) | None => extract image end in
         Save (exif_file image) (print_meta d) (k d)).
(** 23-39: the loop; a camera is that of the first image that names it *)
Fixpoint metadata_loop {A} (overrides : option Overrides) (images : list string) (cameras : gmap string Camera)
    (k : gmap string Camera -> prog A) : prog A :=
  match images with
  | [] => k cameras
  | image :: rest => metadata_of overrides image (fun d =>
      metadata_loop overrides rest (match cameras !! camera_id d with None => <[camera_id d := camera_of d]> cameras | Some _ => cameras end) k)
  end.
(** 15-51 *)
Definition extract_metadata (images : list string) : prog unit :=
  let body overrides := metadata_loop overrides images ∅ (fun cameras =>
    IsFile camera_overrides_file (fun b =>
      if b then load parse_cameras camera_overrides_file (fun o => Save camera_models_file (print_cameras (override_cameras o cameras)) (Ret tt))
      else Save camera_models_file (print_cameras cameras) (Ret tt))) in
  IsFile exif_overrides_file (fun b => if b then load parse_overrides exif_overrides_file (fun o => body (Some o)) else body None).
End Metadata.

(** ** The stages that read files, compute, and write others: match_features, create_tracks, reconstruct *)
(** Reads the files in order *)
Fixpoint read_all {A} (inputs : list string) (k : list (option string) -> prog A) : prog A :=
  match inputs with [] => k [] | p :: rest => Read p (fun c => read_all rest (fun l => k (c :: l))) end.
Fixpoint save_all {A} (outputs : list (string * string)) (k : prog A) : prog A :=
  match outputs with [] => k | (p, s) :: rest => Save p s (save_all rest k) end.
(** dataset.py:449-457: the reference is made up once *)
Definition reference_file : string := "reference_lla.json".
Definition init_reference {A} (inputs : list string) (invent : list (option string) -> string) (k : prog A) : prog A :=
  IsFile reference_file (fun b => if b then k else read_all inputs (fun l => Save reference_file (invent l) k)).
Definition report_file (name : string) : string := "reports/" +:+ name.
Definition matches_file (image : string) : string := "matches/" +:+ image +:+ "_matches.pkl.gz".
Definition tracks_file : string := "tracks.csv".
Definition reconstruction_file : string := "reconstruction.json".
(** actions/match_features.py with matching.py:28-98, 132-156: all the matches are computed before the first is written; [compute]
    gives the content for each image and for the report, or raises. Which metadata, features and masks are read is a parameter. *)
Definition match_features (images inputs : list string) (invent : list (option string) -> string)
    (compute : list (option string) -> option ((string -> string) * string)) : prog unit :=
  init_reference inputs invent (read_all (reference_file :: inputs) (fun l =>
    match compute l with
    | None => Raise ValueError
    | Some (matches, report) => save_all (((fun i => (matches_file i, matches i)) <$> images) ++ [(report_file "matches.json", report)]) (Ret tt)
    end)).
(** actions/create_tracks.py *)
Definition create_tracks (images : list string) (compute : list (option string) -> option (string * string)) : prog unit :=
  read_all ((feature_file_legacy <$> images) ++ (feature_file <$> images) ++ (matches_file <$> images)) (fun l =>
    match compute l with
    | None => Raise ValueError
    | Some (tracks, report) => save_all [(tracks_file, tracks); (report_file "tracks.json", report)] (Ret tt)
    end).
(** actions/reconstruct.py *)
Definition reconstruct (inputs : list string) (invent : list (option string) -> string) (compute : list (option string) -> option (string * string)) : prog unit :=
  Read tracks_file (fun t =>
    match t with
    | None => Raise ValueError
    | Some _ => init_reference inputs invent (read_all (reference_file :: inputs) (fun l =>
        match compute (t :: l) with
        | None => Raise ValueError
        | Some (r, report) => save_all [(reconstruction_file, r); (report_file "reconstruction.json", report)] (Ret tt)
        end))
    end).
