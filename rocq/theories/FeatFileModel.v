(** Model of the features files: /repo/opensfm/features.py:16-277 (SemanticData, FeaturesData), over the reals. An array is its type and its rows; the npz file gives back the arrays it was given. *)
From stdpp Require Import prelude strings.
From Coq Require Import Reals.
From Verif Require Import Base PyText.
Local Open Scope R_scope.

Inductive dtype := U8 | I16 | F32 | F64.
Global Instance dtype_eq_dec : EqDecision dtype. Proof. solve_decision. Defined.
Record array := Array { a_type : dtype; a_rows : list (list R) }.
(** The integer part, towards 0 *)
Definition truncate (x : R) : Z := if Rle_dec 0 x then Int_part x else (- Int_part (- x))%Z.
(** np.astype. Whole numbers out of range wrap around; numpy leaves undefined what becomes of floating point numbers out of range, here they wrap as well. Rounding to single precision is a parameter, double
    precision is exact *)
Definition as_type (single : R -> R) (d : dtype) (x : R) : R :=
  match d with
  | U8 => IZR (truncate x mod 256)
  | I16 => IZR ((truncate x + 32768) mod 65536 - 32768)
  | F32 => single x
  | F64 => x
  end.
Definition astype (single : R -> R) (d : dtype) (a : array) : array := Array d (map (map (as_type single d)) (a_rows a)).
(** Indexing by a boolean mask; a mask of another length is an IndexError *)
Fixpoint masked {A} (mask : list bool) (l : list A) : list A :=
  match mask, l with true :: mask, a :: l => a :: masked mask l | false :: mask, _ :: l => masked mask l | _, _ => [] end.
Definition masked_array (mask : list bool) (a : array) : res array :=
  if decide (length mask = length (a_rows a)) then Ok (Array (a_type a) (masked mask (a_rows a))) else Err IndexError.
Definition masked_option (mask : list bool) (a : option array) : res (option array) :=
  match a with Some a => try b := masked_array mask a in Ok (Some b) | None => Ok None end.

(** 16-29. The labels are their texts (str of the dictionaries). The segmentation is None in data of version 2 files only *)
Record semantic_data := SemanticData { segmentation : option array; instances : option array; labels : list string }.
(** 50-68 *)
Record features_data := FeaturesData { points : array; descriptors : option array; colors : array; semantic : option semantic_data; depths : option array }.
(** 34-46; a segmentation of None indexed by a mask is a TypeError *)
Definition mask_semantic (s : semantic_data) (mask : list bool) : res semantic_data :=
  try seg := of_option TypeError (segmentation s) in
  try seg := masked_array mask seg in
  try inst := masked_option mask (instances s) in
  Ok (SemanticData (Some seg) inst (labels s)).
(** 83-95 *)
Definition mask_features (f : features_data) (mask : list bool) : res features_data :=
  try sem := (match semantic f with Some s => try t := mask_semantic s mask in Ok (Some t) | None => Ok None end) in
  try p := masked_array mask (points f) in
  try d := masked_option mask (descriptors f) in
  try c := masked_array mask (colors f) in
  try z := masked_option mask (depths f) in
  Ok (FeaturesData p d c sem z).

(** The options that matter *)
Record config := Config { feature_type : string; akaze_descriptor : string; hahog_normalize_to_uchar : bool; reprojection_error_sd : R }.
(** An entry of the file: numpy objects need pickle, which is switched off: reading them is a ValueError *)
Inductive entry := Plain (a : array) | Pickled.
(** The file. A version that is missing is None; files of versions 0 and 1 have no semantic entries: a KeyError *)
Record features_file := FeaturesFile { f_version : option nat; f_points : array; f_descriptors : array; f_colors : array;
  f_segmentations : option entry; f_instances : option entry; f_labels : option (list string) (* None: pickled *) }.
(** 97-137 *)
Definition feature_data_type (c : config) : dtype :=
  let t := upper (feature_type c) in
  if decide ((t = "AKAZE"%string /\ akaze_descriptor c ∈ ["MLDB_UPRIGHT"; "MLDB"]%string) \/ (t = "HAHOG"%string /\ hahog_normalize_to_uchar c = true) \/ t = "ORB"%string) then U8 else F32.
Definition save (single : R -> R) (f : features_data) (c : config) : res features_file :=
  match descriptors f with
  | None => Err RuntimeError
  | Some d =>
      let file seg inst lab := FeaturesFile (Some 3%nat) (astype single F32 (points f)) (astype single (feature_data_type c) d) (colors f) (Some (Plain seg)) (Some (Plain inst)) (Some lab) in
      match semantic f with
      | Some s =>
          try seg := of_option TypeError (segmentation s) in
          Ok (file (astype single U8 seg) (match instances s with Some i => astype single I16 i | None => Array F64 [] end) (labels s))
      | None => Ok (file (Array F64 []) (Array F64 []) [])
      end
  end.
(** The descriptors in all versions: 168-172, 186-190, 208-212, 255-259 *)
Definition loaded_descriptors (single : R -> R) (file : features_file) (c : config) : array :=
  if decide (feature_type c = "HAHOG"%string /\ hahog_normalize_to_uchar c = true) then astype single F32 (f_descriptors file) else f_descriptors file.
Definition read_entry (e : option entry) : res array := match e with Some (Plain a) => Ok a | Some Pickled => Err ValueError | None => Err KeyError end.
(** 159-175: the third column is set; rows with fewer columns stay as they are *)
Definition set_scale (x : R) (row : list R) : list R := match row with a :: b :: _ :: r => a :: b :: x :: r | _ => row end.
Definition from_file_v0 (single : R -> R) (file : features_file) (c : config) : features_data :=
  FeaturesData (Array (a_type (f_points file)) (set_scale (as_type single (a_type (f_points file)) (reprojection_error_sd c)) <$> a_rows (f_points file)))
    (Some (loaded_descriptors single file c)) (astype single F64 (f_colors file)) None None.
(** 177-193 *)
Definition from_file_v1 (single : R -> R) (file : features_file) (c : config) : features_data :=
  FeaturesData (f_points file) (Some (loaded_descriptors single file c)) (astype single F64 (f_colors file)) None None.
(** 195-242: no plain array has an element that is None *)
Definition from_file_v2 (single : R -> R) (file : features_file) (c : config) : res features_data :=
  try has := (match read_entry (f_segmentations file), read_entry (f_instances file) with
              | Ok seg, Ok inst => Ok (Some (seg, inst))
              | Err ValueError, _ | Ok _, Err ValueError => Ok None
              | Err e, _ | _, Err e => Err e
              end) in
  let labels := default [] (f_labels file) in
  let semantic_data := match has with Some (seg, inst) => Some (SemanticData (Some seg) (Some inst) labels) | None => None end in
  Ok (FeaturesData (f_points file) (Some (loaded_descriptors single file c)) (astype single F64 (f_colors file)) semantic_data None).
(** 244-277 *)
Definition from_file_v3 (single : R -> R) (file : features_file) (c : config) : res features_data :=
  try seg := read_entry (f_segmentations file) in
  try inst := read_entry (f_instances file) in
  let has_segmentation := bool_decide (0 < length (a_rows seg))%nat in
  let has_instances := bool_decide (0 < length (a_rows inst))%nat in
  try sem := (if has_segmentation || has_instances then
                try lab := of_option ValueError (f_labels file) in
                Ok (Some (SemanticData (if has_segmentation then Some seg else None) (if has_instances then Some inst else None) lab))
              else Ok None) in
  Ok (FeaturesData (f_points file) (Some (loaded_descriptors single file c)) (astype single F64 (f_colors file)) sem None).
(** 139-157; the AttributeError of an unknown version is shown as a KeyError *)
Definition from_file (single : R -> R) (file : features_file) (c : config) : res features_data :=
  match default 0%nat (f_version file) with
  | 0%nat => Ok (from_file_v0 single file c)
  | 1%nat => Ok (from_file_v1 single file c)
  | 2%nat => from_file_v2 single file c
  | 3%nat => from_file_v3 single file c
  | _ => Err KeyError
  end.
