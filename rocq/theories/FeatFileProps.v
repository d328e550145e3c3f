From stdpp Require Import prelude strings.
From Coq Require Import Reals Lra Lia.
From Verif Require Import Base PyText GpxProofs FeatFileModel FeatFileSpec FeatFileProofs.
Local Open Scope R_scope.

(** C96. Features of at least one point that fit into the file come back with the same numbers: points, descriptors, colours, classes, instances and labels. *)
Theorem C96_round_trip single f c d n : rounding single -> descriptors f = Some d -> rectangular n f -> (0 < n)%nat -> fits single (byte_features c) f ->
  exists file g, save single f c = Ok file /\ from_file single file c = Ok g /\ same_features f g /\ depths g = None.
Proof.
  intros [Hidem Hbyte] Hd Hrect Hn [F1 F2 F3 F4]. destruct (load_saved single f c d n Hd Hrect) as (file & g & H1 & H2 & Hp & Hde & Hc & Hz & Hsem). exists file, g. split; [done|]. split; [done|]. split; [|done]. destruct n as [|n]; [lia|].
  split.
  - rewrite Hp. by apply astype_same.
  - rewrite Hd, Hde. cbn [same_option]. destruct (F2 d Hd) as [Hb Hnb].
    assert (same_values d (astype single (feature_data_type c) d)) as Hs. { destruct (data_type_spec c) as [[-> H]|[-> H]]; apply astype_same; [|by apply Hnb]. eapply every_weaken; [|by apply Hb]. intros x. apply byte_exact. }
    destruct (decide _) as [[Ht Hu]|]; [|done]. etransitivity; [exact Hs|]. apply astype_same.
    assert (byte_features c) as Hbc. { unfold byte_features. rewrite Ht. right. left. done. }
    destruct (data_type_spec c) as [[E _]|[_ ?]]; [|done]. rewrite E. apply every_astype. intros x. cbn [as_type]. apply Hbyte. pose proof (Z.mod_pos_bound (truncate x) 256). lia.
  - rewrite Hc. unfold same_values. by rewrite f64_rows.
  - rewrite Hsem. destruct (semantic f) as [s|] eqn:Es; [|done]. cbn [same_semantic segmentation instances labels]. split; [|split; [|done]].
    + destruct (segmentation s) as [a|] eqn:Ea; [|done]. cbn. apply astype_same. eapply every_weaken; [|by eapply F3]. intros x. apply byte_exact.
    + destruct (instances s) as [a|] eqn:Ea; [|done]. cbn. apply astype_same. eapply every_weaken; [|by eapply F4]. intros x. apply short_exact.
Qed.
(** Whatever the numbers, the points are rounded to single precision and nothing else happens to them or to the colours, and what was loaded once is not changed by saving and loading it again. *)
Theorem C96_saving_again_changes_nothing single f c d n : rounding single -> descriptors f = Some d -> rectangular n f -> (0 < n)%nat ->
  exists file g, save single f c = Ok file /\ from_file single file c = Ok g /\ a_rows (points g) = map (map single) (a_rows (points f)) /\ same_values (colors f) (colors g) /\
    exists file' g', save single g c = Ok file' /\ from_file single file' c = Ok g' /\ same_features g g'.
Proof.
  intros Hr Hd Hrect Hn. destruct (load_saved single f c d n Hd Hrect) as (file & g & H1 & H2 & Hp & Hde & Hc & Hz & Hsem). exists file, g. split; [done|]. split; [done|].
  split; [by rewrite Hp|]. split; [rewrite Hc; unfold same_values; by rewrite f64_rows|]. destruct Hrect as (R1 & R2 & R3 & R4 & R5). pose proof Hr as [Hidem Hbyte].
  destruct (C96_round_trip single g c _ n Hr Hde) as (file' & g' & E1 & E2 & E3 & _); [|done| |by exists file', g'].
  - rewrite Hd in R2. cbn in R2. split; [by rewrite Hp, astype_length|]. rewrite Hde. split; [cbn [rows_option]; destruct (decide _); by rewrite !astype_length|]. rewrite Hc, Hz. split; [by rewrite astype_length|]. split; [done|].
    intros s Es. rewrite Hsem in Es. destruct n as [|n]; [lia|]. destruct (semantic f) as [t|]; [|done]. injection Es as <-. destruct (R5 t eq_refl) as ((a & Ea & Ha) & Hi). cbn [segmentation instances]. rewrite Ea. split; [eexists; split; [reflexivity|by rewrite astype_length]|].
    destruct (instances t); [|done]. cbn. by rewrite map_length.
  - assert (forall a, every (fun x => single x = x) (astype single F32 a)) as Hs. { intros a. apply every_astype. intros x. apply Hidem. }
    split.
    + rewrite Hp. apply Hs.
    + rewrite Hde. intros e [= <-]. split.
      * intros Hb. destruct (data_type_spec c) as [[-> _]|[_ ?]]; [|done]. assert (every (whole 0 255) (astype single U8 d)) as Hw. { apply every_astype. intros x. apply byte_whole. }
        destruct (decide _); [|done]. intros row x Hrow Hx. assert (same_values (astype single U8 d) (astype single F32 (astype single U8 d))) as E. { apply astype_same. eapply every_weaken; [|exact Hw]. intros y [[z ->] [L1 L2]]. cbn [as_type]. apply Hbyte. apply le_IZR in L1, L2. lia. }
        unfold same_values in E. rewrite <- E in Hrow. by apply (Hw row).
      * intros Hb. destruct (data_type_spec c) as [[_ ?]|[-> _]]; [done|]. destruct (decide _); apply Hs.
    + intros s a Es Ea. rewrite Hsem in Es. destruct n as [|n]; [lia|]. destruct (semantic f) as [t|]; [|done]. injection Es as <-. cbn [segmentation] in Ea. destruct (segmentation t); [|done]. injection Ea as <-. apply every_astype. intros x. apply byte_whole.
    + intros s a Es Ea. rewrite Hsem in Es. destruct n as [|n]; [lia|]. destruct (semantic f) as [t|]; [|done]. injection Es as <-. cbn [instances] in Ea. destruct (instances t); [|done]. injection Ea as <-. apply every_astype. intros x. apply short_whole.
Qed.
(** The type of the descriptors that are loaded, which decides how they are matched: bytes for binary descriptors, single precision for the others, when the type is written in capitals. *)
Theorem C96_descriptor_type single f c d n : descriptors f = Some d -> rectangular n f -> upper (feature_type c) = feature_type c ->
  exists file g e, save single f c = Ok file /\ from_file single file c = Ok g /\ descriptors g = Some e /\
    (a_type e = U8 <-> feature_type c = "ORB"%string \/ (feature_type c = "AKAZE"%string /\ (akaze_descriptor c = "MLDB"%string \/ akaze_descriptor c = "MLDB_UPRIGHT"%string))) /\
    (a_type e = U8 \/ a_type e = F32).
Proof.
  intros Hd Hrect Hup. destruct (load_saved single f c d n Hd Hrect) as (file & g & H1 & H2 & _ & Hde & _). exists file, g. eexists. split; [done|]. split; [done|]. split; [done|].
  pose proof (data_type_spec c) as Hs. unfold byte_features in Hs. rewrite Hup in Hs. destruct (decide _) as [[Ht Hu]|Hne]; cbn [a_type astype].
  - split; [|by right]. rewrite Ht. split; [done|]. by intros [?|[? _]].
  - destruct Hs as [[-> Hb]|[-> Hb]]; (split; [|by auto]); (split; [intros Hx|intros Hx]); try done.
    + destruct Hb as [?|[?|?]]; [by left|done|by right].
    + destruct Hb. tauto.
Qed.
(** ... but not when it is written in small letters, which is accepted everywhere else: the descriptors are then loaded as bytes and not in single precision. *)
Theorem C96_small_letters_refuted single : exists f c c', upper (feature_type c) = upper (feature_type c') /\ hahog_normalize_to_uchar c = hahog_normalize_to_uchar c' /\ akaze_descriptor c = akaze_descriptor c' /\
  rectangular 1 f /\ exists file g e file' g' e', save single f c = Ok file /\ from_file single file c = Ok g /\ descriptors g = Some e /\ a_type e = F32 /\
    save single f c' = Ok file' /\ from_file single file' c' = Ok g' /\ descriptors g' = Some e' /\ a_type e' = U8.
Proof.
  set (f := FeaturesData (Array F64 [[0; 0; 1; 0]]) (Some (Array F32 [[7]])) (Array U8 [[1; 2; 3]]) None None). assert (rectangular 1 f) as Hr by (unfold rectangular; cbn; split_and!; done).
  exists f, (Config "HAHOG" "MSURF" true 0), (Config "hahog" "MSURF" true 0). split; [reflexivity|]. split; [done|]. split; [done|]. split; [done|].
  do 6 eexists. repeat split.
Qed.
(** Descriptors are needed; a file of another version is an error. Old files: without a version, the size of every feature is the configured one; classes and instances of version 2 that cannot be read are left out. *)
Theorem C96_errors_and_old_files single c :
  (forall f, descriptors f = None -> save single f c = Err RuntimeError) /\
  (forall file v, f_version file = Some v -> (3 < v)%nat -> from_file single file c = Err KeyError) /\
  (forall file, f_version file = None -> exists g, from_file single file c = Ok g /\ semantic g = None /\ length (a_rows (points g)) = length (a_rows (f_points file)) /\ a_type (points g) = a_type (f_points file) /\
    forall i x y s r, a_rows (f_points file) !! i = Some (x :: y :: s :: r) -> a_type (f_points file) = F64 -> a_rows (points g) !! i = Some (x :: y :: reprojection_error_sd c :: r)) /\
  (forall file, f_version file = Some 1%nat -> exists g, from_file single file c = Ok g /\ points g = f_points file /\ semantic g = None) /\
  (forall file, f_version file = Some 2%nat -> f_segmentations file = Some Pickled -> exists g, from_file single file c = Ok g /\ points g = f_points file /\ semantic g = None) /\
  (forall file seg inst, f_version file = Some 2%nat -> f_segmentations file = Some (Plain seg) -> f_instances file = Some (Plain inst) -> exists g s, from_file single file c = Ok g /\ points g = f_points file /\
    semantic g = Some s /\ segmentation s = Some seg /\ instances s = Some inst).
Proof.
  split_and!.
  - intros f H. unfold save. by rewrite H.
  - intros file v H Hv. unfold from_file. rewrite H. cbn [default from_option Datatypes.id]. do 4 (destruct v as [|v]; [lia|]). done.
  - intros file H. unfold from_file. rewrite H. cbn [default from_option Datatypes.id]. eexists. split; [done|]. unfold from_file_v0. cbn [semantic points a_rows a_type]. rewrite fmap_length. split_and!; try done.
    intros i x y s r Hi Ht. rewrite list_lookup_fmap, Hi, Ht. done.
  - intros file H. unfold from_file. rewrite H. cbn. eexists. split_and!; done.
  - intros file H Hs. unfold from_file. rewrite H. cbn [default from_option Datatypes.id]. unfold from_file_v2. rewrite Hs. cbn. eexists. split_and!; done.
  - intros file seg inst H Hs Hi. unfold from_file. rewrite H. cbn [default from_option Datatypes.id]. unfold from_file_v2. rewrite Hs, Hi. cbn. do 2 eexists. split_and!; done.
Qed.
(** The limits of the format: a class above 255 comes back as another one; the labels of an image without features are lost. *)
Theorem C96_limits_refuted single c :
  (exists f file g s t, rectangular 1 f /\ save single f c = Ok file /\ from_file single file c = Ok g /\ semantic f = Some s /\ semantic g = Some t /\
    a_rows <$> segmentation s = Some [[256]] /\ a_rows <$> segmentation t = Some [[0]]) /\
  (exists f file g s, rectangular 0 f /\ save single f c = Ok file /\ from_file single file c = Ok g /\ semantic f = Some s /\ labels s = ["sky"%string] /\ semantic g = None).
Proof.
  split.
  - set (s := SemanticData (Some (Array I16 [[256]])) None []). set (f := FeaturesData (Array F64 [[0]]) (Some (Array F32 [[0]])) (Array U8 [[0]]) (Some s) None).
    assert (rectangular 1 f) as Hr. { unfold rectangular; cbn; split_and!; try done. intros t [= <-]. split; [by eexists|done]. }
    destruct (load_saved single f c _ 1 eq_refl Hr) as (file & g & H1 & H2 & _ & _ & _ & _ & Hsem). exists f, file, g, s. eexists. split; [done|]. split; [done|]. split; [done|]. split; [done|]. split; [exact Hsem|]. split; [done|].
    cbn. assert (truncate 256 = 256%Z) as -> by apply (truncate_IZR 256). done.
  - set (s := SemanticData (Some (Array U8 [])) None ["sky"%string]). set (f := FeaturesData (Array F64 []) (Some (Array F32 [])) (Array U8 []) (Some s) None).
    assert (rectangular 0 f) as Hr. { unfold rectangular; cbn; split_and!; try done. intros t [= <-]. split; [by eexists|done]. }
    destruct (load_saved single f c _ 0 eq_refl Hr) as (file & g & H1 & H2 & _ & _ & _ & _ & Hsem). by exists f, file, g, s.
Qed.
(** A mask keeps the features where it is true, in order, in all arrays alike; a mask of another length is an error. *)
Theorem C96_mask f n mask : rectangular n f ->
  (length mask <> n -> mask_features f mask = Err IndexError) /\
  (length mask = n -> exists g keep, mask_features f mask = Ok g /\ places mask keep /\ rectangular (length keep) g /\ picks keep (points f) (points g) /\ picks keep (colors f) (colors g) /\
    picks_option keep (descriptors f) (descriptors g) /\ picks_option keep (depths f) (depths g) /\
    match semantic f, semantic g with
    | Some s, Some t => picks_option keep (segmentation s) (segmentation t) /\ picks_option keep (instances s) (instances t) /\ labels s = labels t
    | None, None => True
    | _, _ => False
    end).
Proof.
  intros (R1 & R2 & R3 & R4 & R5). split.
  - intros Hn. unfold mask_features. destruct (semantic f) as [s|] eqn:Es; cbn [res_bind].
    + destruct (R5 s eq_refl) as ((a & Ea & Ha) & _). unfold mask_semantic. rewrite Ea. cbn [of_option res_bind]. unfold masked_array. by rewrite decide_False by congruence.
    + unfold masked_array at 1. by rewrite decide_False by congruence.
  - intros Hn. exists (default (FeaturesData (points f) None (points f) None None) (match mask_features f mask with Ok g => Some g | Err _ => None end)), (kept 0 mask).
    rewrite <- Hn in R1, R2, R3, R4, R5. clear Hn. destruct (masked_picks mask (points f) R1) as (p & Ep & Hp). destruct (masked_picks mask (colors f) R3) as (c & Ec & Hc).
    destruct (masked_option_picks mask (descriptors f) R2) as (d & Ed & Hd). destruct (masked_option_picks mask (depths f) R4) as (z & Ez & Hz).
    assert (forall a b, picks_option (kept 0 mask) a b -> rows_option (length (kept 0 mask)) b) as Hrow. { intros [a|] [b|]; cbn; try done. by intros (_ & ? & _). }
    unfold mask_features. destruct (semantic f) as [s|] eqn:Es.
    + destruct (R5 s eq_refl) as ((a & Ea & Ha) & Hi). destruct (masked_picks mask a Ha) as (sg & Esg & Hsg). destruct (masked_option_picks mask (instances s) Hi) as (i & Ei & Hii).
      unfold mask_semantic. rewrite Ea. cbn [of_option res_bind]. rewrite Esg. cbn [res_bind]. rewrite Ei. cbn [res_bind]. rewrite Ep. cbn [res_bind]. rewrite Ed. cbn [res_bind]. rewrite Ec. cbn [res_bind]. rewrite Ez. cbn [res_bind default from_option Datatypes.id points colors descriptors depths semantic].
      split; [done|]. split; [apply kept_places|]. split; [|cbn [segmentation instances labels picks_option]; done]. unfold rectangular. cbn [points colors descriptors depths semantic]. split; [apply Hp|]. split; [by eapply Hrow|]. split; [apply Hc|]. split; [by eapply Hrow|].
      intros t [= <-]. cbn [segmentation instances]. split; [exists sg; split; [done|apply Hsg]|by eapply Hrow].
    + cbn [res_bind]. rewrite Ep. cbn [res_bind]. rewrite Ed. cbn [res_bind]. rewrite Ec. cbn [res_bind]. rewrite Ez. cbn [res_bind default from_option Datatypes.id points colors descriptors depths semantic].
      split; [done|]. split; [apply kept_places|]. split; [|done]. unfold rectangular. cbn [points colors descriptors depths semantic]. split; [apply Hp|]. split; [by eapply Hrow|]. split; [apply Hc|]. split; [by eapply Hrow|]. done.
Qed.

(** Features to which the theorems apply *)
Example C96_example : exists f d, descriptors f = Some d /\ rectangular 2 f /\ rounding (fun x => x) /\ fits (fun x => x) (byte_features (Config "HAHOG" "MSURF" true 0)) f /\ byte_features (Config "HAHOG" "MSURF" true 0) /\
  exists g, mask_features f [false; true] = Ok g /\ a_rows (colors g) = [[4; 5; 6]].
Proof.
  set (s := SemanticData (Some (Array U8 [[1]; [2]])) (Some (Array I16 [[-1]; [3]])) ["road"%string]).
  exists (FeaturesData (Array F64 [[0; 0; 1; 0]; [1; 1; 2; 0]]) (Some (Array F32 [[7]; [255]])) (Array U8 [[1; 2; 3]; [4; 5; 6]]) (Some s) None). eexists. split; [done|].
  assert (forall lo hi z, (lo <= z <= hi)%Z -> whole (IZR lo) (IZR hi) (IZR z)) as Hw. { intros lo hi z H. split; [by eexists|]. split; apply IZR_le; lia. }
  split. { unfold rectangular; cbn; split_and!; try done. intros t [= <-]. cbn. split; [by eexists|done]. }
  split; [by split|]. split; [|split; [right; left; done|eexists; split; reflexivity]]. split.
  - by intros row x _ _.
  - intros d [= <-]. split; [|by intros _ row x _ _]. intros _ row x Hr Hx. cbn in Hr. apply elem_of_cons in Hr as [-> |Hr]; [|apply elem_of_list_singleton in Hr as ->]; apply elem_of_list_singleton in Hx as ->; [apply (Hw 0 255 7)%Z|apply (Hw 0 255 255)%Z]; lia.
  - intros t a [= <-] [= <-] row x Hr Hx. cbn in Hr. apply elem_of_cons in Hr as [-> |Hr]; [|apply elem_of_list_singleton in Hr as ->]; apply elem_of_list_singleton in Hx as ->; [apply (Hw 0 255 1)%Z|apply (Hw 0 255 2)%Z]; lia.
  - intros t a [= <-] [= <-] row x Hr Hx. cbn in Hr. apply elem_of_cons in Hr as [-> |Hr]; [|apply elem_of_list_singleton in Hr as ->]; apply elem_of_list_singleton in Hx as ->; [apply (Hw (-32768) 32767 (-1))%Z|apply (Hw (-32768) 32767 3)%Z]; lia.
Qed.
Print Assumptions C96_round_trip.
Print Assumptions C96_saving_again_changes_nothing.
Print Assumptions C96_descriptor_type.
Print Assumptions C96_small_letters_refuted.
Print Assumptions C96_errors_and_old_files.
Print Assumptions C96_limits_refuted.
Print Assumptions C96_mask.
