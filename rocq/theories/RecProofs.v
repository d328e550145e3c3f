From Coq Require Import Reals Lra.
From stdpp Require Import prelude gmap strings.
From Verif Require Import Base JsonModel CamModel CamSpec CamProofs Lin RotModel RotProofs TracksModel MapModel MapSpec MapProofs PoseModel PoseSpec PoseProofs PoseMapProofs RecModel RecSpec.
Local Close Scope R_scope.

(** ** Dictionaries *)
Lemma jget_jset d k v k' : jget (jset d k v) k' = if decide (k = k') then Some v else jget d k'.
Proof.
  induction d as [|[x y] d IH]; cbn [jset jget].
  - done.
  - destruct (decide (x = k)) as [->|Hx]; cbn [jget].
    + by destruct (decide (k = k')).
    + destruct (decide (x = k')) as [->|]; [|done]. by destruct (decide (k = k')) as [->|].
Qed.
Lemma jget_jset_opt d k o k' : jget (jset_opt d k o) k' = if decide (k = k') then match o with Some v => Some v | None => jget d k' end else jget d k'.
Proof. destruct o; cbn [jset_opt]; [apply jget_jset|]. by destruct (decide (k = k')). Qed.
Lemma jset_keys d k v : forall x, x ∈ (jset d k v).*1 <-> x = k \/ x ∈ d.*1.
Proof.
  induction d as [|[a b] d IH]; intros x; cbn [jset].
  - cbn. rewrite elem_of_list_singleton, elem_of_nil. tauto.
  - destruct (decide (a = k)) as [->|]; cbn; rewrite !elem_of_cons; [tauto|]. rewrite IH. tauto.
Qed.
Lemma jset_nodup d k v : NoDup d.*1 -> NoDup (jset d k v).*1.
Proof.
  induction d as [|[a b] d IH]; cbn [jset].
  - intros _. cbn. apply NoDup_singleton.
  - cbn. intros [Ha Hd]%NoDup_cons. destruct (decide (a = k)) as [->|]; cbn; apply NoDup_cons; [done|]. split; [|by apply IH].
    rewrite jset_keys. intros [?|?]; done.
Qed.
Lemma jset_opt_nodup d k o : NoDup d.*1 -> NoDup (jset_opt d k o).*1.
Proof. destruct o; cbn; [apply jset_nodup|done]. Qed.
Lemma jget_none d k : jget d k = None <-> k ∉ d.*1.
Proof.
  induction d as [|[a b] d IH]; cbn; [split; [intros _; apply not_elem_of_nil|done]|]. rewrite not_elem_of_cons.
  destruct (decide (a = k)) as [->|]; [split; [done|by intros [? _]]|]. rewrite IH. split; [by split|by intros [_ ?]].
Qed.
Lemma jget_jupdate e : forall d k, NoDup e.*1 -> jget (jupdate d e) k = match jget e k with Some v => Some v | None => jget d k end.
Proof.
  unfold jupdate. induction e as [|[a b] e IH]; intros d k; cbn; [done|]. intros [Ha He]%NoDup_cons. rewrite IH by done. rewrite jget_jset.
  destruct (decide (a = k)) as [->|]; [|done]. by apply jget_none in Ha as ->.
Qed.

(** ** Values *)
Lemma as_vec_jvec v : as_vec (jvec v) = Ok v.
Proof. by destruct v. Qed.
Lemma mapR_reals l : mapR as_real (List.map JNum l) = Ok l.
Proof. induction l as [|x l IH]; [done|]. change (List.map JNum (x :: l)) with (JNum x :: List.map JNum l). rewrite mapR_cons, IH. done. Qed.
Lemma as_rows_jrows m : as_rows (jrows m) = Ok m.
Proof.
  unfold as_rows, jrows. cbn [as_list res_bind]. induction m as [|r m IH]; [done|]. cbn [List.map]. rewrite mapR_cons. cbn [as_list res_bind].
  rewrite mapR_reals. cbn [res_bind]. rewrite IH. done.
Qed.
Lemma int_part_IZR z : Int_part (IZR z) = z.
Proof.
  unfold Int_part. assert (up (IZR z) = (z + 1)%Z) as ->; [|lia]. symmetry. apply tech_up; rewrite plus_IZR; lra.
Qed.
Lemma py_int_IZR z : py_int (JNum (IZR z)) = Ok z.
Proof. unfold py_int. destruct (Rle_dec _ _); [by rewrite int_part_IZR|]. rewrite <- opp_IZR, int_part_IZR. f_equal. lia. Qed.
Lemma jread_some {A} (conv : json -> res A) (f : A -> json) (o : option A) : (forall a, conv (f a) = Ok a /\ f a <> JNull) -> jread conv (f <$> o) = Ok o.
Proof. intros H. destruct o as [a|]; cbn; [|done]. destruct (H a) as [H1 H2]. destruct (f a) eqn:E; by rewrite ?H1. Qed.

(** ** Metadata *)
Lemma meta_nodup m : NoDup (pymap_metadata_to_json m).*1.
Proof.
  unfold pymap_metadata_to_json. apply jset_opt_nodup. set (d := jset_opt _ "gravity_down" _).
  assert (NoDup d.*1). { unfold d. repeat apply jset_opt_nodup. apply NoDup_nil_2. }
  destruct (ms_compass_angle m), (ms_compass_accuracy m); try done; by apply jset_nodup.
Qed.
Definition meta_keys := ["orientation"; "capture_time"; "gps_dop"; "gps_position"; "skey"; "gravity_down"; "compass"].
Lemma meta_ext d e : (forall k, k ∈ meta_keys -> jget d k = jget e k) -> json_to_pymap_metadata d = json_to_pymap_metadata e.
Proof.
  intros H. unfold json_to_pymap_metadata.
  rewrite (H "orientation"), (H "capture_time"), (H "gps_dop"), (H "gps_position"), (H "skey"), (H "gravity_down"), (H "compass"); [done|..];
    apply (bool_decide_unpack _); vm_compute; exact I.
Qed.
Definition compass_json (m : measurements) : option json :=
  match ms_compass_angle m, ms_compass_accuracy m with
  | Some a, Some c => Some (JObj [("angle", JNum a); ("accuracy", JNum c)])
  | Some a, None => Some (JObj [("angle", JNum a)])
  | None, Some c => Some (JObj [("accuracy", JNum c)])
  | None, None => None
  end.
Lemma meta_get m :
  let d := pymap_metadata_to_json m in
  jget d "orientation" = JInt <$> ms_orientation m /\ jget d "capture_time" = JNum <$> ms_capture_time m /\
  jget d "gps_dop" = JNum <$> ms_gps_accuracy m /\ jget d "gps_position" = jvec <$> ms_gps_position m /\
  jget d "skey" = JStr <$> ms_sequence_key m /\ jget d "gravity_down" = jvec <$> ms_gravity_down m /\ jget d "compass" = compass_json m.
Proof.
  cbv zeta. unfold pymap_metadata_to_json.
  set (d := jset_opt (jset_opt (jset_opt (jset_opt (jset_opt [] _ _) _ _) _ _) _ _) _ _).
  assert (forall k, jget (match ms_compass_angle m, ms_compass_accuracy m with
           | Some a, Some c => jset d "compass" (JObj [("angle", JNum a); ("accuracy", JNum c)])
           | Some a, None => jset d "compass" (JObj [("angle", JNum a)])
           | None, Some c => jset d "compass" (JObj [("accuracy", JNum c)])
           | None, None => d
           end) k = jget (jset_opt d "compass" (compass_json m)) k) as E.
  { intros k. unfold compass_json. by destruct (ms_compass_angle m), (ms_compass_accuracy m). }
  set (d' := match ms_compass_angle m with Some _ => _ | None => _ end) in *.
  assert (forall d o k k', k <> k' -> jget (jset_opt d k o) k' = jget d k') as Hne.
  { intros. rewrite jget_jset_opt. by rewrite decide_False. }
  assert (forall d o k, jget d k = None -> jget (jset_opt d k o) k = o) as Heq.
  { intros d0 o k Hn. rewrite jget_jset_opt. rewrite decide_True by done. by destruct o. }
  clearbody d'. split_and!.
  1,2,3,4,6: rewrite Hne by discriminate; rewrite E; rewrite Hne by discriminate; unfold d; repeat (rewrite Hne by discriminate); apply Heq; repeat (rewrite Hne by discriminate); done.
  - apply Heq. rewrite E. rewrite Hne by discriminate. unfold d; repeat (rewrite Hne by discriminate); done.
  - rewrite Hne by discriminate; rewrite E. apply Heq. unfold d; repeat (rewrite Hne by discriminate); done.
Qed.
Lemma jget_ne d k v k' : k <> k' -> jget (jset d k v) k' = jget d k'.
Proof. intros. rewrite jget_jset. by rewrite decide_False. Qed.
Lemma jget_eq d k v : jget (jset d k v) k = Some v.
Proof. rewrite jget_jset. by rewrite decide_True. Qed.
Lemma meta_other m k : k ∉ meta_keys -> jget (pymap_metadata_to_json m) k = None.
Proof.
  unfold meta_keys. rewrite !not_elem_of_cons. intros (H1 & H2 & H3 & H4 & H5 & H6 & H7 & _). unfold pymap_metadata_to_json.
  assert (forall d o k', k <> k' -> jget (jset_opt d k' o) k = jget d k) as Hne.
  { intros. rewrite jget_jset_opt. by rewrite decide_False. }
  rewrite Hne by done. destruct (ms_compass_angle m), (ms_compass_accuracy m); rewrite ?jget_ne by done; by rewrite !Hne by done.
Qed.
Lemma meta_round_trip m d : (forall k, k ∈ meta_keys -> jget d k = jget (pymap_metadata_to_json m) k) -> json_to_pymap_metadata d = Ok (kept_measurements m).
Proof.
  intros H. rewrite (meta_ext _ _ H). unfold json_to_pymap_metadata. destruct (meta_get m) as (-> & -> & -> & -> & -> & -> & ->).
  rewrite (jread_some as_int) by done. rewrite !(jread_some as_real) by done. rewrite !(jread_some as_vec) by (intros; split; [apply as_vec_jvec|done]).
  rewrite (jread_some as_str) by done. cbn [res_bind]. unfold compass_json, kept_measurements.
  destruct (ms_compass_angle m), (ms_compass_accuracy m); reflexivity.
Qed.

(** ** Loops *)
Lemma foldR_inv {A S} (f : S -> A -> res S) (Q : list A -> S -> Prop) l s0 :
  Q [] s0 -> (forall pre a post s, l = pre ++ a :: post -> Q pre s -> exists s', f s a = Ok s' /\ Q (pre ++ [a]) s') ->
  exists s', foldR f l s0 = Ok s' /\ Q l s'.
Proof.
  intros H0 Hstep. assert (forall post pre s, l = pre ++ post -> Q pre s -> exists s', foldR f post s = Ok s' /\ Q l s') as G; [|by apply (G l [])].
  induction post as [|a post IH]; intros pre s E HQ.
  - exists s. rewrite app_nil_r in E. by subst.
  - destruct (Hstep pre a post s E HQ) as (s' & E1 & H1). cbn [foldR]. rewrite E1. cbn [res_bind]. apply (IH (pre ++ [a])); [|done].
    by rewrite <- (assoc_L (++)).
Qed.
(** One dictionary entry per entry of a map, read in the order it was written *)
Lemma over_named {A S} (g : A -> jdict) (f : S -> string -> jdict -> res S) l s0 (Q : list (string * A) -> S -> Prop) :
  Q [] s0 -> (forall pre k a post s, l = pre ++ (k, a) :: post -> Q pre s -> exists s', f s k (g a) = Ok s' /\ Q (pre ++ [(k, a)]) s') ->
  exists s', over_items f (named g l) s0 = Ok s' /\ Q l s'.
Proof.
  intros H0 Hstep. destruct (foldR_inv (fun s ka => f s ka.1 (g ka.2)) Q l s0) as (s' & E & H); [done| |].
  - intros pre [k a] post s E HQ. by apply (Hstep pre k a post).
  - exists s'. split; [|done]. revert E. clear. unfold over_items, named. generalize s0. induction l as [|[k a] l IH]; intros s; [done|].
    cbn [List.map foldR as_obj res_bind fst snd]. destruct (f s k (g a)); cbn [res_bind]; [apply IH|done].
Qed.
Lemma enum_nodup {A} (m : gmap string A) l : l ≡ₚ map_to_list m -> NoDup l.*1 /\ list_to_map l = m.
Proof.
  intros H. assert (NoDup l.*1) as Hn by (rewrite H; apply NoDup_fst_map_to_list). split; [done|].
  rewrite (list_to_map_proper (M := gmap string) l (map_to_list m)); [apply list_to_map_to_list|done|done].
Qed.
Lemma nodup_split {A B} (l pre : list (A * B)) k a post : NoDup l.*1 -> l = pre ++ (k, a) :: post -> k ∉ pre.*1.
Proof. intros Hn ->. rewrite fmap_app in Hn. apply NoDup_app in Hn as (_ & H & _). intros Hin. apply (H _ Hin). cbn. set_solver. Qed.

Section Rec.
Context {O : Type}.
Notation rec := (@map camera similarity pose vec shot_data mesh O (R * R * R)).
Notation shot := (shot shot_data mesh O). Notation landmark := (landmark vec). Notation instance := (instance pose).

(** ** The sections *)
Ltac jkeys := repeat match goal with |- context [@decide (?a = ?b) _] => first [rewrite (decide_True (P := (a = b))) by reflexivity | rewrite (decide_False (P := (a = b))) by discriminate] end.
Lemma read_pose p : valid p -> set_translation (set_rotation pose0 (get_rotation p)) (get_translation p) = p.
Proof.
  intros Hp. apply valid_ext; [|done|exact (rotation_codec p Hp)|done]. apply valid_translation; [apply exp_rotation|done].
Qed.
Lemma bias_codec b : valid (sim_pose b) -> bias_from_json (bias_to_json b) = Ok b.
Proof.
  intros Hb. unfold bias_from_json, bias_to_json, jreq. cbn -[as_vec jvec]. jkeys. cbn -[as_vec jvec]. rewrite !as_vec_jvec. cbn.
  unfold similarity_of_vector, sim_translation. rewrite pose_codec by done. by destruct b.
Qed.
Lemma rig_camera_codec p : valid p -> rig_pose_from_json (rig_camera_to_json p) = Ok p.
Proof.
  intros Hp. unfold rig_pose_from_json, rig_camera_to_json, jreq. cbn -[as_vec jvec]. jkeys. cbn -[as_vec jvec]. rewrite !as_vec_jvec. cbn. f_equal. exact (read_pose p Hp).
Qed.
Lemma read_cameras l d : NoDup l.*1 -> Forall (fun kc => cam_id kc.2 = kc.1) l -> cameras_from_json d = Ok l ->
  over_items (fun m k d => try c := camera_from_json k d in Ok (rec_add_camera m c)) d (map_empty : rec)
  = Ok (Map (list_to_map l) ((fun _ => bias0) <$> list_to_map l) ∅ ∅ ∅ ∅ None).
Proof.
  intros Hn Hid Hd.
  destruct (foldR_inv (fun (m : rec) kc => Ok (rec_add_camera m kc.2)) (fun pre m => m = Map (list_to_map pre) ((fun _ => bias0) <$> list_to_map pre) ∅ ∅ ∅ ∅ None) l map_empty) as (m & E & ->).
  - cbn. unfold map_empty. by rewrite fmap_empty.
  - intros pre [k c] post m E ->. eexists. split; [reflexivity|]. pose proof (nodup_split _ _ _ _ _ Hn E) as Hk.
    assert (cam_id c = k) as Hc. { rewrite Forall_forall in Hid. apply (Hid (k, c)). rewrite E. set_solver. }
    unfold rec_add_camera. cbn. rewrite Hc. assert (list_to_map (M := gmap string camera) pre !! k = None) as Hno by by apply not_elem_of_list_to_map_1.
    rewrite Hno. unfold create_camera, emplace. cbn. rewrite lookup_fmap, Hno. cbn. rewrite list_to_map_snoc by done. by rewrite fmap_insert.
  - rewrite <- E. clear -Hd. revert l Hd. unfold over_items. generalize (map_empty : rec). induction d as [|[k j] d IH]; intros m l.
    + by intros [= <-].
    + unfold cameras_from_json. rewrite mapR_cons. cbn [foldR fst snd]. destruct (as_obj j) as [o|]; cbn [res_bind]; [|done].
      destruct (camera_from_json k o); cbn [res_bind]; [|done]. fold (cameras_from_json d). destruct (cameras_from_json d) as [l'|]; [|done]. cbn [res_bind].
      intros [= <-]. cbn [foldR res_bind snd]. by apply IH.
Qed.
Lemma read_biases l cams (b0 : gmap string similarity) : NoDup l.*1 -> Forall (fun kb => valid (sim_pose kb.2) /\ is_Some (b0 !! kb.1)) l ->
  over_items (fun m k d => try b := bias_from_json d in set_bias m k b) (named bias_to_json l) (Map cams b0 ∅ ∅ ∅ ∅ None : rec)
  = Ok (Map cams (list_to_map l ∪ b0) ∅ ∅ ∅ ∅ None).
Proof.
  intros Hn Hv.
  destruct (over_named bias_to_json (fun m k d => try b := bias_from_json d in set_bias m k b) l (Map cams b0 ∅ ∅ ∅ ∅ None : rec) (fun pre m => m = Map cams (list_to_map pre ∪ b0) ∅ ∅ ∅ ∅ None)) as (m & E & ->); [|..|exact E].
  - cbn. by rewrite (left_id_L ∅ (∪)).
  - intros pre k b post m E ->. pose proof (nodup_split _ _ _ _ _ Hn E) as Hk. rewrite Forall_forall in Hv. destruct (Hv (k, b)) as [Vb [b1 Hb1]]; [rewrite E; set_solver|].
    cbn in Vb, Hb1. rewrite bias_codec by done. cbn [res_bind].
    assert (list_to_map (M := gmap string similarity) pre !! k = None) as Hno by by apply not_elem_of_list_to_map_1.
    unfold set_bias. cbn. rewrite lookup_union_r by done. rewrite Hb1. eexists. split; [reflexivity|]. unfold set_biases. cbn. f_equal.
    rewrite list_to_map_snoc by done. by rewrite <- insert_union_l.
Qed.
Lemma read_rig_cameras l cams b : NoDup l.*1 -> Forall (fun kp => valid kp.2) l ->
  over_items rig_camera_from_json (named rig_camera_to_json l) (Map cams b ∅ ∅ ∅ ∅ None : rec) = Ok (Map cams b (list_to_map l) ∅ ∅ ∅ None).
Proof.
  intros Hn Hv.
  destruct (over_named rig_camera_to_json rig_camera_from_json l (Map cams b ∅ ∅ ∅ ∅ None : rec) (fun pre m => m = Map cams b (list_to_map pre) ∅ ∅ ∅ None)) as (m & E & ->); [|..|exact E]; [done|].
  intros pre k p post m E ->. pose proof (nodup_split _ _ _ _ _ Hn E) as Hk. rewrite Forall_forall in Hv. pose proof (Hv (k, p) ltac:(rewrite E; set_solver)) as Vp. cbn in Vp.
  assert (list_to_map (M := gmap string pose) pre !! k = None) as Hno by by apply not_elem_of_list_to_map_1.
  unfold rig_camera_from_json. rewrite rig_camera_codec by done. cbn [res_bind].
  unfold rec_add_rig_camera. cbn. rewrite Hno. unfold create_rig_camera. cbn. rewrite Hno. eexists. split; [reflexivity|]. unfold set_rig_cameras; cbn. f_equal.
  by rewrite list_to_map_snoc.
Qed.

Definition bare (i : instance) : instance := Instance (in_pose i) ∅.
Lemma instance_codec enumI (i : instance) : valid (in_pose i) -> rig_pose_from_json (rig_instance_to_json enumI i) = Ok (in_pose i).
Proof.
  intros Hp. unfold rig_pose_from_json, rig_instance_to_json, jreq. cbn -[as_vec jvec]. jkeys. cbn -[as_vec jvec]. rewrite !as_vec_jvec. cbn. f_equal. exact (read_pose _ Hp).
Qed.
Lemma read_instances enumI l cams b rcs : NoDup l.*1 -> Forall (fun kp => valid (in_pose kp.2)) l ->
  over_items rig_instance_from_json (named (rig_instance_to_json enumI) l) (Map cams b rcs ∅ ∅ ∅ None : rec) = Ok (Map cams b rcs (bare <$> list_to_map l) ∅ ∅ None).
Proof.
  intros Hn Hv.
  destruct (over_named (rig_instance_to_json enumI) rig_instance_from_json l (Map cams b rcs ∅ ∅ ∅ None : rec) (fun pre m => m = Map cams b rcs (bare <$> list_to_map pre) ∅ ∅ None)) as (m & E & ->); [|..|exact E].
  { cbn. by rewrite fmap_empty. }
  intros pre k i post m E ->. pose proof (nodup_split _ _ _ _ _ Hn E) as Hk. rewrite Forall_forall in Hv. pose proof (Hv (k, i) ltac:(rewrite E; set_solver)) as Vp. cbn in Vp.
  assert (list_to_map (M := gmap string instance) pre !! k = None) as Hno by by apply not_elem_of_list_to_map_1.
  unfold rig_instance_from_json. rewrite instance_codec by done. unfold rec_add_rig_instance, create_instance. cbn. rewrite !lookup_fmap, Hno. cbn.
  unfold instance_set_pose. cbn. rewrite lookup_insert. cbn. eexists. split; [reflexivity|]. unfold set_instances; cbn. f_equal.
  rewrite list_to_map_snoc by done. rewrite !insert_insert, fmap_insert. done.
Qed.
Lemma read_points l cams b rcs is ss : NoDup l.*1 ->
  over_items point_from_json (named point_to_json l) (Map cams b rcs is ss ∅ None : rec) = Ok (Map cams b rcs is ss (kept_point <$> list_to_map l) None).
Proof.
  intros Hn.
  destruct (over_named point_to_json point_from_json l (Map cams b rcs is ss ∅ None : rec) (fun pre m => m = Map cams b rcs is ss (kept_point <$> list_to_map pre) None)) as (m & E & ->); [|..|exact E].
  { cbn. by rewrite fmap_empty. }
  intros pre k x post m E ->. pose proof (nodup_split _ _ _ _ _ Hn E) as Hk.
  assert (list_to_map (M := gmap string landmark) pre !! k = None) as Hno by by apply not_elem_of_list_to_map_1.
  unfold point_from_json, point_to_json. destruct (lm_color x) as [[r g] bl] eqn:Ec. unfold jreq. cbn -[as_vec jvec as_color]. jkeys. cbn -[as_vec jvec as_color].
  rewrite as_vec_jvec. cbn -[as_color]. unfold create_landmark. cbn -[as_color]. rewrite lookup_fmap, Hno. cbn -[as_color]. unfold as_color. rewrite !py_int_IZR. cbn.
  unfold set_landmark. cbn. rewrite lookup_insert. eexists. split; [reflexivity|]. unfold set_landmarks; cbn. f_equal. rewrite list_to_map_snoc by done.
  rewrite insert_insert, fmap_insert. f_equal. unfold kept_point. by rewrite Ec.
Qed.

(** ** Shots *)
Variable m : rec.
Variable feature_of : O -> Z.
Hypothesis Hinv : inv feature_of m.
Hypothesis Hpv : poses_valid m.
Hypothesis Hsv : saveable m.
Definition restrict (D : gset shot_key) (i : instance) : instance := Instance (in_pose i) (filter (fun e => (e.2.1, e.1) ∈ D) (in_members i)).
Definition cur (D : gset shot_key) (ls : gmap string landmark) : rec :=
  Map (m_cameras m) (m_bias m) (m_rig_cameras m) (restrict D <$> m_instances m) (kept_shot <$> filter (fun e => e.1 ∈ D) (m_shots m)) ls None.

Lemma get_pose_eq k s : m_shots m !! k = Some s -> exists i rc,
  m_instances m !! sh_instance s = Some i /\ m_rig_cameras m !! sh_rig_camera s = Some rc /\ valid (in_pose i) /\ valid rc /\
  in_members i !! k.2 = Some (k.1, sh_rig_camera s) /\ get_pose m k = Some (compose rc (in_pose i)).
Proof.
  intros Hs. destruct (rig_shot _ (inv_rig _ _ Hinv) _ _ Hs) as (i & Hi & Hmem). destruct (rig_ptr _ (inv_rig _ _ Hinv) _ _ Hs) as [_ [rc Hrc]].
  destruct Hpv as [V1 V2]. exists i, rc. split_and!; eauto. unfold get_pose. rewrite Hs; cbn. rewrite Hi; cbn. rewrite Hrc; cbn. f_equal.
  unfold shot_get_pose. destruct (sv_rig_camera _ Hsv _ _ Hrc) as [->| ->]; [|done]. rewrite compose_0_l by eauto. by destruct (_ && _).
Qed.
Lemma create_step D ls k s : m_shots m !! k = Some s -> k ∉ D -> exists p,
  get_pose m k = Some p /\ valid p /\ exists m1,
  create_shot data0 mesh0 compose inverse (cur D ls) k (sh_camera s) (sh_rig_camera s) (sh_instance s) (Some p) = Ok m1 /\
  m1 = Map (m_cameras m) (m_bias m) (m_rig_cameras m) (restrict ({[k]} ∪ D) <$> m_instances m)
           (<[k := Shot (sh_camera s) (sh_rig_camera s) (sh_instance s) data0 mesh0 ∅ ∅]> (kept_shot <$> filter (fun e => e.1 ∈ D) (m_shots m))) ls None.
Proof.
  intros Hs Hk. destruct (get_pose_eq k s Hs) as (i & rc & Hi & Hrc & Vi & Vrc & Hmem & Hp). exists (compose rc (in_pose i)).
  split; [done|]. split; [by apply valid_compose|]. eexists. split; [|reflexivity].
  unfold create_shot. cbn. rewrite lookup_fmap, map_filter_lookup_None_2 by (right; intros ?? []%Hk). cbn.
  destruct (rig_ptr _ (inv_rig _ _ Hinv) _ _ Hs) as [[c Hc] _]. rewrite Hc, lookup_fmap, Hi, Hrc. cbn.
  unfold instance_add_shot. rewrite decide_True.
  2: { intros s' [b' rc'] Hin%map_filter_lookup_Some. cbn in Hin. destruct Hin as [Hin Hd]. cbn. intros ->. rewrite (surjective_pairing k) in Hmem. 
       pose proof (rig_uniq _ (inv_rig _ _ Hinv) _ _ _ _ _ _ _ Hi Hmem Hin) as <-. rewrite Hmem in Hin. injection Hin as <-. destruct k. done. }
  cbn. unfold instance_update_pose. cbn. rewrite lookup_insert. cbn. rewrite Hrc. cbn. rewrite cancel_l by done. unfold set_shots, set_instances; cbn. f_equal. f_equal.
  apply map_eq. intros id. destruct (decide (id = sh_instance s)) as [->|Hne].
  - rewrite lookup_insert, lookup_fmap, Hi. cbn. unfold restrict. do 2 f_equal. apply map_eq. intros s'.
    destruct (decide (s' = k.2)) as [->|Hs'].
    + rewrite lookup_insert. symmetry. apply map_filter_lookup_Some. split; [done|]. cbn. destruct k; set_solver.
    + rewrite lookup_insert_ne by done. apply option_eq. intros [b' rc']. rewrite !map_filter_lookup_Some. cbn.
      split; [intros [? ?]; split; [done|set_solver]|]. intros [? Hu]. split; [done|]. apply elem_of_union in Hu as [<-%elem_of_singleton|?]; [|done]. done.
  - rewrite lookup_insert_ne by done. rewrite !lookup_fmap. destruct (m_instances m !! id) as [j|] eqn:Ej; [|done]. cbn. unfold restrict. do 2 f_equal.
    apply map_eq. intros s'. apply option_eq. intros [b' rc']. rewrite !map_filter_lookup_Some. cbn. split; [intros [? ?]; split; [done|set_solver]|].
    intros [Hin Hu]. split; [done|]. apply elem_of_union in Hu as [<-%elem_of_singleton|?]; [|done]. exfalso.
    destruct (rig_inst _ (inv_rig _ _ Hinv) _ _ _ _ _ Ej Hin) as (x & Hx & Hxi & _). rewrite Hs in Hx. congruence.
Qed.

Lemma shot_dict k s : m_shots m !! k = Some s -> exists p d,
  get_pose m k = Some p /\ shot_to_json m k s = Ok d /\
  jget d "rotation" = Some (jvec (get_rotation p)) /\ jget d "translation" = Some (jvec (get_translation p)) /\ jget d "camera" = Some (JStr (sh_camera s)) /\
  jget d "vertices" = Some (jrows (me_vertices (sh_mesh s))) /\ jget d "faces" = Some (jrows (me_faces (sh_mesh s))) /\
  jget d "scale" = Some (JNum (sd_scale (sh_data s))) /\ jget d "covariance" = Some (jrows (sd_covariance (sh_data s))) /\
  jget d "merge_cc" = Some (JInt (sd_merge_cc (sh_data s))) /\
  forall x, x ∈ meta_keys -> jget d x = jget (pymap_metadata_to_json (sd_metadata (sh_data s))) x.
Proof.
  intros Hs. destruct (get_pose_eq k s Hs) as (i & rc & Hi & Hrc & Vi & Vrc & Hmem & Hp).
  destruct (rig_ptr _ (inv_rig _ _ Hinv) _ _ Hs) as [[c Hc] _]. destruct (sv_camera _ Hsv _ _ Hc) as (Hid & _).
  unfold shot_to_json. rewrite Hp, Hc. cbn [of_option res_bind]. rewrite Hid. eexists _, _. split; [reflexivity|]. split; [reflexivity|].
  assert (forall k, k ∉ meta_keys -> forall d, jget (jupdate d (pymap_metadata_to_json (sd_metadata (sh_data s)))) k = jget d k) as Hup.
  { intros k' Hk' d. rewrite jget_jupdate by apply meta_nodup. by rewrite meta_other. }
  assert (forall k, bool_decide (k ∈ meta_keys) = false -> k ∉ meta_keys) as Hb by (intros ? ?%bool_decide_eq_false; done).
  split_and!; repeat first [rewrite jget_eq; reflexivity | rewrite jget_ne by discriminate].
  1-3: rewrite Hup by (apply Hb; vm_compute; reflexivity); cbn; jkeys; reflexivity.
  intros x Hx. repeat (rewrite jget_ne by (intros <-; revert Hx; apply Hb; vm_compute; reflexivity)).
  rewrite jget_jupdate by apply meta_nodup. destruct (jget (pymap_metadata_to_json _) x) eqn:E; [done|].
  cbn. rewrite !decide_False; [done|..]; intros <-; revert Hx; apply Hb; vm_compute; reflexivity.
Qed.
Lemma attributes_step D ls k s d :
  m_shots m !! k = Some s ->
  jget d "vertices" = Some (jrows (me_vertices (sh_mesh s))) -> jget d "faces" = Some (jrows (me_faces (sh_mesh s))) ->
  jget d "scale" = Some (JNum (sd_scale (sh_data s))) -> jget d "covariance" = Some (jrows (sd_covariance (sh_data s))) ->
  jget d "merge_cc" = Some (JInt (sd_merge_cc (sh_data s))) ->
  (forall x, x ∈ meta_keys -> jget d x = jget (pymap_metadata_to_json (sd_metadata (sh_data s))) x) ->
  assign_shot_attributes (Map (m_cameras m) (m_bias m) (m_rig_cameras m) (restrict ({[k]} ∪ D) <$> m_instances m)
           (<[k := Shot (sh_camera s) (sh_rig_camera s) (sh_instance s) data0 mesh0 ∅ ∅]> (kept_shot <$> filter (fun e => e.1 ∈ D) (m_shots m))) ls None) k d
  = Ok (cur ({[k]} ∪ D) ls).
Proof.
  intros Hs Hv Hf Hsc Hcov Hcc Hmeta. unfold assign_shot_attributes. rewrite (meta_round_trip _ _ Hmeta), Hsc, Hcov, Hcc, Hv, Hf. cbn [res_bind as_real as_int].
  rewrite !as_rows_jrows. cbn [res_bind]. unfold assign_shot. cbn. rewrite lookup_insert. cbn. unfold set_mesh. cbn. rewrite lookup_insert. cbn. rewrite insert_insert.
  unfold set_shots, cur. cbn. f_equal. f_equal. rewrite !insert_insert. apply map_eq. intros k'. destruct (decide (k' = k)) as [->|Hne].
  - rewrite lookup_insert, lookup_fmap. symmetry. rewrite (map_filter_lookup_Some_2 _ _ _ s); [|done|cbn; set_solver]. cbn. unfold kept_shot.
    by destruct (sh_mesh s).
  - rewrite lookup_insert_ne by done. rewrite !lookup_fmap. f_equal. apply option_eq. intros x. rewrite !map_filter_lookup_Some. cbn. set_solver.
Qed.
Lemma shot_step rs D ls k s d : m_shots m !! k = Some s -> shot_to_json m k s = Ok d -> k ∉ D ->
  (k.1 = false -> rs !! k.2 = Some (sh_instance s, sh_rig_camera s)) ->
  shot_from_json rs k.1 (cur D ls) k.2 d = Ok (cur ({[k]} ∪ D) ls).
Proof.
  intros Hs Hd Hk Hrs. destruct (shot_dict k s Hs) as (p & d' & Hp & Hd' & J1 & J2 & J3 & J4 & J5 & J6 & J7 & J8 & J9).
  rewrite Hd in Hd'. injection Hd' as <-. destruct (create_step D ls k s Hs Hk) as (p' & Hp' & Vp & m1 & Ec & ->).
  rewrite Hp in Hp'. injection Hp' as <-. unfold shot_from_json, pose_from_json, jreq. rewrite J1, J2, J3. cbn [of_option res_bind].
  rewrite !as_vec_jvec. cbn [res_bind as_str]. rewrite read_pose by done.
  destruct (get_pose_eq k s Hs) as (i & rc & Hi & Hrc & _).
  destruct k as [b id]. cbn [fst snd] in *. destruct b; cbn [fst snd].
  - destruct (sv_pano _ Hsv _ _ Hs) as [Hsi Hsr]. unfold rec_create_pano_shot, rec_add_rig_camera. cbn [m_rig_cameras cur].
    unfold PANOSHOT_RIG_PREFIX. rewrite <- Hsi, <- Hsr, Hrc. cbn [res_bind m_instances cur]. rewrite lookup_fmap, Hi. cbn [fmap option_fmap option_map res_bind].
    rewrite Ec. cbn [res_bind]. by apply attributes_step.
  - rewrite (Hrs eq_refl). cbn [fmap option_fmap option_map fst snd]. destruct (sv_names _ Hsv _ _ Hs) as [N1 N2].
    unfold rec_create_shot, truthy. rewrite !decide_False by done. cbn [from_option Datatypes.id res_bind m_rig_cameras cur]. rewrite Hrc. cbn [of_option res_bind m_instances cur].
    rewrite lookup_fmap, Hi. cbn [fmap option_fmap option_map of_option res_bind]. rewrite Ec. cbn [res_bind]. by apply attributes_step.
Qed.

Notation write_shot := (fun e => try d := shot_to_json m e.1 e.2 in Ok (e.1.2, JObj d)).
Lemma shots_loop (b : bool) (l : list (shot_key * shot)) :
  (forall e, e ∈ l -> m_shots m !! e.1 = Some e.2 /\ e.1.1 = b) -> NoDup l.*1 ->
  exists ds, mapR write_shot l = Ok ds /\ ds.*1 = (l.*1).*2 /\
    forall rs D ls, (forall e, e ∈ l -> e.1 ∉ D /\ (b = false -> rs !! e.1.2 = Some (sh_instance e.2, sh_rig_camera e.2))) ->
      over_items (shot_from_json rs b) ds (cur D ls) = Ok (cur (list_to_set l.*1 ∪ D) ls).
Proof.
  induction l as [|[k s] l IH]; intros Hl Hn.
  - exists []. split_and!; [done..|]. intros rs D ls _. cbn. by rewrite (left_id_L ∅ (∪)).
  - cbn in Hn. apply NoDup_cons in Hn as [Hk Hn]. destruct IH as (ds & E1 & E2 & E3); [intros e He; apply Hl; set_solver|done|].
    destruct (Hl (k, s)) as [Hs Hb]; [set_solver|]. cbn [fst snd] in Hs, Hb. destruct (shot_dict k s Hs) as (p & d & _ & Hd & _).
    exists ((k.2, JObj d) :: ds). rewrite mapR_cons. cbn [fst snd]. rewrite Hd. cbn [res_bind]. rewrite E1. cbn [res_bind]. split; [done|]. split; [cbn; by rewrite E2|].
    intros rs D ls HD. unfold over_items. cbn [foldR fst snd as_obj res_bind].
    destruct (HD (k, s)) as [HkD Hrs]; [set_solver|]. cbn [fst snd] in HkD, Hrs.
    subst b. rewrite (shot_step rs D ls k s d Hs Hd HkD Hrs). cbn [res_bind]. unfold over_items in E3. rewrite E3.
    + f_equal. f_equal. cbn. rewrite (assoc_L (∪)), (comm_L (∪) {[k]}). done.
    + intros e He. destruct (HD e) as [H1 H2]; [set_solver|]. split; [|done]. rewrite not_elem_of_union, not_elem_of_singleton. split; [|done].
      intros Ee. apply Hk. rewrite <- Ee. apply elem_of_list_fmap. eauto.
Qed.

(** The rig of each shot *)
Lemma foldl_insert_lookup (panos : list string) (L : list (string * (string * string))) id v :
  (id, v) ∈ L -> id ∉ panos -> (forall v', (id, v') ∈ L -> v' = v) ->
  foldl (fun (acc : gmap string (string * string)) kv => if decide (kv.1 ∈ panos) then acc else <[kv.1 := kv.2]> acc) ∅ L !! id = Some v.
Proof.
  intros Hin Hp Hu. induction L as [|[k x] L IH] using rev_ind; [by apply elem_of_nil in Hin|].
  rewrite foldl_app. cbn [foldl fst snd]. destruct (decide (k = id)) as [->|Hne].
  - rewrite decide_False by done. rewrite lookup_insert. f_equal. apply Hu. set_solver.
  - assert ((id, v) ∈ L) by (apply elem_of_app in Hin as [?|Hin]; [done|]; apply elem_of_list_singleton in Hin; congruence).
    destruct (decide (k ∈ panos)); [|rewrite lookup_insert_ne by done]; (apply IH; [done|intros; apply Hu; set_solver]).
Qed.
Variable enumI : gmap string (bool * string) -> list (string * (bool * string)).
Hypothesis HI : enumerates enumI.
Definition members_of (e : string * instance) : list (string * (string * string)) := List.map (fun x => (x.1, (e.1, x.2.2))) (enumI (in_members e.2)).
Lemma instance_members_eq k i : instance_members k (rig_instance_to_json enumI i) = Ok (members_of (k, i)).
Proof.
  unfold instance_members, rig_instance_to_json, jreq. cbn -[jvec]. jkeys. cbn -[jvec]. unfold members_of. cbn. induction (enumI (in_members i)) as [|[x [b c]] l IH]; [done|].
  cbn [List.map]. rewrite mapR_cons. cbn [fst snd as_str res_bind]. rewrite IH. done.
Qed.
Lemma members_loop l :
  mapR (fun kv => try o := as_obj kv.2 in instance_members kv.1 o) (named (rig_instance_to_json enumI) l) = Ok (List.map members_of l).
Proof.
  induction l as [|[k i] l IH]; [done|]. change (named _ ((k, i) :: l)) with ((k, JObj (rig_instance_to_json enumI i)) :: named (rig_instance_to_json enumI) l).
  rewrite mapR_cons. cbn [fst snd as_obj res_bind]. rewrite instance_members_eq. cbn [res_bind]. rewrite IH. done.
Qed.
Lemma rig_shots_lookup (panos : list string) l :
  l ≡ₚ map_to_list (m_instances m) -> (forall id, id ∈ panos <-> is_Some (m_shots m !! (true, id))) ->
  forall id s, m_shots m !! (false, id) = Some s ->
  foldl (fun (acc : gmap string (string * string)) kv => if decide (kv.1 ∈ panos) then acc else <[kv.1 := kv.2]> acc) ∅ (concat (List.map members_of l)) !! id
  = Some (sh_instance s, sh_rig_camera s).
Proof.
  intros Hl Hp id s Hs.
  assert (forall v, (id, v) ∈ concat (List.map members_of l) <-> exists k i b, m_instances m !! k = Some i /\ in_members i !! id = Some (b, v.2) /\ v.1 = k) as Hmem.
  { intros v. rewrite elem_of_list_In, in_concat. split.
    - intros (x & Hx & Hin). apply in_map_iff in Hx as ([k i] & <- & Hki). apply elem_of_list_In in Hki. rewrite Hl, elem_of_map_to_list in Hki.
      unfold members_of in Hin. apply in_map_iff in Hin as ([x [b c]] & [= <- <-] & Hx). apply elem_of_list_In in Hx. cbn in Hx. rewrite (HI _), elem_of_map_to_list in Hx.
      exists k, i, b. done.
    - destruct v as [v1 v2]. cbn. intros (k & i & b & Hi & Hb & ->). exists (members_of (k, i)). split.
      + apply in_map_iff. exists (k, i). split; [done|]. apply elem_of_list_In. by rewrite Hl, elem_of_map_to_list.
      + unfold members_of. apply in_map_iff. exists (id, (b, v2)). split; [done|]. apply elem_of_list_In. cbn. by rewrite (HI _), elem_of_map_to_list. }
  destruct (get_pose_eq _ _ Hs) as (i & rc & Hi & _ & _ & _ & Hm & _). cbn in Hm.
  apply foldl_insert_lookup.
  - apply Hmem. eauto 10.
  - rewrite Hp. destruct (sv_disjoint _ Hsv id) as [H|H]; [congruence|]. rewrite H. by intros [??].
  - intros [v1 v2]. rewrite Hmem. cbn. intros (k & j & b & Hj & Hjm & ->). destruct (rig_inst _ (inv_rig _ _ Hinv) _ _ _ _ _ Hj Hjm) as (x & Hx & <- & <-).
    destruct b; [|congruence]. destruct (sv_disjoint _ Hsv id); congruence.
Qed.

Lemma cur_empty ls : cur ∅ ls = Map (m_cameras m) (m_bias m) (m_rig_cameras m) (bare <$> m_instances m) ∅ ls None.
Proof.
  unfold cur. f_equal.
  - apply map_fmap_ext. intros k i _. unfold restrict, bare. f_equal. apply map_filter_empty_iff. intros s e _ H. cbn in H. set_solver.
  - apply fmap_empty_iff. apply map_filter_empty_iff. intros s e _ H. cbn in H. set_solver.
Qed.
Lemma cur_full D ls : (forall k s, m_shots m !! k = Some s -> k ∈ D) -> cur D ls = Map (m_cameras m) (m_bias m) (m_rig_cameras m) (m_instances m) (kept_shot <$> m_shots m) ls None.
Proof.
  intros HD. unfold cur. f_equal.
  - rewrite <- (map_fmap_id (m_instances m)) at 2. apply map_fmap_ext. intros k i Hi. cbn. destruct i as [p ms] eqn:Ei. unfold restrict. cbn. f_equal.
    apply map_filter_id. intros s [b c] Hs. cbn. assert (in_members i !! s = Some (b, c)) as Hm by (by subst). rewrite <- Ei in Hi.
    destruct (rig_inst _ (inv_rig _ _ Hinv) _ _ _ _ _ Hi Hm) as (x & Hx & _). eauto.
  - f_equal. apply map_filter_id. intros k s Hk. cbn. eauto.
Qed.

Variable enumL : gmap string landmark -> list (string * landmark).
Variable enumS : gmap shot_key shot -> list (shot_key * shot).
Variable enumC : gmap string camera -> list (string * camera).
Variable enumB : gmap string similarity -> list (string * similarity).
Variable enumP : gmap string pose -> list (string * pose).
Variable enumN : gmap string instance -> list (string * instance).
Hypothesis HL : enumerates enumL. Hypothesis HS : enumerates enumS. Hypothesis HC : enumerates enumC.
Hypothesis HB : enumerates enumB. Hypothesis HP : enumerates enumP. Hypothesis HN : enumerates enumN.
Lemma in_shots b e : e ∈ filter (fun e : shot_key * shot => e.1.1 = b) (enumS (m_shots m)) <-> m_shots m !! e.1 = Some e.2 /\ e.1.1 = b.
Proof. rewrite elem_of_list_filter, (HS _). destruct e as [k s]. rewrite elem_of_map_to_list. cbn. tauto. Qed.
Lemma nodup_shots b : NoDup (filter (fun e : shot_key * shot => e.1.1 = b) (enumS (m_shots m))).*1.
Proof.
  assert (NoDup (enumS (m_shots m)).*1) as H by (rewrite (HS _); apply NoDup_fst_map_to_list). revert H.
  induction (enumS (m_shots m)) as [|e l IH]; [done|]. rewrite fmap_cons. intros [H1 H2]%NoDup_cons. destruct (decide (e.1.1 = b)).
  - rewrite filter_cons_True by done. rewrite fmap_cons. apply NoDup_cons. split; [|by apply IH]. intros (x & Ex & [_ Hx]%elem_of_list_filter)%elem_of_list_fmap.
    apply H1. apply elem_of_list_fmap. eauto.
  - rewrite filter_cons_False by done. by apply IH.
Qed.
Lemma round_trip : exists d, reconstruction_to_json enumL enumS enumI enumC enumB enumP enumN m = Ok d /\
  reconstruction_from_json d =
    Ok (Map (m_cameras m) (m_bias m) (m_rig_cameras m) (m_instances m) (kept_shot <$> m_shots m) (kept_point <$> m_landmarks m)
            (Some (default (0%R, 0%R, 0%R) (m_reference m)))).
Proof.
  destruct (enum_nodup _ _ (HC (m_cameras m))) as [NC LC]. destruct (enum_nodup _ _ (HB (m_bias m))) as [NB LB].
  destruct (enum_nodup _ _ (HP (m_rig_cameras m))) as [NP LP]. destruct (enum_nodup _ _ (HN (m_instances m))) as [NN LN].
  destruct (enum_nodup _ _ (HL (m_landmarks m))) as [NL LL].
  assert (Forall (fun kc => cam_id kc.2 = kc.1 /\ made kc.2 /\ recoverable kc.2) (enumC (m_cameras m))) as FC.
  { apply Forall_forall. intros [k c]. rewrite (HC _), elem_of_map_to_list. intros ?%(sv_camera _ Hsv). done. }
  destruct (cameras_loop (enumC (m_cameras m)) []) as (cams & EC & RC & _).
  { eapply Forall_impl; [exact FC|]. intros x (? & ? & ?). split_and!; [by apply made_shape|done..]. } { done. }
  destruct (shots_loop false (filter (fun e => e.1.1 = false) (enumS (m_shots m)))) as (shots & ES & KS & RS).
  { intros e He. by apply in_shots. } { apply nodup_shots. }
  destruct (shots_loop true (filter (fun e => e.1.1 = true) (enumS (m_shots m)))) as (panos & EP & KP & RP).
  { intros e He. by apply in_shots. } { apply nodup_shots. }
  unfold reconstruction_to_json, cameras_to_json, shots_to_json. rewrite EC, ES, EP. cbn [res_bind app].
  destruct (default (0%R, 0%R, 0%R) (m_reference m)) as [[lat lon] alt]. eexists. split; [reflexivity|].
  set (rcs := JObj (named rig_camera_to_json _)). set (ris := JObj (named (rig_instance_to_json enumI) _)).
  set (points := JObj (named point_to_json _)). set (biases := JObj (named bias_to_json _)). set (lla := JObj [("latitude", _); _; _]).
  match goal with |- reconstruction_from_json ?d = _ => set (doc := d) end.
  assert (jget doc "cameras" = Some (JObj cams)) as G1 by reflexivity.
  assert (jget doc "biases" = Some biases) as G2 by reflexivity.
  assert (jget doc "shots" = Some (JObj shots)) as G3 by reflexivity.
  assert (jget doc "points" = Some points) as G4 by reflexivity.
  assert (jget doc "rig_cameras" = if decide (size (m_rig_cameras m) = 0) then None else Some rcs) as G5.
  { subst doc. cbn. jkeys. rewrite !jget_app. destruct (decide (size (m_rig_cameras m) = 0)); cbn; jkeys; [|done]. destruct (decide _); cbn; jkeys; by destruct panos. }
  assert (jget doc "rig_instances" = if decide (size (m_instances m) = 0) then None else Some ris) as G6.
  { subst doc. cbn. jkeys. rewrite !jget_app. destruct (decide (size (m_rig_cameras m) = 0)); cbn; jkeys; (destruct (decide (size (m_instances m) = 0)); cbn; jkeys; [by destruct panos|done]). }
  assert (jget doc "pano_shots" = match panos with [] => None | _ => Some (JObj panos) end) as G7.
  { subst doc. cbn. jkeys. rewrite !jget_app. destruct (decide (size (m_rig_cameras m) = 0)); cbn; jkeys; (destruct (decide (size (m_instances m) = 0)); cbn; jkeys; by destruct panos). }
  assert (jget doc "reference_lla" = Some lla) as G8.
  { subst doc. cbn. jkeys. rewrite !jget_app. destruct (decide (size (m_rig_cameras m) = 0)); cbn; jkeys; (destruct (decide (size (m_instances m) = 0)); cbn; jkeys; by destruct panos). }
  clearbody doc. unfold reconstruction_from_json, jreq. rewrite G1. cbn [of_option res_bind as_obj].
  rewrite (read_cameras _ _ NC); [|eapply Forall_impl; [exact FC|]; by intros x (? & _)|exact RC]. cbn [res_bind]. rewrite LC.
  unfold section at 1. rewrite G2. unfold biases. cbn [as_obj res_bind]. rewrite read_biases; [|done|].
  2: { apply Forall_forall. intros [k b]. rewrite (HB _), elem_of_map_to_list. intros Hb. cbn. split; [by eapply (sv_bias _ Hsv)|].
       rewrite lookup_fmap. apply fmap_is_Some. apply (rig_bias _ (inv_rig _ _ Hinv)). eauto. }
  cbn [res_bind]. rewrite LB. assert (m_bias m ∪ ((fun _ => bias0) <$> m_cameras m) = m_bias m) as ->.
  { apply map_eq. intros k. apply option_eq. intros b. rewrite lookup_union_Some_raw, lookup_fmap. split; [|by left]. intros [?|[Hn Hc]]; [done|].
    destruct (m_cameras m !! k) eqn:Ec; [|done]. assert (is_Some (m_bias m !! k)) as [? ?]; [|congruence]. apply (rig_bias _ (inv_rig _ _ Hinv)). eauto. }
  assert (section doc "rig_cameras" rig_camera_from_json (Map (m_cameras m) (m_bias m) ∅ ∅ ∅ ∅ None : rec) = Ok (Map (m_cameras m) (m_bias m) (m_rig_cameras m) ∅ ∅ ∅ None)) as ->.
  { unfold section. rewrite G5. destruct (decide (size (m_rig_cameras m) = 0)) as [E0|].
    - apply map_size_empty_inv in E0. by rewrite E0.
    - unfold rcs. cbn [as_obj res_bind]. rewrite read_rig_cameras; [by rewrite LP|done|]. apply Forall_forall. intros [k p]. rewrite (HP _), elem_of_map_to_list. apply Hpv. }
  cbn [res_bind].
  assert (section doc "rig_instances" rig_instance_from_json (Map (m_cameras m) (m_bias m) (m_rig_cameras m) ∅ ∅ ∅ None : rec) = Ok (Map (m_cameras m) (m_bias m) (m_rig_cameras m) (bare <$> m_instances m) ∅ ∅ None)) as ->.
  { unfold section. rewrite G6. destruct (decide (size (m_instances m) = 0)) as [E0|].
    - apply map_size_empty_inv in E0. rewrite E0. by rewrite fmap_empty.
    - unfold ris. cbn [as_obj res_bind]. rewrite read_instances; [by rewrite LN|done|]. apply Forall_forall. intros [k p]. rewrite (HN _), elem_of_map_to_list. apply Hpv. }
  cbn [res_bind].
  assert (exists rs, rig_instance_camera_per_shot doc = Ok rs /\ forall id s, m_shots m !! (false, id) = Some s -> rs !! id = Some (sh_instance s, sh_rig_camera s)) as (rs & -> & Hrs).
  { unfold rig_instance_camera_per_shot. rewrite G6, G7.
    assert (match (match panos with [] => None | _ => Some (JObj panos) end) with Some j => try d := as_obj j in Ok d.*1 | None => Ok [] end = Ok panos.*1) as -> by by destruct panos.
    cbn [res_bind]. destruct (decide (size (m_instances m) = 0)) as [E0|].
    - eexists. split; [reflexivity|]. intros id s Hs. apply map_size_empty_inv in E0. destruct (get_pose_eq _ _ Hs) as (i & _ & Hi & _). by rewrite E0 in Hi.
    - unfold ris. cbn [as_obj res_bind]. rewrite members_loop. cbn [res_bind]. eexists. split; [reflexivity|]. intros id s Hs. apply rig_shots_lookup; [apply HN| |done].
      intros x. rewrite KP, elem_of_list_fmap. split.
      + intros ([b y] & -> & Hy). apply elem_of_list_fmap in Hy as ([k' s'] & Ek & Hin). apply in_shots in Hin as [H1 H2]. cbn in Ek, H1, H2. subst. cbn. cbn in H2. subst. eauto.
      + intros [s' Hs']. exists (true, x). split; [done|]. apply elem_of_list_fmap. exists (true, x, s'). split; [done|]. by apply in_shots. }
  cbn [res_bind]. rewrite G3. cbn [of_option res_bind as_obj]. rewrite <- cur_empty. rewrite RS.
  2: { intros e He. split; [set_solver|]. intros _. apply in_shots in He as [H1 H2]. apply Hrs. rewrite <- H1. f_equal. destruct e as [[??]?]. cbn in *. by subst. }
  cbn [res_bind]. unfold section at 1. rewrite G4. unfold points. cbn [as_obj res_bind]. unfold cur at 1. rewrite read_points by done. cbn [res_bind]. rewrite LL.
  fold (cur (list_to_set (filter (fun e : shot_key * shot => e.1.1 = false) (enumS (m_shots m))).*1 ∪ ∅) (kept_point <$> m_landmarks m)).
  set (D1 := list_to_set _ ∪ ∅).
  assert (section doc "pano_shots" (shot_from_json rs true) (cur D1 (kept_point <$> m_landmarks m)) = over_items (shot_from_json rs true) panos (cur D1 (kept_point <$> m_landmarks m))) as ->.
  { unfold section. rewrite G7. by destruct panos. }
  rewrite RP. 2: { intros e He. split; [|done]. apply in_shots in He as [H1 H2]. unfold D1. rewrite (right_id_L ∅ (∪)), elem_of_list_to_set, elem_of_list_fmap.
    intros (x & Ex & Hx). apply in_shots in Hx as [H3 H4]. rewrite <- Ex in H4. congruence. }
  cbn [res_bind]. rewrite cur_full. 2: { intros k s Hk. unfold D1. rewrite (right_id_L ∅ (∪)), elem_of_union, !elem_of_list_to_set, !elem_of_list_fmap.
    destruct k as [b x]. destruct b; [left|right]; (eexists (_, s); split; [reflexivity|]; apply in_shots; done). }
  unfold reference_from_json. rewrite G8. unfold lla. cbn [as_obj res_bind]. unfold jreal, jreq. cbn. jkeys. cbn. done.
Qed.
End Rec.
