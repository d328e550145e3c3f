(** C26, C27, C40: camera codecs and camera parameters. *)
From Coq Require Import Reals Lra.
From stdpp Require Import prelude strings.
From Verif Require Import Base JsonModel CamModel CamSpec CamProofs.
Local Close Scope R_scope.

(** C26. Writing any camera a program can hold and reading it under its id gives back the same camera: model, parameters,
    size. The only condition: the models with two focal lengths need a non-zero focal length. *)
Theorem C26_camera_json_round_trip c : made c -> recoverable c ->
  exists d, camera_to_json c = Ok d /\ camera_from_json (cam_id c) d = Ok c.
Proof. intros H. by apply json_round_trip, made_shape. Qed.

(** Every parameter is in the file under its documented name, and nothing else is. *)
Theorem C26_file_contents c d : made c -> camera_to_json c = Ok d ->
  (forall p k v, file_name (cam_type c) p = Some k -> get_param c p = Ok v -> jget d k = Some (JNum v)) /\
  (forall f a, get_param c Focal = Ok f -> get_param c AspectRatio = Ok a -> jget d "focal_y" = Some (JNum (f * a)%R)) /\
  jget d "projection_type" = Some (JStr (projection_string (cam_type c))) /\
  jget d "width" = Some (JInt (cam_width c)) /\ jget d "height" = Some (JInt (cam_height c)) /\
  (forall k, k ∈ d.*1 -> k ∈ ["projection_type"; "width"; "height"; "focal_y"] \/
     exists p v, file_name (cam_type c) p = Some k /\ get_param c p = Ok v) /\
  NoDup d.*1.
Proof.
  intros Hm%made_shape H. shape_values c Hm; injection H as <-; (split; [|split; [|split; [done|split; [done|split; [done|split]]]]]).
  all: try (intros p k v; destruct p; intros [= <-]; cbv -[Rmult IZR]; first [done|congruence]).
  all: try (intros f a; cbv -[Rmult IZR]; first [done|congruence]).
  all: try (apply (bool_decide_unpack _); vm_compute; exact I).
  all: intros k Hk; cbn in Hk; repeat (apply elem_of_cons in Hk as [->|Hk]);
    try (by apply elem_of_nil in Hk); try (left; apply (bool_decide_unpack _); vm_compute; exact I); right.
  all: match goal with |- exists p v, file_name _ p = Some ?s /\ _ =>
         match s with
         | "k1" => exists K1 | "k2" => exists K2 | "k3" => exists K3 | "k4" => exists K4 | "k5" => exists K5 | "k6" => exists K6
         | "p1" => exists P1 | "p2" => exists P2 | "s0" => exists S0 | "s1" => exists S1 | "s2" => exists S2 | "s3" => exists S3
         | "c_x" => exists Cx | "c_y" => exists Cy | "transition" => exists Transition | _ => exists Focal end end;
    eexists; split; reflexivity.
Qed.

(** Cameras read from any file can be written and read again, without any condition: what is read under [key] has that id,
    and is a fixed point. *)
Theorem C26_read_cameras_round_trip key d c : camera_from_json key d = Ok c ->
  cam_id c = key /\ exists d', camera_to_json c = Ok d' /\ camera_from_json key d' = Ok c.
Proof. intros H. destruct (from_json_good _ _ _ H) as [[Hm Hr] <-]. split; [done|]. by apply C26_camera_json_round_trip. Qed.

(** A dictionary of cameras keyed by their ids (camera_models.json) comes back with the same keys and cameras, in order. *)
Theorem C26_cameras_json_round_trip l :
  NoDup l.*1 -> Forall (fun kc => made kc.2 /\ recoverable kc.2 /\ cam_id kc.2 = kc.1) l ->
  exists d, cameras_to_json l = Ok d /\ d.*1 = l.*1 /\ cameras_from_json d = Ok l.
Proof.
  intros Hnd Hl. destruct (cameras_loop l []) as (d & H1 & H2 & H3); [|done|by exists d].
  eapply Forall_impl; [exact Hl|]. intros [k c] (H & ? & ?). split; [by apply made_shape|done].
Qed.

(** In an old or hand written file, a distortion coefficient or principal point coordinate that is absent means 0.0. *)
Theorem C26_absent_coefficients_are_zero key d k :
  k ∈ ["k1"; "k2"; "k3"; "k4"; "k5"; "k6"; "p1"; "p2"; "s0"; "s1"; "s2"; "s3"; "c_x"; "c_y"] -> jget d k = None ->
  camera_from_json key (d ++ [(k, JNum 0%R)]) = camera_from_json key d.
Proof. apply optional_zero. Qed.

(** The condition is needed: with a zero focal length the file is written, but reading it fails. *)
Theorem C26_zero_focal_refuted : exists c d, made c /\ camera_to_json c = Ok d /\ camera_from_json (cam_id c) d = Err ZeroDivisionError.
Proof.
  exists (create_simple_radial 0 1 (0, 0) 0)%R. eexists. split; [apply made_simple_radial|]. split; [reflexivity|].
  cbv -[py_div Rmult Rdiv IZR]. unfold py_div. destruct (Req_EM_T 0 0); [done|]. done.
Qed.

(** C27. The same for parameter vectors, whose lengths are those of the specification. *)
Theorem C27_camera_vector_round_trip c : made c -> recoverable c ->
  exists v, camera_to_vector c = Ok v /\ length v = vector_length (cam_type c) /\
    camera_from_vector (cam_id c) (cam_width c) (cam_height c) (projection_string (cam_type c)) v = Ok c.
Proof. intros H. by apply vector_round_trip, made_shape. Qed.
Theorem C27_read_vectors_round_trip id w h pt v c : camera_from_vector id w h pt v = Ok c ->
  cam_id c = id /\ cam_width c = w /\ cam_height c = h /\
  exists v', camera_to_vector c = Ok v' /\ camera_from_vector id w h (projection_string (cam_type c)) v' = Ok c.
Proof.
  intros H. destruct (from_vector_good _ _ _ _ _ _ H) as ([Hm Hr] & <- & <- & <-). do 3 (split; [done|]).
  destruct (C27_camera_vector_round_trip c Hm Hr) as (v' & E & _ & F). by exists v'.
Qed.
(** A vector of any other length is refused. *)
Theorem C27_wrong_length_refused id w h t v :
  t <> SPHERICAL -> length v <> vector_length t -> camera_from_vector id w h (projection_string t) v = Err ValueError.
Proof.
  intros Ht Hl. destruct t; try done; cbn [vector_length] in Hl;
    do 17 (destruct v as [|? v]; [cbn [length] in Hl; first [lia|reflexivity]|]); reflexivity.
Qed.

(** C40. set_parameter_value changes the parameter it names, reads back what was written, and changes nothing else; it is
    defined exactly for the parameters of the camera. *)
Theorem C40_set_parameter c p x : made c ->
  (p ∈ cam_params c ->
     exists c', set_param c p x = Ok c' /\ get_param c' p = Ok x /\ (forall q, q <> p -> get_param c' q = get_param c q) /\
       cam_type c' = cam_type c /\ cam_params c' = cam_params c /\ cam_id c' = cam_id c /\
       cam_width c' = cam_width c /\ cam_height c' = cam_height c) /\
  (p ∉ cam_params c -> set_param c p x = Err RuntimeError /\ get_param c p = Err RuntimeError).
Proof.
  intros Hm%made_shape. split.
  - intros Hp. destruct (set_exists c p x Hm Hp) as (c' & E). exists c'. split; [done|]. by apply set_param_spec.
  - intros Hp. split.
    + unfold set_param. rewrite update_param_none; [done| |done]. by destruct Hm as (_ & H & _).
    + destruct (get_param c p) as [v|e] eqn:E.
      * exfalso. apply Hp, (has_param c p Hm). by exists v.
      * unfold get_param in E. clear -E. revert E. generalize (cam_values c). induction (cam_params c) as [|q ps IH]; intros [|v vs]; cbn; try by intros [= <-].
        destruct (decide (q = p)); [done|]. apply IH.
Qed.
(** Every camera of a model has the same parameters. *)
Theorem C40_model_determines_parameters c c' : made c -> made c' -> cam_type c = cam_type c' -> cam_params c = cam_params c'.
Proof. intros (H & _)%made_shape (H' & _)%made_shape E. congruence. Qed.

(** The setter of [distortion] does not satisfy this: the range of integers it tests also contains the focal length, the
    aspect ratio and the principal point. Writing back the distortion just read runs past the end of the vector for every
    model with a focal length, and with a longer vector it overwrites the focal length. *)
Theorem C40_set_distortion_refuted c : made c -> cam_type c <> SPHERICAL ->
  set_distortion c (get_distortion c) = Err IndexError.
Proof.
  intros Hm%made_shape Ht. shape_values c Hm; try done; vm_compute; reflexivity.
Qed.
Theorem C40_set_distortion_overwrites_focal f k1 k2 x y z :
  set_distortion (create_perspective f k1 k2) [x; y; z] = Ok (create_perspective z x y).
Proof. reflexivity. Qed.

(** The hypotheses are met: a brown camera whose focal length and size were changed after creation. *)
Definition brown_example : camera :=
  Camera "v2 cam 1000 750 brown 0.85" 1000 750 BROWN [K1; K2; K3; P1; P2; Focal; AspectRatio; Cx; Cy]
         [1 / 10; 2; 3; 4; 5; 85 / 100; 11 / 10; 1 / 100; -1 / 100]%R.
Example brown_example_made : made brown_example /\ recoverable brown_example.
Proof.
  split.
  - eapply (made_set (Camera "v2 cam 1000 750 brown 0.85" 1000 750 BROWN [K1; K2; K3; P1; P2; Focal; AspectRatio; Cx; Cy]
         [1 / 10; 2; 3; 4; 5; 1; 11 / 10; 1 / 100; -1 / 100]%R) Focal (85 / 100)%R); [|done|reflexivity].
    apply (made_attributes (new_camera BROWN _ _)).
    by eapply (made_brown 1%R (11 / 10)%R (1 / 100, -1 / 100)%R [1 / 10; 2; 3; 4; 5]%R).
  - intros _ [= H]. lra.
Qed.
Example brown_example_json : exists d, camera_to_json brown_example = Ok d /\ jget d "k3" = Some (JNum 3) /\
  jget d "p1" = Some (JNum 4) /\ jget d "focal_y" = Some (JNum (85 / 100 * (11 / 10))%R).
Proof. eexists. split; [reflexivity|]. done. Qed.

Print Assumptions C26_camera_json_round_trip.
Print Assumptions C26_read_cameras_round_trip.
Print Assumptions C26_cameras_json_round_trip.
Print Assumptions C26_absent_coefficients_are_zero.
Print Assumptions C27_camera_vector_round_trip.
Print Assumptions C27_wrong_length_refused.
Print Assumptions C40_set_parameter.
Print Assumptions C40_set_distortion_refuted.
