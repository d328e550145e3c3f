(** Model of /repo/opensfm/align.py (all but apply_similarity, which is in PoseModel), /repo/opensfm/multiview.py:133-176 (fit_plane) and
    556-589 (triangulate_gcp), in exact real arithmetic.
    Parameters: numpy.linalg.svd (as in FitModel), the sorted eigenvalues of a symmetric 3x3 matrix, the eigenvector of A^T A of the smallest
    eigenvalue (given the rows of A), the order in which hash maps are read. A similarity with entries that are not finite is no similarity here:
    align.py:108-113 turns it into None. What is logged is not modelled. *)
From stdpp Require Import prelude gmap strings.
From Coq Require Import Reals.
From Verif Require Import Base Lin RotModel JsonModel MapModel PoseModel TriangModel GeoModel GcpModel AnglesModel FitModel.
Local Open Scope R_scope.

(** The options of the configuration that are read *)
Record config := Config { align_method : string; align_orientation_prior : string; bundle_use_gcp : bool; bundle_use_gps : bool; bundle_compensate_gps_bias : bool }.
(** y = s A x + b *)
Notation sim := (R * mat * vec)%type.

(** numpy.std of numbers *)
Definition mean (l : list R) : R := / INR (length l) * sumR l.
Definition std (l : list R) : R := sqrt (mean ((fun x => (x - mean l) * (x - mean l)) <$> l)).
(** numpy.std(l, axis=0), and its largest coordinate *)
Definition std_axes (l : list vec) : vec := Vec (std (vx <$> l)) (std (vy <$> l)) (std (vz <$> l)).
Definition vmax (v : vec) : R := Rmax (vx v) (Rmax (vy v) (vz v)).

(** align.py:152-190, given the constraints; [eigenvalues] are sorted *)
Definition line_of (eigenvalues : mat -> R * R * R) (x : list vec) : bool :=
  let x := centred x in
  let '(e0, e1, e2) := eigenvalues (covariance x x) in
  let small e := if Rlt_dec e (/ 10 ^ 10) then 1%nat else 0%nat in
  (1 <? small e0 + small e1 + small e2)%nat || (if Rlt_dec 5000 (Rabs (e2 / e1)) then true else false).
Definition detect_alignment (eigenvalues : mat -> R * R * R) (x : list vec) : string :=
  if (length x <? 3)%nat then "orientation_prior"
  else if line_of eigenvalues x then "orientation_prior" else "naive".

(** align.py:193-229, given the constraints (a point of the reconstruction, where it should be) *)
Definition naive_similarity (svd : svd_of) (use_scale : bool) (c : list (vec * vec)) : option sim :=
  match c with
  | [] => None
  | (x0, y0) :: rest =>
      let same_values := if Rlt_dec (norm (std_axes (snd <$> c))) (/ 10 ^ 10) then true else false in
      if same_values || (length c =? 1)%nat then Some (1, mI, vsub y0 x0)
      else
        let c := match c with [p; q] => [p; q; q] | _ => c end in
        match superimposition_matrix svd (fst <$> c) (snd <$> c) use_scale with
        | Ok (Some T) => decompose_similarity_transform T
        | _ => None
        end
  end.

(** multiview.py:133-176. [eigenvector] gives the first three entries and the last one. [np.allclose(p[:3], [0, 0, 0])] is an absolute
    tolerance of 1e-8. Without points numpy.linalg.eig raises a LinAlgError (a ValueError): None here, as its caller (align.py:378-383). *)
Definition coordinates (v : vec) : list R := [vx v; vy v; vz v].
Definition plane_rows (points vectors : list vec) : list (vec * R) :=
  let s := 1 / Rmax (/ 10 ^ 8) (std (mjoin (coordinates <$> points))) in
  ((fun p => (vscale s p, 1)) <$> points) ++ ((fun v => (vscale s v, 0)) <$> vectors).
Definition close_to_zero (v : vec) : bool :=
  (if Rle_dec (Rabs (vx v)) (/ 10 ^ 8) then true else false) && (if Rle_dec (Rabs (vy v)) (/ 10 ^ 8) then true else false) &&
  (if Rle_dec (Rabs (vz v)) (/ 10 ^ 8) then true else false).
Definition sign (d : R) : R := if Rlt_dec 0 d then 1 else if Rlt_dec d 0 then -1 else 0.
Definition fit_plane (eigenvector : list (vec * R) -> vec * R) (points vectors verticals : list vec) : option (vec * R) :=
  match points with
  | [] => None
  | _ =>
      let p := eigenvector (plane_rows points vectors) in
      if close_to_zero p.1 then Some (Vec 0 0 1, 0)
      else match verticals with
           | [] => Some p
           | _ => let d := sumR ((fun v => dot p.1 v) <$> verticals) in Some (vscale (sign d) p.1, sign d * p.2)
           end
  end.

(** align.py:387-417: [row i] is R[i, :] *)
Definition row1 (r : mat) : vec := Vec (m11 r) (m12 r) (m13 r).
Definition row2 (r : mat) : vec := Vec (m21 r) (m22 r) (m23 r).
Definition row3 (r : mat) : vec := Vec (m31 r) (m32 r) (m33 r).
Definition get_horizontal_and_vertical_directions (r : mat) (orientation : Z) : vec * vec * vec :=
  match orientation with
  | 1 => (row1 r, row2 r, row3 r)
  | 2 => (vopp (row1 r), row2 r, vopp (row3 r))
  | 3 => (vopp (row1 r), vopp (row2 r), row3 r)
  | 4 => (row1 r, vopp (row2 r), row3 r)
  | 5 => (row2 r, row1 r, vopp (row3 r))
  | 6 => (vopp (row2 r), row1 r, row3 r)
  | 7 => (vopp (row2 r), vopp (row1 r), vopp (row3 r))
  | 8 => (row2 r, vopp (row1 r), row3 r)
  | _ => (row1 r, row2 r, row3 r)
  end%Z.
(** align.py:361-372: the vectors on the plane and the verticals of one shot *)
Definition prior_vectors (orientation_type : string) (r : mat) (orientation : Z) : list vec * list vec :=
  let '(x, y, z) := get_horizontal_and_vertical_directions r orientation in
  if decide (orientation_type = "no_roll"%string) then ([x], [vopp y])
  else if decide (orientation_type = "horizontal"%string) then ([x; z], [vopp y])
  else if decide (orientation_type = "vertical"%string) then ([x; y], [vopp z])
  else ([], []).
(** align.py:337-384: [shots] are the origin, the rotation and the orientation tag of the shots *)
Definition estimate_ground_plane (eigenvector : list (vec * R) -> vec * R) (orientation_type : string) (shots : list (vec * mat * option Z)) : option (vec * R) :=
  let ground_points := (fun s => s.1.1) <$> shots in
  let dirs := omap (fun s => prior_vectors orientation_type s.1.2 <$> s.2) shots in
  fit_plane eigenvector (centred ground_points) (mjoin (fst <$> dirs)) (mjoin (snd <$> dirs)).

(** align.py:256-299, given the plane and the constraints *)
Definition xy (v : vec) : R * R := (vx v, vy v).
Definition prior_similarity (svd2 : svd2_of) (use_scale : bool) (r : mat) (c : list (vec * vec)) : option sim :=
  let x := mvec r <$> (fst <$> c) in
  let xp := snd <$> c in
  match c with
  | [] => Some (1, r, v0)
  | _ =>
      let two_shots := (length x =? 2)%nat in
      let single_shot := (length x <? 2)%nat in
      let same_shots := (if Rlt_dec (vmax (std_axes x)) (/ 10 ^ 8) then true else false) || (if Rlt_dec (vmax (std_axes xp)) (1 / 100) then true else false) in
      if single_shot || same_shots then
        let b := vsub (vmean xp) (vmean x) in
        let current_scale := norm b in
        if two_shots && (if Rlt_dec 1000 current_scale then true else false)
        then Some (1000 / current_scale, r, vscale (/ current_scale) (vscale 1000 b))
        else Some (1, r, b)
      else
        match affine_matrix_from_points_2d svd2 use_scale (xy <$> x) (xy <$> xp) with
        | Ok (Some (t, b)) =>
            let s := sqrt (det2 t) in
            if Req_EM_T s 0 then None
            else
              let A := Mat (a11 t / s) (a12 t / s) 0 (a21 t / s) (a22 t / s) 0 0 0 1 in
              Some (s, mmul A r, Vec b.1 b.2 (mean (vz <$> xp) - s * mean (vz <$> x)))
        | _ => None
        end
  end.

Section Align.
Context {C D X O : Type}.
Notation shot := (shot D X O). Notation instance := (instance pose).
Notation map := (@map C similarity pose vec D X O vec).
Variable gps : D -> option vec.                (* shot.metadata.gps_position *)
Variable orientation : D -> option Z.          (* shot.metadata.orientation *)
Variable bearing : C -> R * R -> vec.          (* camera.pixel_bearing *)
Variable enumI : gmap string instance -> list (string * instance).
Variable enumS : gmap shot_key shot -> list (shot_key * shot).
Variable svd : svd_of.
Variable svd2 : svd2_of.
Variable eigenvalues : mat -> R * R * R.
Variable eigenvector : list (vec * R) -> vec * R.

(** multiview.py:556-589, with the default thresholds; [Some None] of the triangulation (a singular system) cannot come with rays that are 1 degree apart *)
Definition gcp_rays (m : map) (obs : list (gcp_observation R)) : list (vec * vec) :=
  omap (fun o => s ← m_shots m !! (false, go_shot o); q ← get_pose m (false, go_shot o); c ← m_cameras m !! sh_camera s;
                 Some (get_origin q, mvec (mT (w_rot q)) (bearing c (go_projection o)))) obs.
Definition triangulate_gcp (m : map) (p : gcp R) : option vec :=
  let rays := gcp_rays m (gcp_obs p) in
  if (2 <=? length rays)%nat then
    match TriangulateBearingsMidpoint rays (repeat (2 / 100) (length rays)) (radians 1) (1 / 1000) with Some x => x | None => None end
  else None.
(** align.py:420-441, for one point *)
Definition flat (v : vec) : vec := Vec (vx v) (vy v) 0.
Definition gcp_constraint (m : map) (p : gcp R) : res (option (vec * vec)) :=
  match triangulate_gcp m p with
  | None => Ok None
  | Some x =>
      if decide (gcp_lla p = ∅) then Ok None
      else
        try lla := get_lla_vec 0 p in
        let '(lat, lon, alt) := lla in
        let ref := default v0 (m_reference m) in
        let enu := topocentric_from_lla lat lon alt (vx ref) (vy ref) (vz ref) in
        if gcp_has_altitude p then Ok (Some (x, enu)) else Ok (Some (flat x, flat enu))
  end.
(** align.py:136-147: the average over the shots of the instance does not depend on their order *)
Definition instance_gps (m : map) (i : instance) : list vec :=
  omap (fun e => s ← m_shots m !! (e.2.1, e.1); gps (sh_data s)) (map_to_list (in_members i)).
Definition instance_constraint (m : map) (i : instance) : option (vec * vec) :=
  match instance_gps m i with [] => None | l => Some (get_origin (in_pose i), vmean l) end.
(** align.py:119-149; the two lists are one list of pairs *)
Definition alignment_constraints (cfg : config) (m : map) (gcps : list (gcp R)) (use_gps : bool) : res (list (vec * vec)) :=
  try g := if bundle_use_gcp cfg then mapR (gcp_constraint m) gcps else Ok [] in
  Ok (omap (fun x => x) g ++ if use_gps && bundle_use_gps cfg then omap (fun i => instance_constraint m i.2) (enumI (m_instances m)) else []).

(** align.py:152-190 *)
Definition detect_alignment_constraints (cfg : config) (m : map) (gcps : list (gcp R)) (use_gps : bool) : res string :=
  try c := alignment_constraints cfg m gcps use_gps in Ok (detect_alignment eigenvalues (fst <$> c)).
(** align.py:193-229 *)
Definition compute_naive_similarity (cfg : config) (m : map) (gcps : list (gcp R)) (use_gps use_scale : bool) : res (option sim) :=
  try c := alignment_constraints cfg m gcps use_gps in Ok (naive_similarity svd use_scale c).
(** align.py:352-359: what is read of the shots *)
Definition shots_seen (m : map) : list (vec * mat * option Z) :=
  omap (fun ks => if ks.1.1 : bool then None else q ← get_pose m ks.1; Some (get_origin q, w_rot q, orientation (sh_data ks.2))) (enumS (m_shots m)).
(** align.py:232-299 *)
Definition compute_orientation_prior_similarity (cfg : config) (m : map) (gcps : list (gcp R)) (use_gps use_scale : bool) : res (option sim) :=
  match estimate_ground_plane eigenvector (align_orientation_prior cfg) (shots_seen m) with
  | None => Ok None
  | Some p =>
      match plane_horizontalling_rotation p.1 with
      | None => Ok None
      | Some r => try c := alignment_constraints cfg m gcps use_gps in Ok (prior_similarity svd2 use_scale r c)
      end
  end.
(** align.py:77-116 *)
Definition compute_reconstruction_similarity (cfg : config) (m : map) (gcps : list (gcp R)) (use_gps use_scale : bool) : res (option sim) :=
  try method := if decide (align_method cfg = "auto"%string) then detect_alignment_constraints cfg m gcps use_gps else Ok (align_method cfg) in
  try r := if decide (method = "orientation_prior"%string) then compute_orientation_prior_similarity cfg m gcps use_gps use_scale
           else if decide (method = "naive"%string) then compute_naive_similarity cfg m gcps use_gps use_scale
           else Ok None in
  Ok (r ≫= fun t => if Req_EM_T t.1.1 0 then None else Some t).

(** align.py:321-330: the reconstruction made of the shots of one camera. [add_shot] gives the rig instance the pose of the original one
    (C11_create_shot), except for rig cameras that are not the identity but nearer than 1e-15 to it: simplified. No points, no reference. *)
Definition of_camera (m : map) (camera : string) : map :=
  let shots := filter (fun ks => ks.1.1 = false /\ sh_camera ks.2 = camera) (m_shots m) in
  let members i := filter (fun e => is_Some (shots !! (e.2.1, e.1))) (in_members i) in
  Map (m_cameras m) (m_bias m) (m_rig_cameras m)
      (filter (fun i => in_members i.2 <> ∅) ((fun i => Instance (in_pose i) (members i)) <$> m_instances m)) shots ∅ None.
(** align.py:338-350: the inverse of a similarity, as the bias of a camera; cv2.Rodrigues of a rotation is its rotation vector *)
Definition bias_of (t : sim) : similarity :=
  let '(s, A, b) := t in similarity_of_vector (vopp (rotation_to_vector A)) (vscale (/ s) (vopp (mvec (mT A) b))) (1 / s).
(** align.py:302-352; [cameras] are the cameras of the shots, in the order of the dictionary *)
Definition shot_cameras (m : map) : list string :=
  remove_dups (omap (fun ks => if ks.1.1 : bool then None else Some (sh_camera ks.2)) (enumS (m_shots m))).
Definition set_bias (m : map) (camera : string) (b : similarity) : res map :=
  match m_bias m !! camera with None => Err RuntimeError | Some _ => Ok (set_biases m (<[camera := b]> (m_bias m))) end.
Fixpoint set_all_bias (m : map) (l : list (string * sim)) : res map :=
  match l with [] => Ok m | (camera, t) :: l => try m := set_bias m camera (bias_of t) in set_all_bias m l end.
Definition set_gps_bias (cfg : config) (m : map) (gcps : list (gcp R)) (use_scale : bool) : res (option sim * map) :=
  try gps_bias := compute_reconstruction_similarity cfg m gcps false use_scale in
  match gps_bias with
  | None => Ok (None, m)
  | Some (s, A, b) =>
      let m := apply_similarity m s A b in
      try transforms := mapR (fun camera => try t := compute_reconstruction_similarity cfg (of_camera m camera) [] true use_scale in Ok (camera, t)) (shot_cameras m) in
      if forallb (fun ct => match ct.2 with Some _ => true | None => false end) transforms then
        try m := set_all_bias m (omap (fun ct => t ← ct.2; Some (ct.1, t)) transforms) in Ok (gps_bias, m)
      else Ok (gps_bias, m)
  end.
(** align.py:18-41: the result and the reconstruction afterwards *)
Definition align_reconstruction (cfg : config) (m : map) (gcps : list (gcp R)) (use_gps bias_override : bool) : res (option sim * map) :=
  let use_scale := bool_decide (map_Forall (fun _ i => (size (in_members i) <= 1)%nat) (m_instances m)) in
  if bias_override && bundle_compensate_gps_bias cfg then set_gps_bias cfg m gcps use_scale
  else
    try r := compute_reconstruction_similarity cfg m gcps use_gps use_scale in
    match r with
    | None => Ok (None, m)
    | Some (s, A, b) => Ok (r, apply_similarity m s A b)
    end.
End Align.
