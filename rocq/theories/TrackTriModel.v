(** Model of /repo/opensfm/reconstruction.py:895-1183 (TrackTriangulator, triangulate_shot_features) in exact real arithmetic.
    A shot is its pose and the function [pixel_bearing] of its camera. The point refinement (Ceres' TinySolver, triangulation.cc:221-234) is a
    parameter [refine rays X iterations]; the theorems ask of it only that it does not increase its cost. The caches of origins and rotations
    (1108-1131) are those of the poses, that do not change during the calls. Angles are in radians. *)
From stdpp Require Import prelude gmap strings.
From Coq Require Import Reals.
From Verif Require Import Base Lin RotModel PoseModel TriangModel.
Local Open Scope R_scope.

Record shot := Shot { sh_pose : pose; sh_bearing : R * R -> vec }.
(** The observations of a track in the shots of the reconstruction (876-883): shot id, shot, image point, in the order of the dictionary *)
Record view := View { v_id : string; v_shot : shot; v_point : R * R }.
(** 929-935, 1023-1030: the origin and the bearing in the world *)
Definition world_ray (v : view) : vec * vec :=
  (get_origin (sh_pose (v_shot v)), mvec (mT (w_rot (sh_pose (v_shot v)))) (sh_bearing (v_shot v) (v_point v))).
(** itertools.combinations(range(n), 2) *)
Definition combinations (n : nat) : list (nat * nat) := flat_map (fun i => map (pair i) (seq (S i) (n - S i))) (seq 0 n).
(** 974-978: || (X - o) / ||X - o|| - b || < threshold, false for NaN *)
Definition reproj_ok (threshold : R) (X : vec) (r : vec * vec) : bool :=
  let d := vsub X r.1 in
  if Req_EM_T (norm d) 0 then false
  else if Rlt_dec (norm (vsub (vscale (/ norm d) d) r.2)) threshold then true else false.
(** np.nonzero(...)[0]: the indices, in order *)
Fixpoint nonzero (k : nat) (l : list bool) : list nat :=
  match l with [] => [] | b :: l' => if b then k :: nonzero (S k) l' else nonzero (S k) l' end.
Definition inliers_of (threshold : R) (X : vec) (rays : list (vec * vec)) : list nat := nonzero 0 (map (reproj_ok threshold X) rays).
(** os[inliers], bs[inliers] *)
Definition select {A} (l : list A) (ids : list nat) : list A := omap (fun i => l !! i) ids.

Section Robust.
  Context (refine : list (vec * vec) -> vec -> nat -> vec) (rays : list (vec * vec)) (threshold min_angle min_depth : R) (iterations : nat).
  (** int(np.random.rand() * (len(all_combinations) - 1)) for a number u drawn from [0, 1) *)
  Definition random_id (u : R) : nat := Z.to_nat (Int_part (u * (INR (length (combinations (length rays))) - 1))).
  (** State of the loop of 953-1010: the indices tried, the best inliers and point, whether the loop was left *)
  Record state := State { tried : list nat; best_inliers : list nat; best_point : vec; stopped : bool }.
  Definition step (s : state) (u : R) : state :=
    if stopped s then s
    else
      let id := random_id u in
      if decide (id ∈ tried s) then s
      else
        match combinations (length rays) !! id with
        | None => s
        | Some (i, j) =>
          let s := State (id :: tried s) (best_inliers s) (best_point s) false in
          let pair_rays := select rays [i; j] in
          match TriangulateBearingsMidpoint pair_rays (repeat threshold (length rays)) min_angle min_depth with
          | Some (Some X0) =>
            let X := refine pair_rays X0 iterations in
            let inliers := inliers_of threshold X rays in
            if decide (length (best_inliers s) < length inliers)%nat then
              (* 981-987: the point of triangulate_bearings_midpoint of the inliers is computed and not used *)
              let new_X := refine (select rays inliers) X iterations in
              let ls_inliers := inliers_of threshold new_X rays in
              let best := if decide (length inliers < length ls_inliers)%nat then (ls_inliers, new_X) else (inliers, X) in
              let ratio := INR (length best.1) / INR (length rays) in
              (* the i of 1010 is the first view of the pair: the assignment of 957 hides the counter of the loop *)
              let stop := if Req_EM_T ratio 1 then true else if Rle_dec (ln (1 - 99 / 100) / ln (1 - ratio * ratio)) (INR i) then true else false in
              State (tried s) best.1 best.2 stop
            else s
          (* the triangulation failed, or gave a point that is not a number: no inlier *)
          | _ => s
          end
        end.
  (** 11 draws *)
  Definition ransac (draws : list R) : state := fold_left step draws (State [] [] v0 false).
End Robust.
(** 915-1016: what is stored, the point and the shots of the observations *)
Definition triangulate_robust (refine : list (vec * vec) -> vec -> nat -> vec) (draws : list R) (views : list view) (threshold min_angle min_depth : R) (iterations : nat) : option (vec * list string) :=
  if decide (length views < 2)%nat then None
  else
    let s := ransac refine (map world_ray views) threshold min_angle min_depth iterations draws in
    if decide (1 < length (best_inliers s))%nat then Some (best_point s, map v_id (select views (best_inliers s))) else None.
(** 1018-1061. A point that is not a number is stored as such: None *)
Definition triangulate (refine : list (vec * vec) -> vec -> nat -> vec) (views : list view) (threshold min_angle min_depth : R) (iterations : nat) : option (option vec * list string) :=
  if decide (2 <= length views)%nat then
    let rays := map world_ray views in
    match TriangulateBearingsMidpoint rays (repeat threshold (length views)) min_angle min_depth with
    | None => None
    | Some X => Some (match X with Some X => Some (refine rays X iterations) | None => None end, map v_id views)
    end
  else None.
(** 1063-1106, the bearings bs being those in the frames of the cameras, also given to the refinement; [svd] is the vector of the decomposition *)
Definition camera_ray (v : view) : rt * vec := ((w_rot (sh_pose (v_shot v)), w_tr (sh_pose (v_shot v))), sh_bearing (v_shot v) (v_point v)).
Definition triangulate_dlt (svd : list (rt * vec) -> vec4) (refine : list (vec * vec) -> vec -> nat -> vec) (views : list view) (threshold min_angle min_depth : R) (iterations : nat) : option (option vec * list string) :=
  if decide (2 <= length views)%nat then
    let rays := map camera_ray views in
    match TriangulateBearingsDLT (svd rays) rays threshold min_angle min_depth with
    | None => None
    | Some X =>
      let os_bs := map (fun v => (get_origin (sh_pose (v_shot v)), sh_bearing (v_shot v) (v_point v))) views in
      Some (match X with Some X => Some (refine os_bs X iterations) | None => None end, map v_id views)
    end
  else None.

(** ** The tracks of some shots: 1134-1183 *)
Inductive triangulation_type := ROBUST | FULL | Other.
(** The points of the reconstruction: coordinates and shots that observe them *)
Notation points := (gmap string (option vec * list string)).
Section Features.
  Context (refine : list (vec * vec) -> vec -> nat -> vec) (shots : gmap string shot) (track_observations : string -> list (string * (R * R)))
          (threshold min_angle min_depth : R) (iterations : nat).
  (** 876-883 *)
  Definition get_observations (track : string) : list view :=
    omap (fun so => match shots !! so.1 with Some sh => Some (View so.1 sh so.2) | None => None end) (track_observations track).
  Definition triangulate_track (ty : triangulation_type) (draws : list R) (track : string) : option (option vec * list string) :=
    match ty with
    | ROBUST => match triangulate_robust refine draws (get_observations track) threshold min_angle min_depth iterations with Some (X, ids) => Some (Some X, ids) | None => None end
    | FULL => triangulate refine (get_observations track) threshold min_angle min_depth iterations
    | Other => None
    end.
  (** 1159-1183 for the tracks in the order of the set; each with its random numbers *)
  Definition store (ty : triangulation_type) (pts : points) (td : string * list R) : points :=
    match pts !! td.1 with
    | Some _ => pts
    | None => match triangulate_track ty td.2 td.1 with Some p => <[td.1 := p]> pts | None => pts end
    end.
  Definition triangulate_shot_features (ty : triangulation_type) (tracks : list (string * list R)) (pts : points) : points := fold_left (store ty) tracks pts.
  (** 1186-1223 (retriangulate): all the points are removed first, and the tracks are those of the shots of the reconstruction *)
  Definition retriangulate (ty : triangulation_type) (tracks : list (string * list R)) : points := triangulate_shot_features ty tracks ∅.
End Features.
