(** Model of /repo/opensfm/mesh.py (the triangle mesh of a shot), over the reals. The triangulations (scipy's Delaunay and ConvexHull) are parameters: functions from points to
    triples of indices. *)
From stdpp Require Import prelude strings gmap.
From Coq Require Import Reals.
From Verif Require Import Base Lin PoseModel CamModel.
Local Open Scope R_scope.

Notation face := (nat * nat * nat)%type.
Definition corners (f : face) : list nat := [f.1.1; f.1.2; f.2].
(** camera.cc:243-275: get_K, from the focal length, the aspect ratio and the principal point *)
Record pinhole := Pinhole { ph_focal : R; ph_aspect : R; ph_cx : R; ph_cy : R }.
Definition get_K (c : pinhole) : mat := Mat (ph_focal c) 0 (ph_cx c) 0 (ph_focal c * ph_aspect c) (ph_cy c) 0 0 1.
(** mesh.py:96-106. A matrix that has no inverse, which is an error in numpy, is not modelled *)
Definition back_project_no_distortion (p : pose) (c : pinhole) (pixel : R * R) (depth : R) : vec :=
  let q := mvec (minv (get_K c)) (Vec pixel.1 pixel.2 1) in
  transform_inverse p (vscale (depth / vz q) q).
Section mesh.
  (** The pose of the shot, its observations in the order of the tracks manager, and the points of the reconstruction *)
  Context (p : pose) (observations : list string) (points : gmap string vec).
  (** shot.project, None for not-a-numbers *)
  Context (project : vec -> option (R * R)).
  Context (delaunay : list (R * R) -> list face) (convex_hull : list vec -> list face).

  (** mesh.py:59-68: the points that are seen inside the image, with their pixels *)
  Definition visible_points (dx dy : R) : list (vec * (R * R)) :=
    foldl (fun acc track_id =>
      match points !! track_id with
      | None => acc
      | Some point =>
          match project point with
          | Some pixel => if (if Rle_dec (- dx) pixel.1 then if Rle_dec pixel.1 dx then if Rle_dec (- dy) pixel.2 then if Rle_dec pixel.2 dy then true else false else false else false else false)
                          then acc ++ [(point, pixel)] else acc
          | None => acc
          end
      end) [] observations.
  (** mesh.py:78-84 for one i: the loops over i do not depend on each other *)
  Definition corner_depth (vertices : list vec) (faces : list face) (i : nat) : R * R :=
    foldl (fun acc t =>
      if decide (i ∈ corners t) then
        foldl (fun acc j => if decide (4 <= j)%nat then (acc.1 + vz (transform p (default v0 (vertices !! j))), acc.2 + 1) else acc) acc (corners t)
      else acc) (0, 0) faces.
  (** mesh.py:49-93 *)
  Definition triangle_mesh_perspective (c : pinhole) (width height : Z) : list vec * list face :=
    let m := Rmax (IZR width) (IZR height) in
    let dx := IZR width / 2 / m in let dy := IZR height / 2 / m in
    let visible := visible_points dx dy in
    let pixels := [(- dx, - dy); (- dx, dy); (dx, dy); (dx, - dy)] ++ visible.*2 in
    let vertices := replicate 4 v0 ++ visible.*1 in
    let simplices := delaunay pixels in
    let corner i := let '(depths, sums) := corner_depth vertices simplices i in
      let d := if Rlt_dec 0 sums then depths / sums else 50 in
      back_project_no_distortion p c (default (0, 0) (pixels !! i)) d in
    ((corner <$> seq 0 4) ++ visible.*1, simplices).
  (** mesh.py:135-143 and 178-186: the points and their directions; a point at the camera gives not-a-numbers and is left out *)
  Definition seen_points : list (vec * vec) :=
    foldl (fun acc track_id =>
      match points !! track_id with
      | None => acc
      | Some point =>
          let direction := transform p point in
          if Req_EM_T (norm direction) 0 then acc else acc ++ [(point, vscale (/ norm direction) direction)]
      end) [] observations.
  (** mesh.py:109-159 *)
  Definition num_circle_points : nat := 20.
  Definition circle_point (i : nat) : vec := let a := 2 * PI * INR i / INR num_circle_points in vscale 30 (Vec (cos a) (sin a) 0).
  Definition good_face (f : face) : bool := bool_decide (num_circle_points <= f.1.1)%nat || bool_decide (num_circle_points <= f.1.2)%nat || bool_decide (num_circle_points <= f.2)%nat.
  Definition triangle_mesh_fisheye : list vec * list face :=
    let circle := circle_point <$> seq 0 num_circle_points in
    let front := vscale 30 (Vec 0 0 1) in
    let vertices := (transform_inverse p <$> circle) ++ [transform_inverse p front] ++ seen_points.*1 in
    let bearings := ((fun q => vscale (/ norm q) q) <$> circle) ++ [vscale (/ norm front) (vscale (3 / 10) front)] ++ seen_points.*2 in
    (vertices, filter good_face (convex_hull bearings)).
  (** mesh.py:162-191 *)
  Definition cube : list vec := [Vec (-1) (-1) (-1); Vec (-1) (-1) 1; Vec (-1) 1 (-1); Vec (-1) 1 1; Vec 1 (-1) (-1); Vec 1 (-1) 1; Vec 1 1 (-1); Vec 1 1 1].
  Definition triangle_mesh_spherical : list vec * list face :=
    let around := (fun q => vscale (/ norm q) (vscale (3 / 10) q)) <$> cube in
    ((transform_inverse p <$> around) ++ seen_points.*1, convex_hull (around ++ seen_points.*2)).
  (** mesh.py:15-46: whether the reconstruction and the tracks have the shot are arguments; NotImplementedError is shown as a RuntimeError *)
  Definition triangle_mesh (has_shot : bool) (projection_type : string) (c : pinhole) (width height : Z) : res (list vec * list face) :=
    if has_shot then
      if decide (projection_type ∈ ["perspective"; "brown"; "radial"; "simple_radial"]%string) then Ok (triangle_mesh_perspective c width height)
      else if decide (projection_type ∈ ["fisheye"; "fisheye_opencv"; "fisheye62"; "fisheye624"; "dual"]%string) then Ok triangle_mesh_fisheye
      else if is_panorama projection_type then Ok triangle_mesh_spherical
      else Err RuntimeError
    else Ok ([], []).
End mesh.
