(** Model of the alignment of submodels: /repo/opensfm/actions/align_submodels.py, /repo/opensfm/large/tools.py and
    /repo/opensfm/src/bundle/reconstruction_alignment.h, in exact real arithmetic. The functions of ceres/rotation.h (not in /repo) are
    those of Ceres 2.2, which treat a rotation vector as zero only when it is. *)
From stdpp Require Import prelude gmap strings pretty.
From Coq Require Import Reals.
From Verif Require Import Base Lin RotModel MapModel PoseModel.
Local Open Scope R_scope.

(** ** ceres/rotation.h *)
Definition aa_to_quaternion (a : vec) : R * vec :=
  let theta := sqrt (dot a a) in
  if Rlt_dec 0 (dot a a) then (cos (theta / 2), vscale (sin (theta / 2) / theta) a) else (1, vscale (1 / 2) a).
Definition quaternion_product (z w : R * vec) : R * vec :=
  (z.1 * w.1 - dot z.2 w.2, vadd (vadd (vscale z.1 w.2) (vscale w.1 z.2)) (cross z.2 w.2)).
Definition quaternion_to_aa (q : R * vec) : vec :=
  let s := sqrt (dot q.2 q.2) in
  if Rlt_dec 0 (dot q.2 q.2) then
    (* atan2(s, c) for c >= 0 and atan2(-s, -c) for c < 0 *)
    let two_theta := 2 * (if Rlt_dec q.1 0 then atan (s / q.1) else atan2_pos s q.1) in
    vscale (two_theta / s) q.2
  else vscale 2 q.2.
Definition aa_rotate_point (a p : vec) : vec :=
  if Rlt_dec 0 (dot a a) then
    let theta := sqrt (dot a a) in
    let w := vscale (/ theta) a in
    vadd (vadd (vscale (cos theta) p) (vscale (sin theta) (cross w p))) (vscale (dot w p * (1 - cos theta)) w)
  else vadd p (cross a p).

(** ** reconstruction_alignment.h *)
(** 30-48, 50-70 *)
Record ra_shot := RAShot { rs_r : vec; rs_t : vec; rs_constant : bool }.
Record ra_rec := RARec { rr_r : vec; rr_t : vec; rr_scale : R; rr_constant : bool }.
(** 72-142, in one list instead of five (each kind of error sums over its own). The scale matrix of a relative motion is diagonal in every
    caller; its diagonal is given as two vectors. *)
Inductive constraint :=
  | RelativeMotion (rec shot : string) (r t : vec) (scale_r scale_t : vec)
  | AbsolutePosition (shot : string) (position : vec) (sd : R)
  | RelativeAbsolutePosition (rec shot : string) (position : vec) (sd : R)
  | CommonCamera (rec_a shot_a rec_b shot_b : string) (sd_center sd_rotation : R)
  | CommonPoint (rec_a : string) (point_a : vec) (rec_b : string) (point_b : vec) (sd : R).
(** 591-599 *)
Record problem := Problem { p_recs : gmap string ra_rec; p_shots : gmap string ra_shot; p_constraints : list constraint }.
Definition problem0 : problem := Problem ∅ ∅ [].
(** 398-430: an object of that id is replaced *)
Definition add_shot (p : problem) (id : string) (r t : vec) (constant : bool) : problem :=
  Problem (p_recs p) (<[id := RAShot r t constant]> (p_shots p)) (p_constraints p).
Definition add_rec (p : problem) (id : string) (r t : vec) (scale : R) (constant : bool) : problem :=
  Problem (<[id := RARec r t scale constant]> (p_recs p)) (p_shots p) (p_constraints p).
Definition add_constraint (p : problem) (c : constraint) : problem := Problem (p_recs p) (p_shots p) (p_constraints p ++ [c]).
(** the parameters of an object; shots_[id] of an unknown id makes one with zeros *)
Definition the_shot (p : problem) (id : string) : ra_shot := default (RAShot v0 v0 false) (p_shots p !! id).
Definition the_rec (p : problem) (id : string) : ra_rec := default (RARec v0 v0 0 false) (p_recs p !! id).

Definition vmul (a b : vec) : vec := Vec (vx a * vx b) (vy a * vy b) (vz a * vz b).
(** 147-203 *)
Definition relative_motion_error (r t scale_r scale_t : vec) (a : ra_rec) (i : ra_shot) : vec * vec :=
  let rit := vopp (rs_r i) in
  let rot := quaternion_to_aa (quaternion_product (aa_to_quaternion r) (quaternion_product (aa_to_quaternion (rr_r a)) (aa_to_quaternion rit))) in
  let center := vadd (vsub (aa_rotate_point (vopp r) t) (vscale (rr_scale a) (aa_rotate_point (rr_r a) (aa_rotate_point rit (rs_t i))))) (rr_t a) in
  (vmul scale_r rot, vmul scale_t center).
(** 205-230 *)
Definition absolute_position_error (c : vec) (sd : R) (i : ra_shot) : vec :=
  vscale (1 / sd) (vadd c (aa_rotate_point (vopp (rs_r i)) (rs_t i))).
(** 232-242 *)
Definition transform_point (a : ra_rec) (p : vec) : vec := aa_rotate_point (vopp (rr_r a)) (vscale (/ rr_scale a) (vsub p (rr_t a))).
Definition shot_center (i : ra_shot) : vec := vopp (aa_rotate_point (vopp (rs_r i)) (rs_t i)).
(** 244-276 *)
Definition relative_absolute_position_error (c : vec) (sd : R) (a : ra_rec) (i : ra_shot) : vec :=
  vscale (1 / sd) (vsub c (transform_point a (shot_center i))).
(** 278-312 *)
Definition common_point_error (pa pb : vec) (sd : R) (a b : ra_rec) : vec :=
  vscale (1 / sd * (rr_scale a + rr_scale b)) (vsub (transform_point a pa) (transform_point b pb)).
(** 314-390 *)
Definition common_camera_error (ai bi : ra_shot) (sd_center sd_rotation : R) (a b : ra_rec) : vec * vec :=
  let q := quaternion_product (quaternion_product (quaternion_product (aa_to_quaternion (rs_r ai)) (aa_to_quaternion (rr_r a)))
             (aa_to_quaternion (vopp (rr_r b)))) (aa_to_quaternion (vopp (rs_r bi))) in
  (vscale (1 / sd_rotation) (quaternion_to_aa q), vscale (1 / sd_center) (vsub (transform_point a (shot_center ai)) (transform_point b (shot_center bi)))).
(** 506-575: the residuals of a constraint at the current parameters, without the robust loss, which is zero only at zero *)
Definition residual (p : problem) (c : constraint) : list vec :=
  match c with
  | RelativeMotion a i r t sr st => let '(x, y) := relative_motion_error r t sr st (the_rec p a) (the_shot p i) in [x; y]
  | AbsolutePosition i c sd => [absolute_position_error c sd (the_shot p i)]
  | RelativeAbsolutePosition a i c sd => [relative_absolute_position_error c sd (the_rec p a) (the_shot p i)]
  | CommonCamera a ai b bi sc sr => let '(x, y) := common_camera_error (the_shot p ai) (the_shot p bi) sc sr (the_rec p a) (the_rec p b) in [x; y]
  | CommonPoint a pa b pb sd => [common_point_error pa pb sd (the_rec p a) (the_rec p b)]
  end.
(** 484-589 (Run) changes the parameters of the objects that are not constant: *)
Definition solution (p p' : problem) : Prop :=
  p_constraints p' = p_constraints p /\ dom (p_recs p') = dom (p_recs p) /\ dom (p_shots p') = dom (p_shots p) /\
  (forall id a, p_recs p !! id = Some a -> rr_constant a = true -> p_recs p' !! id = Some a) /\
  (forall id i, p_shots p !! id = Some i -> rs_constant i = true -> p_shots p' !! id = Some i) /\
  (* 498-503: the bounds of the scale *)
  (forall id a a', p_recs p !! id = Some a -> rr_constant a = false -> p_recs p' !! id = Some a' -> 1 / 10 <= rr_scale a').

(** ** large/tools.py *)
(** 31-33: the path of the submodel and the index in its reconstruction file *)
Notation key := (string * nat)%type.
(** 116-117 *)
Definition partial_reconstruction_name (k : key) : string := k.1 +:+ "_index" +:+ pretty (k.2 : nat).
(** What is used of a shot: its id, its pose, its position by GPS with its accuracy. A shot without them gives whatever the optional
    value holds. *)
Record view := View { vi_id : string; vi_pose : pose; vi_gps : vec; vi_sd : R }.
(** 147: scale_matrix(diag(1e-5, 1e-5, 1e-5, 1e-2, 1e-2, 1e-2)), the inverse of the Cholesky factor *)
Definition soft_scale_r : vec := let x := 1 / sqrt (/ 10 ^ 5) in Vec x x x.
Definition soft_scale_t : vec := let x := 1 / sqrt (/ 10 ^ 2) in Vec x x x.
Section Constraints.
Variable name : key -> string.
(** 131-158: one shot of a reconstruction; [added] is added_shots *)
Definition soft_shot (rec_name : string) (st : problem * gset string) (s : view) : problem * gset string :=
  let '(p, added) := st in
  let r := get_rotation (vi_pose s) in let t := get_translation (vi_pose s) in
  let '(p, added) := if decide (vi_id s ∈ added) then (p, added)
    else (add_constraint (add_shot p (vi_id s) r t false) (AbsolutePosition (vi_id s) (vi_gps s) (vi_sd s)), {[vi_id s]} ∪ added) in
  (add_constraint p (RelativeMotion rec_name (vi_id s) r t soft_scale_r soft_scale_t), added).
(** 120-158 *)
Definition soft_rec (st : problem * gset string) (r : key * list view) : problem * gset string :=
  let '(p, added) := st in foldl (soft_shot (name r.1)) (add_rec p (name r.1) v0 v0 1 false, added) r.2.
Definition add_camera_constraints_soft (p : problem) (recs : list (key * list view)) : problem := (foldl soft_rec (p, ∅) recs).1.
(** 161-186 (hard constraints, without those of common cameras): a shot is named after its reconstruction *)
Definition hard_shot (rec_name : string) (p : problem) (s : view) : problem :=
  let shot_name := rec_name +:+ vi_id s in
  add_constraint (add_shot p shot_name (get_rotation (vi_pose s)) (get_translation (vi_pose s)) true)
    (RelativeAbsolutePosition rec_name shot_name (vi_gps s) (vi_sd s)).
Definition hard_rec (p : problem) (r : key * list view) : problem := foldl (hard_shot (name r.1)) (add_rec p (name r.1) v0 v0 1 false) r.2.
Definition add_camera_constraints_hard (p : problem) (recs : list (key * list view)) : problem := foldl hard_rec p recs.
(** 221-261: the pairs of points that resect_reconstruction matched are a parameter *)
Definition add_point_constraints (p : problem) (pairs : list (key * vec * (key * vec))) : problem :=
  foldl (fun p '((ka, pa), (kb, pb)) => add_constraint p (CommonPoint (name ka) pa (name kb) pb (1 / 10))) p pairs.
(** 283-312 with soft constraints, up to the run of the solver; then the transformation of each reconstruction *)
Definition alignment_problem (recs : list (key * list view)) (pairs : list (key * vec * (key * vec))) : problem :=
  add_point_constraints (add_camera_constraints_soft problem0 recs) pairs.
Definition transformation (p : problem) (k : key) : R * mat * vec :=
  let r := the_rec p (name k) in invert_similarity (rr_scale r) (vector_to_rotation (rr_r r)) (rr_t r).
End Constraints.

Section Submodels.
Context {C B D X O Rf : Type}.
Notation map := (@map C B pose vec D X O Rf).
Variable gps : D -> vec * R.
(** partial_reconstruction.shots: the shots that are not panoramas, in any order. [shot.pose] is the rig camera's after the instance's
    (see C12 for the shortcut when the rig camera is within 1e-15 of the identity). *)
Definition shots_of (m : map) : list view :=
  omap (fun '((pano, id), s) => if (pano : bool) then None else p ← shot_pose compose m (false, id); Some (View id p (gps (sh_data s)).1 (gps (sh_data s)).2)) (map_to_list (m_shots m)).
(** The reconstruction files of the submodels that have one *)
Notation files := (gmap string (list map)).
(** 264-280 *)
Definition load_reconstruction_shots (paths : list string) (f : files) : list (key * list view) :=
  mjoin ((fun path => match f !! path with None => [] | Some recs => imap (fun i m => ((path, i), shots_of m)) recs end) <$> paths).
(** 318-328: the reconstructions of one submodel; keys are in the order of the transformations (sorted is stable) *)
Fixpoint apply_all (ts : list (key * (R * mat * vec))) (path : string) (recs : list map) : res (list map) :=
  match ts with
  | [] => Ok recs
  | (k, (s, A, b)) :: rest =>
      if decide (k.1 = path) then
        match recs !! k.2 with
        | None => Err IndexError
        | Some m => apply_all rest path (<[k.2 := apply_similarity m s A b]> recs)
        end
      else apply_all rest path recs
  end.
(** 309-328: the files reconstruction.aligned.json that are written *)
Fixpoint apply_paths (ts : list (key * (R * mat * vec))) (paths : list string) (f : files) : res files :=
  match paths with
  | [] => Ok ∅
  | path :: rest =>
      match f !! path with
      | None => apply_paths ts rest f
      | Some recs => try recs' := apply_all ts path recs in try out := apply_paths ts rest f in Ok (<[path := recs']> out)
      end
  end.
Definition apply_transformations (ts : list (key * (R * mat * vec))) (f : files) : res files :=
  apply_paths ts (remove_dups (((fun t => t.1.1) <$> ts) : list string)) f.
(** actions/align_submodels.py; [solve] is the run of the solver *)
Definition align_submodels (solve : problem -> problem) (paths : list string) (pairs : list (key * vec * (key * vec))) (f : files) : res files :=
  let recs := load_reconstruction_shots paths f in
  let p := solve (alignment_problem partial_reconstruction_name recs pairs) in
  apply_transformations ((fun r => (r.1, transformation partial_reconstruction_name p r.1)) <$> recs) f.
End Submodels.
