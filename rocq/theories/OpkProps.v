(** Properties of the camera angles read from XMP. *)
From stdpp Require Import prelude gmap strings.
From Coq Require Import Reals Lra Psatz.
From Verif Require Import Base Lin RotModel RotProofs GeoModel GeoSpec GeoProofs AnglesModel AnglesSpec AnglesProofs AnglesProps ExifModel OpkModel OpkSpec OpkProofs.
Local Open Scope R_scope.

Section Parse.
Context (parse_float : string -> option R).
Notation number x key := (s ← x !! key; parse_float s).
(** ** C71: omega, phi and kappa from the angles of the drone or its gimbal *)
(** They are computed from three angles that are numbers, if the image has a position; the pitch of a DJI gimbal is 90 degrees off; the camera's own
    angles come first; no angle is read otherwise. *)
Definition has_ypr (x : xmp_block) (y p r : R) : Prop :=
  (number x "@Camera:Yaw" = Some y /\ number x "@Camera:Pitch" = Some p /\ number x "@Camera:Roll" = Some r) \/
  ((x !! "@Camera:Yaw" = None \/ x !! "@Camera:Pitch" = None \/ x !! "@Camera:Roll" = None) /\
   exists p', p = p' + 90 /\ number x "@drone-dji:GimbalYawDegree" = Some y /\ number x "@drone-dji:GimbalPitchDegree" = Some p' /\ number x "@drone-dji:GimbalRollDegree" = Some r).
Theorem C71_angles_read xmp latlon altitude w f k : extract_opk parse_float xmp latlon altitude = Some (w, f, k) <->
  exists x rest lat lon y p r n, xmp = x :: rest /\ latlon = Some (lat, lon) /\ has_ypr x y p r /\
    north_vector lat lon (default 0 altitude) = Some n /\ (w, f, k) = opk_from_ypr n (radians y) (radians p) (radians r).
Proof.
  assert (forall x y p r, read_ypr parse_float x = Some (y, p, r) <-> has_ypr x y p r) as Hread.
  { intros x y p r. unfold read_ypr, has_ypr.
    assert (forall a b c : string, (y ← parse_float a; p ← parse_float b; r ← parse_float c; Some (y, p, r)) = Some (y, p, r) <-> parse_float a = Some y /\ parse_float b = Some p /\ parse_float c = Some r) as Hp.
    { intros a b c. destruct (parse_float a); [|naive_solver]. destruct (parse_float b); [|naive_solver]. destruct (parse_float c); naive_solver. }
    assert (forall a b c : string, (y ← parse_float a; p ← parse_float b; r ← parse_float c; Some (y, p + 90, r)) = Some (y, p, r) <-> exists p', p = p' + 90 /\ parse_float a = Some y /\ parse_float b = Some p' /\ parse_float c = Some r) as Hp'.
    { intros a b c. destruct (parse_float a); [|naive_solver]. destruct (parse_float b); [|naive_solver]. destruct (parse_float c); naive_solver. }
    destruct (x !! "@Camera:Yaw") as [sy|]; [destruct (x !! "@Camera:Pitch") as [sp|]; [destruct (x !! "@Camera:Roll") as [sr|]|]|].
    1: { rewrite Hp. cbn [mbind option_bind]. naive_solver. }
    all: destruct (x !! "@drone-dji:GimbalYawDegree") as [ty|]; [|naive_solver]; destruct (x !! "@drone-dji:GimbalPitchDegree") as [tp|]; [|naive_solver]; destruct (x !! "@drone-dji:GimbalRollDegree") as [tr|]; [|naive_solver].
    all: rewrite Hp'; cbn [mbind option_bind]; naive_solver. }
  unfold extract_opk. split.
  - destruct xmp as [|x rest]; [done|]. destruct latlon as [[lat lon]|]; [|done]. destruct (read_ypr parse_float x) as [[[y p] r]|] eqn:E; [|done]. cbn [mbind option_bind].
    destruct (north_vector lat lon (default 0 altitude)) as [n|] eqn:En; [|done]. cbn [mbind option_bind]. intros E'%(inj Some). apply Hread in E. exists x, rest, lat, lon, y, p, r, n. rewrite <- E'. done.
  - intros (x & rest & lat & lon & y & p & r & n & -> & -> & Hx & Hn & E'). apply Hread in Hx. rewrite Hx. cbn [mbind option_bind]. rewrite Hn. cbn [mbind option_bind]. by rewrite E'.
Qed.
(** The formula, with the true north of the local frame, gives angles of the camera of the drone, unless it looks exactly to the east or to the west.
    Missing: the code does not use this north (next theorem). *)
Theorem C71_opk_partial m y p r : is_drone_camera m y p r -> Rabs (m31 m) < 1 ->
  let '(w, f, k) := opk_from_ypr (Vec 0 1 0) y p r in rotation m /\ has_opk m (radians w) (radians f) (radians k).
Proof.
  intros Hm H. apply drone_unique in Hm as ->. pose proof (opk_drone y p r H) as Ho. destruct (opk_from_ypr _ y p r) as [[w f] k]. split; [apply drone_rotation|done].
Qed.
(** The north that the code uses is in the geocentric frame: for a camera that looks straight down, top to the north, kappa comes out as the
    longitude plus 90 degrees, for every place of the northern hemisphere. Kappa should be 0. *)
Theorem C71_opk_refuted x rest lat lon altitude : 1 / 10 ^ 7 < lat < 90 - 1 / 10 ^ 7 -> -180 < lon <= 90 -> lon <> -90 -> (forall a, altitude = Some a -> 0 <= a) ->
  number x "@Camera:Yaw" = Some 0 -> number x "@Camera:Pitch" = Some 0 -> number x "@Camera:Roll" = Some 0 ->
  extract_opk parse_float (x :: rest) (Some (lat, lon)) altitude = Some (0, 0, lon + 90) /\
  (forall m, is_drone_camera m (radians 0) (radians 0) (radians 0) -> has_opk m (radians 0) (radians 0) (radians 0) /\ ~ has_opk m (radians 0) (radians 0) (radians (lon + 90))).
Proof.
  intros Hlat Hlon Hne Ha Hy Hp Hr. assert (radians 0 = 0) as E0 by (unfold radians; lra). split.
  - unfold extract_opk, read_ypr. destruct (x !! "@Camera:Yaw") as [sy|]; [|done]. destruct (x !! "@Camera:Pitch") as [sp|]; [|done]. destruct (x !! "@Camera:Roll") as [sr|]; [|done].
    cbn [mbind option_bind] in Hy, Hp, Hr. rewrite Hy, Hp, Hr. cbn [mbind option_bind].
    destruct (north_ecef lat lon (default 0 altitude) Hlat) as (h & z & Hh & ->). { destruct altitude as [a|]; cbn; [by apply Ha|lra]. }
    cbn [mbind option_bind]. rewrite E0. by rewrite nadir_kappa.
  - intros m Hm. apply drone_unique in Hm as ->. rewrite E0. unfold has_opk, right_axis, down_axis, forward_axis, drone, below, starboard, nose, turn_x, turn_y, turn_z. cbn [m11 m12 m13 m21 m22 m23 m31 m32 m33 vx vy vz vadd vscale cross mmul mvec]. rewrite sin_0, cos_0. split.
    + repeat split; apply vec_eq; cbn; ring.
    + intros (H & _ & _). unfold mvec, mmul in H. cbn [m11 m12 m13 m21 m22 m23 m31 m32 m33 vx vy vz] in H. apply (f_equal vx) in H. cbn [vx] in H.
      assert (cos (radians (lon + 90)) = 1) as Hc by lra.
      assert (- PI < radians (lon + 90) <= PI) as Hb by (apply radians_lon; lra).
      assert (radians (lon + 90) <> 0) as Hnz. { unfold radians. pose proof PI_RGT_0. intros E. apply Rmult_integral in E. lra. }
      assert (sin (radians (lon + 90)) = 0) as Hs. { pose proof (sc2 (radians (lon + 90))). rewrite Hc in H0. nra. }
      pose proof PI_RGT_0. destruct (Rtotal_order (radians (lon + 90)) 0) as [Hlt|[?|Hgt]]; [|done|].
      * pose proof (sin_lt_0_var (radians (lon + 90))). lra.
      * destruct (Req_dec (radians (lon + 90)) PI) as [E|E]; [rewrite E, cos_PI in Hc; lra|]. pose proof (sin_gt_0 (radians (lon + 90))). lra.
Qed.
End Parse.

(** Concrete cases *)
Example C71_partial_case : exists m, is_drone_camera m 0 (PI / 2) 0 /\ Rabs (m31 m) < 1 /\ forward_axis m = Vec 0 1 0.
Proof.
  exists (drone 0 (PI / 2) 0). split; [apply drone_is|]. unfold forward_axis, drone, below, starboard, nose, cross, vadd, vscale. cbn [m31 m32 m33 vx vy vz].
  rewrite sin_0, cos_0, sin_PI2, cos_PI2. split; [|f_equal; ring]. match goal with |- Rabs ?a < _ => replace a with 0 by ring end. rewrite Rabs_R0. lra.
Qed.
Example C71_refuted_case : extract_opk (fun _ => Some 0) [{["@Camera:Yaw" := "0"; "@Camera:Pitch" := "0"; "@Camera:Roll" := "0"]}] (Some (45, 10)) (Some 100) = Some (0, 0, 100).
Proof.
  destruct (C71_opk_refuted (fun _ => Some 0) {["@Camera:Yaw" := "0"; "@Camera:Pitch" := "0"; "@Camera:Roll" := "0"]} [] 45 10 (Some 100)) as [-> _]; try done; try lra.
  - intros a [= <-]. lra.
  - do 2 f_equal. lra.
Qed.
Print Assumptions C71_angles_read.
Print Assumptions C71_opk_partial.
Print Assumptions C71_opk_refuted.
