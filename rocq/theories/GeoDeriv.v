(** Derivatives of the geodetic conversion with respect to latitude, longitude and altitude. *)
From Coq Require Import Reals Lra.
From Coquelicot Require Import Coquelicot.
From Verif Require Import Base Lin GeoModel GeoSpec GeoProofs.
Local Open Scope R_scope.

Local Notation k := (PI / 180).
Lemma is_derive_L t : is_derive L t ((WGS84_a ^ 2 - WGS84_b ^ 2) * sin t * cos t * L t ^ 3).
Proof.
  pose proof (D2_pos t) as H. assert (0 < sqrt (D2 t)) as Hs by (apply sqrt_lt_R0, H).
  unfold L. unfold D2 in *. auto_derive; change (WGS84_a * (WGS84_a * 1) * (cos t * (cos t * 1)) + WGS84_b * (WGS84_b * 1) * (sin t * (sin t * 1))) with (WGS84_a ^ 2 * cos t ^ 2 + WGS84_b ^ 2 * sin t ^ 2).
  { repeat split; [exact H|lra]. }
  set (q := sqrt _) in *. field. lra.
Qed.
Lemma is_derive_L_lat lat : is_derive (fun x => L (radians x)) lat ((WGS84_a ^ 2 - WGS84_b ^ 2) * sin (radians lat) * cos (radians lat) * L (radians lat) ^ 3 * k).
Proof.
  replace ((WGS84_a ^ 2 - WGS84_b ^ 2) * sin (radians lat) * cos (radians lat) * L (radians lat) ^ 3 * k) with (scal k ((WGS84_a ^ 2 - WGS84_b ^ 2) * sin (radians lat) * cos (radians lat) * L (radians lat) ^ 3)) by (unfold scal; simpl; unfold mult; simpl; ring).
  apply (is_derive_comp L radians); [apply is_derive_L|]. unfold radians. auto_derive; [exact I|ring].
Qed.

Lemma is_derive_cos_term (M : R -> R) A h C x d : is_derive M x d ->
  is_derive (fun x => (A * M x + h) * cos (x * k) * C) x (A * d * cos (x * k) * C + (A * M x + h) * (- sin (x * k) * k) * C).
Proof. intros H. pose proof (is_derive_unique _ _ _ H) as HD. assert (ex_derive M x) by (eexists; exact H). auto_derive; [repeat split; assumption|]. change (Derive (fun x0 : R => M x0) x) with (Derive M x). rewrite HD. ring. Qed.
Lemma is_derive_sin_term (M : R -> R) A h x d : is_derive M x d ->
  is_derive (fun x => (A * M x + h) * sin (x * k)) x (A * d * sin (x * k) + (A * M x + h) * (cos (x * k) * k)).
Proof. intros H. pose proof (is_derive_unique _ _ _ H) as HD. assert (ex_derive M x) by (eexists; exact H). auto_derive; [repeat split; assumption|]. change (Derive (fun x0 : R => M x0) x) with (Derive M x). rewrite HD. ring. Qed.

Lemma derive_lat lat lon alt : curve_derivative (fun x => ecef_from_lla x lon alt) lat
  (vscale ((WGS84_a ^ 2 * WGS84_b ^ 2 * L (radians lat) ^ 3 + alt) * k) (col2 (af_mat (ecef_from_topocentric_transform lat lon alt)))).
Proof.
  pose proof (is_derive_L_lat lat) as HL. pose proof (L_sq (radians lat)) as HL2. pose proof (sc2 (radians lat)) as Hsc. unfold D2 in HL2.
  unfold curve_derivative, ecef_from_topocentric_transform, col2, vscale. cbn [vx vy vz m12 m22 m32 af_mat].
  repeat split; apply is_derive_Reals.
  - eapply (eq_rect _ (is_derive _ lat)); [apply (is_derive_cos_term (fun x => L (radians x)) (WGS84_a ^ 2) alt (cos (radians lon)) lat _ HL)|]. cbv beta. match goal with |- ?a = ?b => change (@eq R a b) end. unfold radians in *. set (c := cos (lat * k)) in *. set (s := sin (lat * k)) in *. set (l := L (lat * k)) in *. clearbody c s l. clear HL.
    transitivity (k * cos (lon * k) * (WGS84_a ^ 2 * l ^ 3 * s * ((WGS84_a ^ 2 - WGS84_b ^ 2) * c ^ 2) - WGS84_a ^ 2 * l * s * (l * l * (WGS84_a ^ 2 * c ^ 2 + WGS84_b ^ 2 * s ^ 2)) - alt * s)); [rewrite HL2; ring|].
    transitivity (k * cos (lon * k) * (- (WGS84_a ^ 2 * WGS84_b ^ 2 * l ^ 3 * s * (s * s + c * c)) - alt * s)); [ring|rewrite Hsc; ring].
  - eapply (eq_rect _ (is_derive _ lat)); [apply (is_derive_cos_term (fun x => L (radians x)) (WGS84_a ^ 2) alt (sin (radians lon)) lat _ HL)|]. cbv beta. match goal with |- ?a = ?b => change (@eq R a b) end. unfold radians in *. set (c := cos (lat * k)) in *. set (s := sin (lat * k)) in *. set (l := L (lat * k)) in *. clearbody c s l. clear HL.
    transitivity (k * sin (lon * k) * (WGS84_a ^ 2 * l ^ 3 * s * ((WGS84_a ^ 2 - WGS84_b ^ 2) * c ^ 2) - WGS84_a ^ 2 * l * s * (l * l * (WGS84_a ^ 2 * c ^ 2 + WGS84_b ^ 2 * s ^ 2)) - alt * s)); [rewrite HL2; ring|].
    transitivity (k * sin (lon * k) * (- (WGS84_a ^ 2 * WGS84_b ^ 2 * l ^ 3 * s * (s * s + c * c)) - alt * s)); [ring|rewrite Hsc; ring].
  - eapply (eq_rect _ (is_derive _ lat)); [apply (is_derive_sin_term (fun x => L (radians x)) (WGS84_b ^ 2) alt lat _ HL)|]. cbv beta. match goal with |- ?a = ?b => change (@eq R a b) end. unfold radians in *. set (c := cos (lat * k)) in *. set (s := sin (lat * k)) in *. set (l := L (lat * k)) in *. clearbody c s l. clear HL.
    transitivity (k * (WGS84_b ^ 2 * l ^ 3 * c * ((WGS84_a ^ 2 - WGS84_b ^ 2) * s ^ 2) + WGS84_b ^ 2 * l * c * (l * l * (WGS84_a ^ 2 * c ^ 2 + WGS84_b ^ 2 * s ^ 2)) + alt * c)); [rewrite HL2; ring|].
    transitivity (k * (WGS84_a ^ 2 * WGS84_b ^ 2 * l ^ 3 * c * (s * s + c * c) + alt * c)); [ring|rewrite Hsc; ring].
Qed.
Lemma derive_lon lat lon alt : curve_derivative (fun x => ecef_from_lla lat x alt) lon
  (vscale ((WGS84_a ^ 2 * L (radians lat) + alt) * cos (radians lat) * k) (col1 (af_mat (ecef_from_topocentric_transform lat lon alt)))).
Proof.
  unfold curve_derivative, ecef_from_topocentric_transform, col1, vscale. cbn [vx vy vz m11 m21 m31 af_mat].
  repeat split; apply is_derive_Reals.
  - apply (is_derive_ext (fun x => (WGS84_a ^ 2 * L (radians lat) + alt) * cos (radians lat) * cos (x * k))); [intros; reflexivity|]. auto_derive; [exact I|]. unfold radians. ring.
  - apply (is_derive_ext (fun x => (WGS84_a ^ 2 * L (radians lat) + alt) * cos (radians lat) * sin (x * k))); [intros; reflexivity|]. auto_derive; [exact I|]. unfold radians. ring.
  - apply (is_derive_ext (fun x => (WGS84_b ^ 2 * L (radians lat) + alt) * sin (radians lat))); [intros; reflexivity|]. auto_derive; [exact I|]. ring.
Qed.
Lemma derive_alt lat lon alt : curve_derivative (fun x => ecef_from_lla lat lon x) alt (col3 (af_mat (ecef_from_topocentric_transform lat lon alt))).
Proof.
  unfold curve_derivative, ecef_from_topocentric_transform, col3. cbn [vx vy vz m13 m23 m33 af_mat].
  repeat split; apply is_derive_Reals.
  - apply (is_derive_ext (fun x => (WGS84_a ^ 2 * L (radians lat) + x) * cos (radians lat) * cos (radians lon))); [intros; reflexivity|]. auto_derive; [exact I|]. ring.
  - apply (is_derive_ext (fun x => (WGS84_a ^ 2 * L (radians lat) + x) * cos (radians lat) * sin (radians lon))); [intros; reflexivity|]. auto_derive; [exact I|]. ring.
  - apply (is_derive_ext (fun x => (WGS84_b ^ 2 * L (radians lat) + x) * sin (radians lat))); [intros; reflexivity|]. auto_derive; [exact I|]. ring.
Qed.
