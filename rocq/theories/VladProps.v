(** C93: the vectors that images are compared by. *)
From stdpp Require Import prelude strings gmap.
From Coq Require Import Reals Lra Lia.
From Verif Require Import Base VladModel VladSpec VladProofs.
Local Open Scope R_scope.

(** The descriptor of an image has, for every center and coordinate, the sum of the differences to the center of the features to which it is the nearest *)
Theorem C93_descriptor features centers : well_formed centers -> m_cols centers <> 0%nat -> m_rows centers <> [] -> well_formed features -> m_cols features = m_cols centers ->
  exists v, compute_vlad_descriptor features centers = Ok v /\ length v = (length (m_rows centers) * m_cols centers)%nat /\
  forall j d, (j < length (m_rows centers))%nat -> (d < m_cols centers)%nat -> residual centers j d (m_rows features) (component v (j * m_cols centers + d)).
Proof.
  intros Hwf Hc Hr Hf Ecols. unfold compute_vlad_descriptor. rewrite decide_False by (intros [E%nil_length_inv|E]; done).
  destruct (add_features_spec centers Hwf Hc Hr (m_rows features) (replicate (length (m_rows centers) * m_cols centers) 0)) as [Hl H].
  { by rewrite replicate_length. } { intros f Hin. rewrite <- Ecols. by apply Hf. }
  eexists. split; [reflexivity|]. split; [by rewrite Hl, replicate_length|]. intros j d Hj Hd. destruct (H j d Hd Hj) as (s & Hs & E). rewrite E.
  assert (component (replicate (length (m_rows centers) * m_cols centers) 0) (j * m_cols centers + d) = 0) as ->; [|by rewrite Rplus_0_l].
  apply component_lookup, lookup_replicate_2. nia.
Qed.
(** Every feature has exactly one nearest center *)
Theorem C93_one_center centers f : well_formed centers -> m_rows centers <> [] -> length f = m_cols centers -> exists j, nearest centers f j /\ forall k, nearest centers f k -> k = j.
Proof. intros Hwf Hr Hf. destruct (best_center_nearest centers f Hwf Hf Hr) as (b & j & _ & Hn). exists j. split; [done|]. intros k Hk. by eapply nearest_unique. Qed.
(** No centers, or centers without coordinates, are an error *)
Theorem C93_no_centers features centers : compute_vlad_descriptor features centers = Err RuntimeError <-> m_rows centers = [] \/ m_cols centers = 0%nat.
Proof.
  unfold compute_vlad_descriptor. destruct (decide _) as [H|H].
  - split; [|done]. intros _. destruct H as [H%nil_length_inv|H]; tauto.
  - split; [done|]. intros [H2|H2]; exfalso; apply H; [left; by rewrite H2|by right].
Qed.
(** The order of the features does not matter, and the descriptor of features together is the sum of their descriptors *)
Theorem C93_order features features' centers : well_formed centers -> well_formed features -> m_cols features = m_cols centers -> m_cols features' = m_cols features -> m_rows features ≡ₚ m_rows features' ->
  compute_vlad_descriptor features centers = compute_vlad_descriptor features' centers.
Proof.
  intros Hwf Hf E1 E2 Hp. destruct (decide (length (m_rows centers) = 0%nat \/ m_cols centers = 0%nat)) as [H|H]. { unfold compute_vlad_descriptor. by rewrite !decide_True. }
  assert (m_rows centers <> []) as Hr. { intros E. apply H. left. by rewrite E. } assert (m_cols centers <> 0%nat) as Hc by tauto.
  assert (well_formed features') as Hf'. { intros r Hin. rewrite E2. apply Hf. by rewrite Hp. }
  destruct (C93_descriptor features centers Hwf Hc Hr Hf E1) as (v & -> & Hl & Hv). destruct (C93_descriptor features' centers Hwf Hc Hr Hf' ltac:(lia)) as (v' & -> & Hl' & Hv').
  f_equal. apply component_ext; [lia|]. intros i Hi. destruct (split_index (m_cols centers) i Hc) as [Ei Hm]. assert (i / m_cols centers < length (m_rows centers))%nat as Hj. { apply Nat.div_lt_upper_bound; lia. } rewrite Ei.
  eapply residual_unique; [by apply Hv|]. eapply residual_perm; [symmetry; exact Hp|]. by apply Hv'.
Qed.
Theorem C93_additive features1 features2 centers v1 v2 : well_formed centers -> m_cols centers <> 0%nat -> m_rows centers <> [] ->
  well_formed features1 -> well_formed features2 -> m_cols features1 = m_cols centers -> m_cols features2 = m_cols centers ->
  compute_vlad_descriptor features1 centers = Ok v1 -> compute_vlad_descriptor features2 centers = Ok v2 ->
  exists v, compute_vlad_descriptor (Matrix (m_cols centers) (m_rows features1 ++ m_rows features2)) centers = Ok v /\ forall i, component v i = component v1 i + component v2 i.
Proof.
  intros Hwf Hc Hr Hf1 Hf2 E1 E2 D1 D2.
  destruct (C93_descriptor features1 centers Hwf Hc Hr Hf1 E1) as (w1 & D1' & Hl1 & Hv1). rewrite D1 in D1'. injection D1' as <-.
  destruct (C93_descriptor features2 centers Hwf Hc Hr Hf2 E2) as (w2 & D2' & Hl2 & Hv2). rewrite D2 in D2'. injection D2' as <-.
  destruct (C93_descriptor (Matrix (m_cols centers) (m_rows features1 ++ m_rows features2)) centers Hwf Hc Hr) as (v & Hv & Hl & H); [|done|].
  { intros r. cbn [m_rows m_cols]. intros [Hin|Hin]%elem_of_app; [rewrite <- E1; by apply Hf1|rewrite <- E2; by apply Hf2]. }
  exists v. split; [done|]. intros i. destruct (decide (i < length v)%nat) as [Hi|Hi]; [|rewrite !component_beyond by lia; lra].
  destruct (split_index (m_cols centers) i Hc) as [Ei Hm]. assert (i / m_cols centers < length (m_rows centers))%nat as Hj. { apply Nat.div_lt_upper_bound; lia. } rewrite Ei.
  eapply residual_unique; [by apply H|]. cbn [m_rows]. apply residual_app; [by apply Hv1|by apply Hv2].
Qed.
(** Without descriptors, or with ones of another size or type, there is no histogram. With them the histogram has length 1, and its components are those of the descriptor
    under the signed square root, all times the same factor; it is not a number exactly if the descriptor is 0 *)
Theorem C93_histogram same_type words descriptors : well_formed words -> m_cols words <> 0%nat -> m_rows words <> [] -> (forall d, descriptors = Some d -> well_formed d) ->
  match vlad_histogram same_type words descriptors with
  | Ok None => descriptors = None \/ same_type = false \/ exists d, descriptors = Some d /\ m_cols d <> m_cols words
  | Ok (Some None) => exists d v, descriptors = Some d /\ compute_vlad_descriptor d words = Ok v /\ forall i, component v i = 0
  | Ok (Some (Some h)) => exists d v, descriptors = Some d /\ compute_vlad_descriptor d words = Ok v /\ length h = length v /\ unit_length h /\
      forall i, component h i * Rabs (component h i) * sum_to (length v) (fun i => Rabs (component v i)) = component v i
  | Err _ => False
  end.
Proof.
  intros Hwf Hc Hr Hd. unfold vlad_histogram, unnormalized_vlad. destruct descriptors as [d|]; [|by left]. destruct (decide _) as [E|E]; [|right; right; eauto]. destruct same_type; [|right; by left].
  destruct (C93_descriptor d words Hwf Hc Hr (Hd d eq_refl)) as (v & Ev & _); [done|]. rewrite Ev. cbn [res_bind fmap option_fmap option_map]. pose proof (normalize_spec v) as H. destruct (signed_square_root_normalize v) as [h|]; exists d, v; done.
Qed.
(** An image without features gets a histogram of not-a-numbers, whatever the centers *)
Theorem C93_no_features_refuted words : m_cols words <> 0%nat -> m_rows words <> [] -> vlad_histogram true words (Some (Matrix (m_cols words) [])) = Ok (Some None).
Proof.
  intros Hc Hr. unfold vlad_histogram, unnormalized_vlad, compute_vlad_descriptor. cbn [m_cols m_rows]. rewrite decide_True by done. rewrite decide_False by (intros [E%nil_length_inv|E]; done). cbn [res_bind foldl fmap option_fmap option_map].
  do 2 f_equal. unfold signed_square_root_normalize. rewrite norm_root. rewrite (sum_to_ext _ _ (fun _ => 0)).
  - rewrite sum_to_zero, sqrt_0. destruct (Req_EM_T 0 0); done.
  - intros i Hi. rewrite replicate_length in Hi. rewrite (component_lookup _ i 0); [apply Rabs_R0|]. by apply lookup_replicate_2.
Qed.
(** The distances of an image are those to the other images that have a histogram, in their order; none if it has no histogram. The distance is the Euclidean one, the same from
    both sides, and at most 2 between histograms of length 1 *)
Theorem C93_distances descriptors image others n : (forall im v, descriptors !! im = Some v -> length v = n) ->
  (descriptors !! image = None -> compute_vlad_distances descriptors image others = ([], [])) /\
  forall reference, descriptors !! image = Some reference ->
  let result := compute_vlad_distances descriptors image others in
  result.2 = filter (fun c => c <> image /\ is_Some (descriptors !! c)) others /\ length result.1 = length result.2 /\
  forall k c d v, result.2 !! k = Some c -> result.1 !! k = Some d -> descriptors !! c = Some v ->
    0 <= d /\ d * d = distance2 n reference v /\ (unit_length reference -> unit_length v -> d <= 2).
Proof.
  intros Hl. split. { intros E. unfold compute_vlad_distances. by rewrite E. }
  intros reference Hr. cbn zeta. rewrite (vlad_distances_spec descriptors image others reference Hr). cbn [fst snd]. split; [done|]. split; [by rewrite fmap_length|].
  intros k c d v Hk Hd Hv. rewrite list_lookup_fmap, Hk in Hd. cbn [fmap option_fmap option_map] in Hd. injection Hd as <-. rewrite Hv. cbn [default from_option Datatypes.id].
  rewrite (norm_distance n) by eauto. pose proof (distance2_nonneg n reference v) as H0. split; [apply sqrt_pos|]. split; [by apply sqrt_sqrt|].
  intros Hu Hu'. assert (distance2 n reference v <= 4) as H4 by (apply distance2_units; eauto). rewrite <- (sqrt_square 2) by lra. apply sqrt_le_1_alt. lra.
Qed.
Theorem C93_symmetric n u v : distance2 n u v = distance2 n v u /\ 0 <= distance2 n u v.
Proof. split; [apply distance2_sym|apply distance2_nonneg]. Qed.
(** The histogram of words counts every word with the logarithm of the inverse of its share, and adds up to 1 *)
Theorem C93_words frequencies words : (2 <= length frequencies)%nat -> (forall j, (j < length frequencies)%nat -> 0 < component frequencies j) ->
  Forall (fun w => (0 <= w < Z.of_nat (length frequencies))%Z) words -> words <> [] ->
  exists h, bow_histogram frequencies words = Ok (Some h) /\ length h = length frequencies /\ (forall i, 0 <= component h i) /\ sum_to (length h) (component h) = 1 /\
    let score i := INR (length (filter (fun w => w = Z.of_nat i) words)) * ln (sum_to (length frequencies) (component frequencies) / component frequencies i) in
    forall i, (i < length frequencies)%nat -> component h i * sum_to (length frequencies) score = score i.
Proof. apply bow_histogram_spec. Qed.
(** A word that is not in the vocabulary is a ValueError, and nothing else is *)
Theorem C93_unknown_words frequencies words e : bow_histogram frequencies words = Err e <-> e = ValueError /\ ~ Forall (fun w => (0 <= w < Z.of_nat (length frequencies))%Z) words.
Proof. destruct (bow_histogram_cases frequencies words) as [[H E]|[H E]]; rewrite E; split; try done; [by intros [_ ?]|by intros [= <-]|by intros [-> _]]. Qed.
(** The distance between histograms of words: between 0 and 2, 0 only between equal ones, the same from both sides, no shorter by a detour *)
Theorem C93_word_distance n u v w : length u = n -> length v = n -> length w = n ->
  0 <= bow_distance u v /\ (bow_distance u v = 0 <-> u = v) /\ bow_distance u v = bow_distance v u /\ bow_distance u w <= bow_distance u v + bow_distance v w /\
  ((forall i, 0 <= component u i) -> (forall i, 0 <= component v i) -> sum_to n (component u) = 1 -> sum_to n (component v) = 1 -> bow_distance u v <= 2).
Proof.
  intros Hu Hv Hw. rewrite (bow_distance_sum n u v), (bow_distance_sum n v u), (bow_distance_sum n u w), (bow_distance_sum n v w) by done. split_and!.
  - apply sum_to_nonneg. intros. apply Rabs_pos.
  - split; [intros E|intros ->]; [|rewrite (sum_to_ext _ _ (fun _ => 0)); [apply sum_to_zero|]; intros; rewrite Rminus_eq_0; apply Rabs_R0].
    apply component_ext; [lia|]. intros d Hd. assert (Rabs (component u d - component v d) = 0) as H. { apply (sum_to_null n (fun i => Rabs (component u i - component v i)) d); [intros; apply Rabs_pos|done|lia]. }
    destruct (Req_EM_T (component u d - component v d) 0) as [|Hn]; [lra|]. by apply Rabs_no_R0 in Hn.
  - apply sum_to_ext. intros. apply Rabs_minus_sym.
  - rewrite <- sum_to_plus. apply sum_to_le. intros i _. replace (component u i - component w i) with (component u i - component v i + (component v i - component w i)) by lra. apply Rabs_triang.
  - intros Pu Pv Eu Ev. replace 2 with (sum_to n (component u) + sum_to n (component v)) by lra. rewrite <- sum_to_plus. apply sum_to_le. intros i _. specialize (Pu i). specialize (Pv i). apply Rabs_le. lra.
Qed.
Print Assumptions C93_descriptor.
Print Assumptions C93_one_center.
Print Assumptions C93_no_centers.
Print Assumptions C93_order.
Print Assumptions C93_additive.
Print Assumptions C93_histogram.
Print Assumptions C93_no_features_refuted.
Print Assumptions C93_distances.
Print Assumptions C93_symmetric.
Print Assumptions C93_words.
Print Assumptions C93_unknown_words.
Print Assumptions C93_word_distance.

(** * Non-vacuity *)
Definition example_centers : matrix := Matrix 2 [[0; 0]; [10; 0]].
Example example_centers_good : well_formed example_centers /\ m_cols example_centers <> 0%nat /\ m_rows example_centers <> [].
Proof. split; [|done]. intros r Hr. cbn in Hr. apply elem_of_cons in Hr as [->|Hr%elem_of_list_singleton]; [done|by subst]. Qed.
(** Three features, one near the first center and two near the second *)
Example example_descriptor : compute_vlad_descriptor (Matrix 2 [[1; 2]; [9; 3]; [12; 1]]) example_centers = Ok [1; 2; 1; 4].
Proof.
  unfold compute_vlad_descriptor, example_centers. cbn [m_rows m_cols length]. rewrite decide_False by (intros [?|?]; done). f_equal. cbn [foldl].
  unfold add_feature, best_center, squared_norm, total. cbn [m_rows m_cols zip_with foldr].
  repeat (destruct (Rlt_dec _ _); [lra|] || (destruct (Rlt_dec _ _); [|lra]) ). cbn. repeat (f_equal; try lra).
Qed.
Example example_words : exists h, bow_histogram [1; 1] [0%Z; 1%Z; 1%Z] = Ok (Some h) /\ component h 0 = / 3 /\ component h 1 = 2 / 3.
Proof.
  destruct (bow_histogram_spec [1; 1] [0%Z; 1%Z; 1%Z]) as (h & E & _ & _ & _ & H); [cbn; lia| |repeat constructor; cbn; lia|done|].
  { intros [|[|j]] Hj; cbn; try lra. cbn in Hj. lia. }
  exists h. split; [done|]. cbn zeta in H. pose proof (H 0%nat ltac:(cbn; lia)) as H0. pose proof (H 1%nat ltac:(cbn; lia)) as H1. cbn [length sum_to component nth] in H0, H1.
  assert (filter (fun w => w = Z.of_nat 0) [0%Z; 1%Z; 1%Z] = [0%Z]) as E0 by done. assert (filter (fun w => w = Z.of_nat 1) [0%Z; 1%Z; 1%Z] = [1%Z; 1%Z]) as E1 by done. rewrite E0, E1 in H0, H1. cbn [length INR] in H0, H1.
  replace ((0 + 1 + 1) / 1) with 2 in H0, H1 by field. assert (0 < ln 2) as Hp by (apply ln_pos; lra).
  split; apply (Rmult_eq_reg_r (ln 2)); try lra; unfold component in *; lra.
Qed.
