{
 "claims": [
  {
   "property": "C01",
   "status": "proved",
   "theorems": [
    "C01_same_name_iff_linked",
    "C01_total",
    "C01_name_stable",
    "C01_iteration"
   ],
   "note": "whole class modelled; tie-breaking comparison arbitrary"
  },
  {
   "property": "C02",
   "status": "proved",
   "theorems": [
    "C02_tracks_are_components",
    "C02_total",
    "C02_min_length_refuted"
   ],
   "note": "for all matches/features and orders of the loops; C02_min_length_refuted records that min_length counts features of components, before the table of features is consulted"
  },
  {
   "property": "C03",
   "status": "proved",
   "theorems": [
    "C03_get_observation",
    "C03_get_shot_observations",
    "C03_get_track_observations",
    "C03_remove_outcome",
    "C03_ids",
    "C03_consistent"
   ],
   "note": "all histories of add/remove; all getters"
  },
  {
   "property": "C04",
   "status": "proved",
   "theorems": [
    "C04_round_trip",
    "C04_wrong_line_rejected",
    "C04_every_line_is_loaded",
    "C04_unknown_version_rejected",
    "C04_version_1",
    "C04_version_0",
    "C04_non_numeric_version_refuted",
    "C04_depth_prior_lost_refuted"
   ],
   "note": "for every printing/parsing of doubles that is self-consistent; refuted parts: non numeric versions are accepted as version 0, depth priors are not stored"
  },
  {
   "property": "C05",
   "status": "proved",
   "theorems": [
    "C05_merge",
    "C05_observations_lost_refuted"
   ],
   "note": "joining is exact and no shot of a track is lost; C05_observations_lost_refuted: an observation is overwritten when a cluster has two features in one shot"
  },
  {
   "property": "C06",
   "status": "proved",
   "theorems": [
    "C06_sub_manager"
   ],
   "note": "for every iteration order of the hash maps"
  },
  {
   "property": "C07",
   "status": "proved",
   "theorems": [
    "C07_common_observations",
    "C07_pairs_connectivity",
    "C07_count_is_common",
    "C07_repeated_filter_counts_twice"
   ],
   "note": "exact counts, including the behaviour with repeated track ids in the filter"
  },
  {
   "property": "C08",
   "status": "proved",
   "theorems": [
    "C08_symmetric",
    "C08_get_observation",
    "C08_add_observation",
    "C08_remove_observation",
    "C08_errors",
    "C08_shared_feature_refuted",
    "C08_readd_refuted"
   ],
   "note": "all histories under the stated protocol; two _refuted witnesses show the protocol is needed"
  },
  {
   "property": "C09",
   "status": "proved",
   "theorems": [
    "C09_no_dangling",
    "C09_remove_shot",
    "C09_remove_landmark",
    "C09_remove_missing",
    "C09_remove_instance_refuted"
   ],
   "note": "all histories under the protocol; C09_remove_instance_refuted: removing a non-empty rig instance leaves dangling shots"
  },
  {
   "property": "C10",
   "status": "proved",
   "theorems": [
    "C10_clean",
    "C10_clear"
   ],
   "note": "exact effect, for every iteration order"
  },
  {
   "property": "C11",
   "status": "proved",
   "theorems": [
    "C11_pose_is_composition",
    "C11_create_shot",
    "C11_update_instance",
    "C11_set_pose",
    "C11_near_identity_refuted"
   ],
   "note": "all maps reachable under the protocol with valid poses; C11_near_identity_refuted: a single shot whose rig camera is within 1e-15 of the identity reads the instance pose instead"
  },
  {
   "property": "C12",
   "status": "proved",
   "theorems": [
    "C12_group",
    "C12_action",
    "C12_accessors",
    "C12_set_rotation_origin_refuted",
    "C12_rigid_laws"
   ],
   "note": "every pose buildable through the API; C12_set_rotation_origin_refuted: assigning only the rotation leaves a stale origin"
  },
  {
   "property": "C13",
   "status": "proved",
   "theorems": [
    "C13_inverse",
    "C13_python_agrees",
    "C13_vector",
    "C13_zero_scale_refuted"
   ],
   "note": "scale non zero (C13_zero_scale_refuted)"
  },
  {
   "property": "C14",
   "status": "proved",
   "theorems": [
    "C14_points_and_cameras",
    "C14_projections_unchanged",
    "C14_undo"
   ],
   "note": "whole map including rigs; also undone by the inverse similarity"
  },
  {
   "property": "C15",
   "status": "proved",
   "theorems": [
    "C15_ordered_pairs",
    "C15_match_candidates",
    "C15_all_strategies",
    "C15_empty_name_refuted"
   ],
   "note": "every iteration order and every behaviour of set.pop; image names non-empty (C15_empty_name_refuted)"
  },
  {
   "property": "C16",
   "status": "proved",
   "theorems": [
    "C16_exhaustive"
   ],
   "note": "every image list; also when the GPS strategies are disabled by a missing position"
  },
  {
   "property": "C17",
   "status": "proved",
   "theorems": [
    "C17_order",
    "C17_order_only",
    "C17_reference_subset_refuted"
   ],
   "note": "refs = candidates as stated; C17_reference_subset_refuted: with a subset of references the wrong positions are used"
  },
  {
   "property": "C18",
   "status": "proved",
   "theorems": [
    "C18_pairs_from_neighbors",
    "C18_bow"
   ],
   "note": "pairs_from_neighbors for every table, and the whole bag of words selection without GPS preselection"
  },
  {
   "property": "C19",
   "status": "partial",
   "theorems": [
    "C19_distance_partial",
    "C19_time",
    "C19_separate_references_refuted"
   ],
   "note": "proved when the references are candidates (and for capture times always); otherwise false: C19_separate_references_refuted, phantom points at the origin hide candidates"
  },
  {
   "property": "C20",
   "status": "proved",
   "theorems": [
    "C20_brute_force",
    "C20_brute_force_symmetric",
    "C20_flann_symmetric",
    "C20_words",
    "C20_words_symmetric",
    "C20_words_single_candidate_refuted"
   ],
   "note": "brute force (with or without epipolar mask), FLANN with any answers of the index, and words; the word matcher accepts a lone candidate at any distance (C20_words_single_candidate_refuted)"
  },
  {
   "property": "C21",
   "status": "proved",
   "theorems": [
    "C21_unfilter",
    "C21_same_feature",
    "C21_match",
    "C21_match_one_to_one"
   ],
   "note": "unfilter_matches and the whole match() pipeline, for every matcher output in range, every filter setting and every RANSAC answer"
  },
  {
   "property": "C22",
   "status": "proved",
   "theorems": [
    "C22_raises",
    "C22_load",
    "C22_find",
    "C22_action",
    "C22_second_reference_refuted"
   ],
   "note": "when the first image of every pair is a reference, as pairs_selection guarantees (C22_action composes both); otherwise false, C22_second_reference_refuted: columns are not swapped"
  },
  {
   "property": "C23",
   "status": "proved",
   "theorems": [
    "C23_exactly_once",
    "C23_plan",
    "C23_one_process"
   ],
   "note": "every interleaving of readers, detectors, queue and lock-free counter; no failure of loading or detection, no put timeout"
  },
  {
   "property": "C24",
   "status": "partial",
   "theorems": [
    "C24_bounded",
    "C24_progress_partial",
    "C24_small_queue_refuted",
    "C24_one_process_refuted",
    "C24_no_image_refuted"
   ],
   "note": "bounded runs always; deadlock freedom when the queue is unbounded or holds one sentinel per reader. Otherwise false: C24_small_queue_refuted, C24_one_process_refuted; C24_no_image_refuted: crash without images"
  },
  {
   "property": "C25",
   "status": "proved",
   "theorems": [
    "C25_partition",
    "C25_members",
    "C25_disjoint",
    "C25_assignments"
   ],
   "note": "every regex engine; also the per image assignments. The reserved word INCOMPLETE_INSTANCE_GROUP and empty camera names give single shots, stated in the theorem"
  },
  {
   "property": "C26",
   "status": "proved",
   "theorems": [
    "C26_camera_json_round_trip",
    "C26_file_contents",
    "C26_read_cameras_round_trip",
    "C26_cameras_json_round_trip",
    "C26_absent_coefficients_are_zero",
    "C26_zero_focal_refuted"
   ],
   "note": "every camera a program can hold; the models with two focal lengths need a non-zero focal length (division)"
  },
  {
   "property": "C27",
   "status": "proved",
   "theorems": [
    "C27_camera_vector_round_trip",
    "C27_read_vectors_round_trip",
    "C27_wrong_length_refused"
   ],
   "note": "every camera; a vector of the wrong length is refused"
  },
  {
   "property": "C28",
   "status": "partial",
   "theorems": [
    "C28_metadata_partial",
    "C28_lost_refuted",
    "C28_invents_nothing"
   ],
   "note": "exactly the measurements that have a place in the file come back, none is invented; opk_angles, opk_accuracy and attributes are never written: C28_lost_refuted"
  },
  {
   "property": "C29",
   "status": "proved",
   "theorems": [
    "C29_round_trip",
    "C29_stable",
    "C29_shared_name_refuted"
   ],
   "note": "every map built through the API that is saveable (RecSpec.v); a second round trip loses nothing more; C29_shared_name_refuted: a shot with the name of a pano shot loses its rig"
  },
  {
   "property": "C30",
   "status": "proved",
   "theorems": [
    "C30_json_saves",
    "C30_json_round_trip",
    "C30_json_lla_vec",
    "C30_json_lossless",
    "C30_identifiers_lost_refuted",
    "C30_gcp_list",
    "C30_gcp_list_observations",
    "C30_gcp_list_bad_line",
    "C30_header_wgs84",
    "C30_header_utm",
    "C30_unknown_altitude_refuted"
   ],
   "note": "json and gcp_list.txt; findings: C30_unknown_altitude_refuted (lines with altitude nan are never grouped), C30_identifiers_lost_refuted (role, survey point id, observation uid are not saved)"
  },
  {
   "property": "C31",
   "status": "partial",
   "theorems": [
    "C31_well_formed_partial",
    "C31_vertices",
    "C31_views_without_tracks_refuted"
   ],
   "note": "all flag combinations except point_num_views without a tracks manager, where the file is ill formed: C31_views_without_tracks_refuted; the vertices themselves: C31_vertices"
  },
  {
   "property": "C32",
   "status": "proved",
   "theorems": [
    "C32_frame_rigid",
    "C32_axes_east_north_up",
    "C32_vertical",
    "C32_altitude_is_distance",
    "C32_topocentric_lossless",
    "C32_gps_distance_metric"
   ],
   "note": "exact real arithmetic; C++ and Python compute the same formulas"
  },
  {
   "property": "C33",
   "status": "proved",
   "theorems": [
    "C33_lla_of_ecef",
    "C33_ecef_of_lla",
    "C33_lla_topocentric",
    "C33_longitude_exact",
    "C33_equator_exact"
   ],
   "note": "on the ellipsoid (altitude 0), both directions; at other altitudes Bowring's formula is an approximation: only the longitude (and the whole equator) is exact"
  },
  {
   "property": "C34",
   "status": "partial",
   "theorems": [
    "C34_deep_copy_partial",
    "C34_lost_refuted",
    "C34_mixed_refuted"
   ],
   "note": "everything but colors, meshes and observations of pano shots, which the code loses (C34_lost_refuted); instances mixing shots and panos make the copy fail (C34_mixed_refuted)"
  },
  {
   "property": "C35",
   "status": "proved",
   "theorems": [
    "C35_inverse",
    "C35_cpp_agrees",
    "C35_box",
    "C35_upright"
   ],
   "note": "exact real arithmetic; Python and C++ conversions; EXIF orientations 1, 3, 6, 8 (others are a KeyError)"
  },
  {
   "property": "C36",
   "status": "proved",
   "theorems": [
    "C36_filters"
   ],
   "note": "exact arithmetic for the 85% threshold; positions abstracted to the outcome of each test"
  },
  {
   "property": "C37",
   "status": "proved",
   "theorems": [
    "C37_groups",
    "C37_partition",
    "C37_comma_refuted"
   ],
   "note": "for comma-free names; C37_comma_refuted shows a collision otherwise"
  },
  {
   "property": "C38",
   "status": "proved",
   "theorems": [
    "C38_count"
   ],
   "note": ""
  },
  {
   "property": "C39",
   "status": "partial",
   "theorems": [
    "C39_window",
    "C39_last_instance_refuted",
    "C39_size"
   ],
   "note": "exact window and size bound proved; that every instance can be used is false: C39_last_instance_refuted, the last one never is"
  },
  {
   "property": "C40",
   "status": "proved",
   "theorems": [
    "C40_set_parameter",
    "C40_model_determines_parameters",
    "C40_set_distortion_refuted",
    "C40_set_distortion_overwrites_focal"
   ],
   "note": "C40_set_distortion_refuted: assigning the distortion property also overwrites focal, aspect ratio and principal point"
  },
  {
   "property": "C41",
   "status": "proved",
   "theorems": [
    "C41_rotation_vector",
    "C41_axis_fixed"
   ],
   "note": "exact real arithmetic, through Eigen's quaternion algorithm"
  },
  {
   "property": "C42",
   "status": "proved",
   "theorems": [
    "C42_feature_cells",
    "C42_no_mask",
    "C42_segmentation",
    "C42_combined",
    "C42_grey_mask_refuted"
   ],
   "note": "cv2 nearest resizing modelled by its documented formula; C42_grey_mask_refuted: a mask with grey levels such as 254 combined with a segmentation (values 0/1, bitwise and) drops features although neither mask is 0"
  },
  {
   "property": "C43",
   "status": "proved",
   "theorems": [
    "C43_point_cloud_round_trip",
    "C43_point_cloud_well_formed",
    "C43_bad_file"
   ],
   "note": "for every formatting oracle that prints words"
  },
  {
   "property": "C44",
   "status": "proved",
   "theorems": [
    "C44_pose_transform",
    "C44_covariance",
    "C44_identity_pose_refuted",
    "C44_inverse_covariance",
    "C44_project",
    "C44_reprojection_error",
    "C44_panorama_error",
    "C44_partial_derivatives",
    "C44_small_rotation_refuted",
    "C44_zero_rotation"
   ],
   "note": "exact real arithmetic, all ten projection types; rotations of angle at most 2^-26 excluded because the claim is false there: C44_small_rotation_refuted, C44_zero_rotation, C44_identity_pose_refuted (the derivative with respect to the rotation has the opposite sign, e.g. for a camera with the identity pose)"
  },
  {
   "property": "C45",
   "status": "proved",
   "theorems": [
    "C45_project_documented",
    "C45_panorama",
    "C45_dual_documentation_refuted",
    "C45_bearing_unit",
    "C45_bearing_defined",
    "C45_project_bearing",
    "C45_bearing_project",
    "C45_project_direction",
    "C45_behind",
    "C45_dual_centre_refuted",
    "C45_dual_near_centre_refuted"
   ],
   "note": "exact real arithmetic, undistorted fisheye pixels between 2e-8 and pi-2e-8 from the centre (thresholds of the code). Findings: C45_dual_documentation_refuted (documentation of the dual model differs from the code), C45_dual_centre_refuted and C45_dual_near_centre_refuted (the bearing of a dual camera within 2e-6 of the image centre is NaN); distorted cameras are the subject of C47"
  },
  {
   "property": "C46",
   "status": "proved",
   "theorems": [
    "C46_projection_matrix",
    "C46_pixel_matrix",
    "C46_mapping_identity",
    "C46_mapping_same_ray"
   ],
   "note": "get_K_in_pixel_coordinates is exactly half a pixel away from the documented pixel coordinates: C46_pixel_matrix"
  },
  {
   "property": "C47",
   "status": "proved",
   "theorems": [
    "C47_bearing_accuracy",
    "C47_pixel_accuracy",
    "C47_pincushion"
   ],
   "note": "the derivative used by the code for the two coefficient model is not the true one, hence linear convergence only; Brown, FISHEYE62 and FISHEYE624 (two dimensional iterations) and dual cameras are not covered"
  },
  {
   "property": "C48",
   "status": "proved",
   "theorems": [
    "C48_midpoint_minimises",
    "C48_midpoint_defined",
    "C48_midpoint_exact",
    "C48_opposite_refuted",
    "C48_triangulate_sound",
    "C48_triangulate_complete",
    "C48_zero_min_angle_refuted",
    "C48_two_views_defined",
    "C48_two_views_midpoint",
    "C48_two_views_agree",
    "C48_two_views_exact",
    "C48_two_views_behind_refuted",
    "C48_many_views",
    "C48_epipolar_range",
    "C48_epipolar_zero",
    "C48_epipolar_match",
    "C48_dlt_exact",
    "C48_dlt_sound",
    "C48_dlt_complete",
    "C48_dlt_sideways_refuted"
   ],
   "note": "Findings: C48_opposite_refuted (the angle between opposite vectors is computed as 0 instead of pi), C48_zero_min_angle_refuted (with min_angle = 0 parallel rays are accepted with a point that is not a number), C48_two_views_behind_refuted (the two view solver accepts points behind both cameras), C48_dlt_sideways_refuted (a bearing with zero third component, possible with spherical cameras, gives one constraint instead of two: perfect observations may be rejected)"
  },
  {
   "property": "C49",
   "status": "proved",
   "theorems": [
    "C49_robust_sound",
    "C49_robust_best",
    "C49_robust_complete",
    "C49_robust_two_views",
    "C49_last_pair_never_drawn",
    "C49_last_pair_refuted",
    "C49_full_sound",
    "C49_full_complete",
    "C49_dlt_frame_refuted",
    "C49_features_frame",
    "C49_features_new",
    "C49_features_complete",
    "C49_features_order",
    "C49_unknown_type",
    "C49_observations"
   ],
   "note": "Findings: C49_last_pair_never_drawn and C49_last_pair_refuted (int(rand * (n - 1)) never draws the last pair of views: with three views whose first is wrong the track is never triangulated), C49_dlt_frame_refuted (triangulate_dlt gives camera frame bearings to the refinement, that expects world ones: perfect observations may be moved away), C49_unknown_type (an unknown triangulation_type silently does nothing). Also seen in the model: the loop counter is hidden by the pair (i, j), so that the stopping rule compares the optimal number of iterations with a view index; the point re-triangulated from the inliers is discarded"
  },
  {
   "property": "C50",
   "status": "proved",
   "theorems": [
    "C50_incremental_total",
    "C50_fuel_irrelevant",
    "C50_each_image_once",
    "C50_not_reconstructed_are_images",
    "C50_disjoint",
    "C50_rigs_together",
    "C50_shots_have_a_reason",
    "C50_largest_first",
    "C50_seeded",
    "C50_maximal",
    "C50_pairs_exhausted",
    "C50_bootstrap",
    "C50_growth",
    "C50_pairs"
   ],
   "note": "Geometry is universally quantified (any functions); what the geometric code computes is modelled elsewhere (C44-C49). Rig instances' names clashing with image names excluded."
  },
  {
   "property": "C51",
   "status": "proved",
   "theorems": [
    "C51_defined",
    "C51_interior_boundary",
    "C51_boundary",
    "C51_interior",
    "C51_size_single_shot",
    "C51_best_neighbours",
    "C51_size_refuted"
   ],
   "note": "The documented maximal interior size is exceeded with multi-camera rigs (C51_size_refuted). Boundary limited to a million shots in the code: hypothesis of C51_boundary."
  },
  {
   "property": "C52",
   "status": "proved",
   "theorems": [
    "C52_local_problem",
    "C52_local",
    "C52_poses_problem",
    "C52_poses",
    "C52_full_problem",
    "C52_full",
    "C52_full_rig_cameras",
    "C52_full_accuracy_refused",
    "C52_bias_kept_refuted",
    "C52_poses_prior_refuted"
   ],
   "note": "GCPs, parameter priors' standard deviations, up vectors and the solver itself are outside the model; two refuted sub-claims are recorded as _refuted theorems"
  },
  {
   "property": "C53",
   "status": "proved",
   "theorems": [
    "C53_remove_outliers",
    "C53_auto_refused",
    "C53_badly_conditioned",
    "C53_isolated",
    "C53_isolation_defined",
    "C53_scores_defined",
    "C53_isolated_similarity",
    "C53_isolated_few",
    "C53_auto_threshold_refuted"
   ],
   "note": "condition numbers are an arbitrary permutation invariant function; exact arithmetic; the AUTO threshold adds a scalar deviation to both coordinates of the mean error and can vanish (refuted theorem)"
  },
  {
   "property": "C54",
   "status": "proved",
   "theorems": [
    "C54_realign",
    "C54_offset",
    "C54_poses",
    "C54_points",
    "C54_geodetic",
    "C54_itself",
    "C54_geodetic_refuted"
   ],
   "note": "C54_geodetic_refuted: the rotation between the two local frames is ignored"
  },
  {
   "property": "C55",
   "status": "proved",
   "theorems": [
    "C55_result",
    "C55_best",
    "C55_exhaustive",
    "C55_confidence",
    "C55_diverges",
    "C55_terminates",
    "C55_angle",
    "C55_pose",
    "C55_line",
    "C55_line_found",
    "C55_line_refuted",
    "C55_similarity",
    "C55_model_inliers_refuted",
    "C55_msac_terminates_refuted"
   ],
   "note": "Exact arithmetic. Termination with MSAC or LMedS and local optimisation needs that refined models keep enough inliers: C55_msac_terminates_refuted shows an endless loop otherwise. Also refuted: that the inliers are those of `model` (they are those of `lo_model`), and that the line through two points is found when the first abscissa is 0. The probability argument of the python wrappers is ignored by the code."
  },
  {
   "property": "C56",
   "status": "proved",
   "theorems": [
    "C56_schedule",
    "C56_killed",
    "C56_rerun",
    "C56_repeat",
    "C56_forced",
    "C56_torn_stays",
    "C56_rerun_torn_refuted",
    "C56_legacy_refuted",
    "C56_stale_words_refuted"
   ],
   "note": "File contents are opaque; the extraction is a function of the image; the wall time in the report is fixed. Image names such that no file of one is a file of another (C56_names shows when)."
  },
  {
   "property": "C57",
   "status": "proved",
   "theorems": [
    "C57_result",
    "C57_total",
    "C57_torn_stays",
    "C57_rerun",
    "C57_repeat",
    "C57_overrides_late",
    "C57_overrides_refuted"
   ],
   "note": "The exif parsing of an image file and the camera made from metadata are parameters; parse (print d) = d is a hypothesis on JSON."
  },
  {
   "property": "C58",
   "status": "proved",
   "theorems": [
    "C58_overwrite",
    "C58_create_tracks",
    "C58_match_features",
    "C58_reconstruct",
    "C58_reference_kept",
    "C58_reference_made",
    "C58_torn_reference_refuted"
   ],
   "note": "What each stage computes from its inputs is a parameter; the list of its input files too, required disjoint from its outputs."
  },
  {
   "property": "C59",
   "status": "proved",
   "theorems": [
    "C59_kmeans",
    "C59_groups",
    "C59_covered",
    "C59_paths",
    "C59_group_errors",
    "C59_empty_group_refuted"
   ],
   "note": "float text is exact for the values written (hypothesis); k-means is any labelling with K non-empty clusters; links to images and other files, negative overlaps not modelled"
  },
  {
   "property": "C60",
   "status": "proved",
   "theorems": [
    "C60_names",
    "C60_problem",
    "C60_similarity",
    "C60_aligned",
    "C60_common_shots",
    "C60_attained",
    "C60_points",
    "C60_gps",
    "C60_hard_gps",
    "C60_common_camera",
    "C60_hard_names_refuted"
   ],
   "note": "the solver is any function that keeps constants and bounds; the choice of point pairs (resect_reconstruction) is a parameter; connected_reconstructions not modelled"
  },
  {
   "property": "C61",
   "status": "proved",
   "theorems": [
    "C61_succeeds",
    "C61_dictionary",
    "C61_nothing_else",
    "C61_flat",
    "C61_panorama",
    "C61_points",
    "C61_tracks",
    "C61_no_tracks",
    "C61_no_clash",
    "C61_clash_refuted"
   ],
   "note": "C61_clash_refuted shows the hypothesis on names is needed. What is written to files is what is returned."
  },
  {
   "property": "C62",
   "status": "proved",
   "theorems": [
    "C62_covered",
    "C62_same_direction",
    "C62_twice",
    "C62_render",
    "C62_render_tracks",
    "C62_tracks_kept",
    "C62_left_refuted",
    "C62_scaled",
    "C62_scaled_empty_refuted"
   ],
   "note": "C62_left_refuted: the view called left looks to the right (and conversely). C62_scaled_empty_refuted: a side may be rounded to 0. Sampling of colors (cv2.remap, cv2.resize) is not modelled."
  },
  {
   "property": "C63",
   "status": "proved",
   "theorems": [
    "C63_ptr",
    "C63_ptr_read",
    "C63_ptr_read_pan_tilt",
    "C63_roll_refuted",
    "C63_ptr_v2",
    "C63_ptr_v2_read",
    "C63_ptr_v2_onto",
    "C63_opk",
    "C63_opk_read",
    "C63_opk_onto",
    "C63_compass",
    "C63_compass_vertical",
    "C63_orientation"
   ],
   "note": "C63_roll_refuted: ptr_from_rotation reads rolls beyond 90 degrees as pi - roll. Angles smaller than 2^-52 (taken as 0 by OpenCV) are excluded by not_tiny."
  },
  {
   "property": "C64",
   "status": "proved",
   "theorems": [
    "C64_motions",
    "C64_horizontal"
   ],
   "note": "The singular value decomposition itself (numpy) is a parameter: orthogonal factors and ordered positive values."
  },
  {
   "property": "C65",
   "status": "proved",
   "theorems": [
    "C65_inliers",
    "C65_exact",
    "C65_most",
    "C65_reversal",
    "C65_plane_best_refuted",
    "C65_rotation_inliers"
   ],
   "note": "C65_plane_best_refuted: np.argmax(map(len, ...)) is 0 in Python 3, so the plane based method always returns the first candidate, even when it has no inliers and another one has all."
  },
  {
   "property": "C66",
   "status": "proved",
   "theorems": [
    "C66_position",
    "C66_altitude",
    "C66_dop",
    "C66_total",
    "C66_nothing_invented",
    "C66_no_latitude",
    "C66_dji",
    "C66_reference",
    "C66_reference_inside",
    "C66_latitude_alone_refuted",
    "C66_lower_case_refuted",
    "C66_dji_unsigned_refuted",
    "C66_antimeridian_refuted"
   ],
   "note": "Exact rationals. Four variants that do not hold are proved as *_refuted."
  },
  {
   "property": "C67",
   "status": "proved",
   "theorems": [
    "C67_same_camera",
    "C67_make_in_model",
    "C67_focal_35",
    "C67_focal_ratio",
    "C67_focal_35_first",
    "C67_sensor_table",
    "C67_unknown",
    "C67_make_refuted",
    "C67_resized_refuted",
    "C67_panorama_attribute_refuted"
   ],
   "note": "str(float) is any printing of numbers as words."
  },
  {
   "property": "C68",
   "status": "proved",
   "theorems": [
    "C68_local_time",
    "C68_offset",
    "C68_offset_refuted",
    "C68_gps",
    "C68_no_time",
    "C68_ordered",
    "C68_instant",
    "C68_short_gps_refuted"
   ],
   "note": "C68_offset_refuted, C68_short_gps_refuted and C68_round_refuted state where the code departs from the claim"
  },
  {
   "property": "C69",
   "status": "proved",
   "theorems": [
    "C69_camera",
    "C69_unknown_type",
    "C69_dual_refuted",
    "C69_entry",
    "C69_hard_coded_brown",
    "C69_hard_coded_perspective",
    "C69_all_images",
    "C69_independent",
    "C69_overrides",
    "C69_order_refuted",
    "C69_projection_refuted",
    "C69_case_refuted",
    "C69_focal_refuted"
   ],
   "note": "C69_order_refuted, C69_projection_refuted, C69_case_refuted, C69_focal_refuted and C69_dual_refuted state where the code departs from the claim"
  },
  {
   "property": "C70",
   "status": "proved",
   "theorems": [
    "C70_metadata",
    "C70_reconstruction_from_metadata",
    "C70_rig_refuted"
   ],
   "note": "The part about rig instances with several images is refuted (C70_rig_refuted). Angles that OpenCV takes for zero and gravity within 10^-8 of the optical axis (but not along it) are excluded by hypothesis."
  },
  {
   "property": "C71",
   "status": "partial",
   "theorems": [
    "C71_angles_read",
    "C71_opk_partial",
    "C71_opk_refuted"
   ],
   "note": "The code takes the north in the geocentric frame, so the angles are wrong: C71_opk_refuted. Proved: which tags give angles, and that the formula is right with the north of the local frame (C71_opk_partial)."
  },
  {
   "property": "C72",
   "status": "proved",
   "theorems": [
    "C72_succeeds",
    "C72_file",
    "C72_projection",
    "C72_frame",
    "C72_brown_refuted",
    "C72_missing_image_refuted",
    "C72_fisheye_refuted"
   ],
   "note": "brown cameras, reconstructed images not in the list and fisheye cameras: C72_*_refuted describe what the code does"
  },
  {
   "property": "C73",
   "status": "proved",
   "theorems": [
    "C73_quaternion",
    "C73_cameras",
    "C73_points",
    "C73_succeeds",
    "C73_square",
    "C73_not_square_refuted",
    "C73_brown_refuted"
   ],
   "note": "coordinates of views in images that are not square and brown cameras: C73_*_refuted"
  },
  {
   "property": "C74",
   "status": "partial",
   "theorems": [
    "C74_camera",
    "C74_fisheye_opencv_centred",
    "C74_fisheye_opencv_refuted",
    "C74_other_models",
    "C74_model_number",
    "C74_pose",
    "C74_identity_refuted",
    "C74_pair_id",
    "C74_pair_id_injective",
    "C74_match_rows",
    "C74_matches",
    "C74_ids",
    "C74_keypoints",
    "C74_points",
    "C74_image_points",
    "C74_image_line",
    "C74_pair_written",
    "C74_track_index_partial",
    "C74_track_index_refuted"
   ],
   "note": "Camera, pose, ids, matches and points proved for all inputs; the track index is proved only when all earlier features have a point (the code violates the rest, refuted), and the identity pose, opencv fisheye offsets and half-pixel keypoints are stated as the code's deviations."
  },
  {
   "property": "C75",
   "status": "proved",
   "theorems": [
    "C75_openmvs_images",
    "C75_openmvs_points",
    "C75_openmvs_views_refuted",
    "C75_openmvs_mask",
    "C75_pmvs_matrix",
    "C75_pmvs_resized",
    "C75_pmvs_vis"
   ],
   "note": "Images, cameras, points, matrices and vis.dat proved; the two deviations of the code are stated (C75_openmvs_views_refuted, C75_openmvs_mask)."
  },
  {
   "property": "C76",
   "status": "proved",
   "theorems": [
    "C76_transformation",
    "C76_reconstruction",
    "C76_rigs_refuted",
    "C76_saved",
    "C76_image_positions",
    "C76_dense_refuted"
   ],
   "note": "Proved for all invertible maps; rigs, saved rotations and dense clouds are stated as what the code does (C76_rigs_refuted, second half of C76_saved, C76_dense_refuted)."
  },
  {
   "property": "C77",
   "status": "partial",
   "theorems": [
    "C77_block_pose",
    "C77_pose_block",
    "C77_shot",
    "C77_shot_alone",
    "C77_two_rig_cameras",
    "C77_three_rig_cameras_partial",
    "C77_three_rig_cameras_refuted",
    "C77_up_vector",
    "C77_pan",
    "C77_pan_vertical",
    "C77_tilt",
    "C77_roll",
    "C77_roll_upside_down_refuted",
    "C77_gauge",
    "C77_linear_motion",
    "C77_linear_motion_direction_refuted",
    "C77_heatmap",
    "C77_std_deviation",
    "C77_barrier",
    "C77_barrier_refuted",
    "C77_prior",
    "C77_gps",
    "C77_gps_zero",
    "C77_point_prior",
    "C77_rig_camera_prior",
    "C77_rig_camera_prior_attained",
    "C77_camera_prior",
    "C77_depth",
    "C77_relative_motion",
    "C77_relative_rotation",
    "C77_common_position",
    "C77_shared_scale"
   ],
   "note": "C77_three_rig_cameras_partial: the third shot of a linear motion reads the wrong rig camera in one case (C77_three_rig_cameras_refuted); derivatives and the minimisation are not modelled"
  },
  {
   "property": "C78",
   "status": "proved",
   "theorems": [
    "C78_refused",
    "C78_not_finite",
    "C78_least_squares",
    "C78_exact",
    "C78_scale_refuted",
    "C78_decompose",
    "C78_plane_refused",
    "C78_plane_not_finite",
    "C78_plane_least_squares",
    "C78_plane_exact",
    "C78_robust_inliers",
    "C78_robust_exact"
   ],
   "note": "The singular value decomposition is a parameter assumed right for the covariance it receives. C78_scale_refuted records that the scale is not the least squares one."
  },
  {
   "property": "C79",
   "status": "proved",
   "theorems": [
    "C79_nothing",
    "C79_translation",
    "C79_two",
    "C79_least_squares",
    "C79_degenerate",
    "C79_exact",
    "C79_method",
    "C79_gps_positions",
    "C79_gcp_triangulated",
    "C79_constraints",
    "C79_unchanged",
    "C79_aligned",
    "C79_aligned_auto",
    "C79_at_gps",
    "C79_bias",
    "C79_gcp_altitude",
    "C79_no_altitude_refuted"
   ],
   "note": "C79_no_altitude_refuted shows that GCP without altitude are flattened in the wrong frame. of_camera simplifies rig cameras within 1e-15 of the identity."
  },
  {
   "property": "C80",
   "status": "proved",
   "theorems": [
    "C80_directions",
    "C80_front_refuted",
    "C80_plane",
    "C80_mirrored_refuted",
    "C80_untagged_refuted",
    "C80_slope_refuted",
    "C80_no_position",
    "C80_exact",
    "C80_level",
    "C80_clamp_refuted",
    "C80_aligned",
    "C80_aligned_auto"
   ],
   "note": "Four refuted sub-claims, see the theorems with suffix _refuted. C80_exact asks for a spread of 2e-8 and 2 cm, twice the thresholds of the code per axis."
  },
  {
   "property": "C81",
   "status": "proved",
   "theorems": [
    "C81_backproject",
    "C81_project",
    "C81_depth_is_z",
    "C81_homography",
    "C81_apply_homography",
    "C81_baked",
    "C81_depth_range",
    "C81_depth_of_plane",
    "C81_plane",
    "C81_depth_of_plane_of_depth",
    "C81_correlation",
    "C81_correlation_flat",
    "C81_correlation_range",
    "C81_correlation_match",
    "C81_correlation_symmetric",
    "C81_interpolation_pixel",
    "C81_interpolation_between",
    "C81_interpolation_affine",
    "C81_interpolation_outside",
    "C81_patch",
    "C81_image_score",
    "C81_weight",
    "C81_image_score_range",
    "C81_plane_score"
   ],
   "note": "Real arithmetic for float and double. The last row and column read as 0 (C81_last_column)."
  },
  {
   "property": "C82",
   "status": "proved",
   "theorems": [
    "C82_patch_variance",
    "C82_variance",
    "C82_where",
    "C82_pixel",
    "C82_initial_depth",
    "C82_neighbour",
    "C82_filter",
    "C82_propagation",
    "C82_refinement",
    "C82_other_neighbour",
    "C82_iterations",
    "C82_brute_force",
    "C82_brute_force_border",
    "C82_candidate_depths",
    "C82_brute_force_depth",
    "C82_even_patch_refuted",
    "C82_small_patch_refuted",
    "C82_adjacent_inside",
    "C82_initial_plane_refuted"
   ],
   "note": "Refuted and recorded: an even patch size counts values outside the patch in the variance (C82_even_patch_refuted), a patch size of 2 reads above the image (C82_small_patch_refuted), the first plane need not have the first depth (C82_initial_plane_refuted)."
  },
  {
   "property": "C83",
   "status": "proved",
   "theorems": [
    "C83_point",
    "C83_clean",
    "C83_monotone",
    "C83_exact",
    "C83_no_depth",
    "C83_alone",
    "C83_alone_removed",
    "C83_idempotent",
    "C83_last_column_refuted"
   ],
   "note": "Refuted and recorded: a point seen exactly on the last column of another view does not count (C83_last_column_refuted)."
  },
  {
   "property": "C84",
   "status": "proved",
   "theorems": [
    "C84_prune",
    "C84_point",
    "C84_normal",
    "C84_alone",
    "C84_nothing_lost",
    "C84_same_view",
    "C84_duplicates_refuted",
    "C84_outside_refuted",
    "C84_far_refuted"
   ],
   "note": "Where the position rounds properly (not left of or above the first pixel, below 2^31); outside that the code compares with wrong pixels: C84_outside_refuted, C84_far_refuted. Equal resolutions keep both copies: C84_duplicates_refuted."
  },
  {
   "property": "C85",
   "status": "proved",
   "theorems": [
    "C85_neighbors",
    "C85_best",
    "C85_distinct",
    "C85_common_tracks",
    "C85_mutual",
    "C85_percentile",
    "C85_percentile_monotone",
    "C85_depth_range",
    "C85_configured",
    "C85_negative_depth_refuted",
    "C85_saved_depth",
    "C85_saved",
    "C85_view_size",
    "C85_no_rows_refuted",
    "C85_vertices",
    "C85_vertices_count"
   ],
   "note": "Refuted and recorded: points behind the camera give a range upside down (C85_negative_depth_refuted); an image more than [resolution] times as wide as high has no rows (C85_no_rows_refuted). The order of images with as many points is not specified."
  },
  {
   "property": "C86",
   "status": "proved",
   "theorems": [
    "C86_products",
    "C86_same",
    "C86_again",
    "C86_kept",
    "C86_reference",
    "C86_reference_refuted",
    "C86_torn_refuted",
    "C86_torn_cloud_refuted",
    "C86_merge",
    "C86_merge_none"
   ],
   "note": "Refuted and recorded: an image whose estimate fails gets the points of its first neighbour with a map, twice in the cloud (C86_reference_refuted); a file cut short while being saved is never made again, and no image near it is cleaned from then on (C86_torn_refuted), or the merge fails (C86_torn_cloud_refuted)."
  },
  {
   "property": "C87",
   "status": "proved",
   "theorems": [
    "C87_factors",
    "C87_every_real_root",
    "C87_returned_are_real_parts",
    "C87_solved",
    "C87_refinement_keeps_roots",
    "C87_simple_roots_found",
    "C87_refined_is_near",
    "C87_fourfold_root_refuted",
    "C87_solved_refuted",
    "C87_small_leading_coefficient"
   ],
   "note": "Refuted and recorded: a fourfold root is refused (C87_fourfold_root_refuted); x^4 - 6 x^2 - 3 with two simple real roots gives no numbers because the cube root cancels to 0 (C87_solved_refuted). A first coefficient of at most the machine epsilon is replaced by it (C87_small_leading_coefficient)."
  },
  {
   "property": "C88",
   "status": "proved",
   "theorems": [
    "C88_rotations",
    "C88_sound",
    "C88_pose_is_root",
    "C88_complete",
    "C88_degenerate",
    "C88_number",
    "C88_directions"
   ],
   "note": "Poses from numbers that are only real parts of complex roots are rotations that put the third point right (C88_rotations), nothing more is claimed of them. p3p_example: a camera whose pose is found."
  },
  {
   "property": "C89",
   "status": "proved",
   "theorems": [
    "C89_translation_exists",
    "C89_translation_best",
    "C89_translation_exact",
    "C89_known_rotation_exact",
    "C89_rotation",
    "C89_rotation_exact",
    "C89_relative_rotation_exact",
    "C89_rotation_best",
    "C89_plane_refuted",
    "C89_step",
    "C89_pose",
    "C89_pose_rotation",
    "C89_exact_stays",
    "C89_sphere",
    "C89_parallel"
   ],
   "note": "Refuted and recorded: negating a rotation of determinant -1 is not the repair of a flip: points in a plane that did not move can give half a turn (C89_plane_refuted), so the optimality needs a positive determinant."
  },
  {
   "property": "C90",
   "status": "proved",
   "theorems": [
    "C90_decompositions",
    "C90_choice",
    "C90_undefined",
    "C90_undefined_essential",
    "C90_exact",
    "C90_lengths",
    "C90_best_refuted",
    "C90_npoints_essential",
    "C90_closest",
    "C90_npoints_few",
    "C90_npoints_exact",
    "C90_npoints_undetermined"
   ],
   "note": "Refuted and recorded: the best score so far is kept in a std::pair<int,...> and truncated, so a candidate worse by less than 1 can replace the best one (C90_best_refuted). If no score is positive the matrix returned was never written (None in the model)."
  },
  {
   "property": "C91",
   "status": "proved",
   "theorems": [
    "C91_products",
    "C91_constraints",
    "C91_elimination",
    "C91_action",
    "C91_sound",
    "C91_simple",
    "C91_complete",
    "C91_pivot",
    "C91_many",
    "C91_lengths"
   ],
   "note": "Not every eigenvector of the action matrix need come from a solution when eigenvalues coincide; C91_simple says which do. Recorded: no pivoting, so a singular first basis matrix gives no result (C91_pivot)."
  },
  {
   "property": "C92",
   "status": "proved",
   "theorems": [
    "C92_interpolation",
    "C92_empty",
    "C92_at_a_point",
    "C92_antimeridian_refuted",
    "C92_heading",
    "C92_position_read_back",
    "C92_altitude_read_back",
    "C92_direction_written",
    "C92_other_tags",
    "C92_degrees",
    "C92_seconds_refuted",
    "C92_crossing",
    "C92_time_samples",
    "C92_space_samples",
    "C92_steps",
    "C92_negative_step_refuted",
    "C92_no_track",
    "C92_no_elevation_refuted"
   ],
   "note": "Recorded: across the line of date the longitude goes the long way (C92_antimeridian_refuted); 60 seconds can be written (C92_seconds_refuted); a negative time step never ends (C92_negative_step_refuted); sampling a track without elevations is a TypeError (C92_no_elevation_refuted). That sampling in space ends is not shown. pyexiv2, gpxpy and the rounding of datetime are not modelled."
  },
  {
   "property": "C93",
   "status": "proved",
   "theorems": [
    "C93_descriptor",
    "C93_one_center",
    "C93_no_centers",
    "C93_order",
    "C93_additive",
    "C93_histogram",
    "C93_no_features_refuted",
    "C93_distances",
    "C93_symmetric",
    "C93_words",
    "C93_unknown_words",
    "C93_word_distance"
   ],
   "note": "Recorded: an image without features gets a histogram of not-a-numbers (C93_no_features_refuted), as does one whose features are all centers. The caches, the files of words and FLANN are not modelled."
  },
  {
   "property": "C94",
   "status": "proved",
   "theorems": [
    "C94_upright",
    "C94_resized",
    "C94_errors",
    "C94_rigid",
    "C94_video"
   ],
   "note": "exiftool is not modelled: its output is an argument."
  },
  {
   "property": "C95",
   "status": "proved",
   "theorems": [
    "C95_perspective_vertices_are_the_visible_points",
    "C95_perspective_corners_are_at_the_depth_of_their_neighbours",
    "C95_fisheye",
    "C95_spherical",
    "C95_every_projection_has_a_mesh"
   ],
   "note": "The triangulations are assumed to give indices of their arguments and nothing else; a matrix without an inverse is excluded (focal length and aspect ratio not 0)."
  },
  {
   "property": "C96",
   "status": "proved",
   "theorems": [
    "C96_round_trip",
    "C96_saving_again_changes_nothing",
    "C96_descriptor_type",
    "C96_small_letters_refuted",
    "C96_errors_and_old_files",
    "C96_limits_refuted",
    "C96_mask"
   ],
   "note": "The npz encoding is the identity on arrays; rounding to single precision is a parameter that keeps singles and bytes; labels are texts."
  },
  {
   "property": "C97",
   "status": "proved",
   "theorems": [
    "C97_size",
    "C97_long_images_refuted",
    "C97_resizing_moves_places_by_less_than_half_a_pixel",
    "C97_thresholds_end",
    "C97_root_feature",
    "C97_root_feature_normalised",
    "C97_root_feature_surf",
    "C97_root_feature_surf_normalised",
    "C97_hahog_bytes",
    "C97_extract",
    "C97_errors"
   ],
   "note": "The detectors themselves, the conversion to grey and the check of the pixel type are not modelled; sums of descriptors that are 0 (not-a-numbers in numpy) are excluded."
  },
  {
   "property": "C98",
   "status": "proved",
   "theorems": [
    "C98_one_instance",
    "C98_centred",
    "C98_moving_rig",
    "C98_turning_rig_refuted",
    "C98_cameras",
    "C98_largest_group",
    "C98_calibrated",
    "C98_rounds"
   ],
   "note": "Camera ids, logging and the choice of the subsets (C39) are not part of this model; the SfM of a round is an arbitrary result whose shots are images of the round."
  },
  {
   "property": "C99",
   "status": "proved",
   "theorems": [
    "C99_tracks",
    "C99_over_two",
    "C99_over_shortest",
    "C99_over_two_refuted",
    "C99_projection",
    "C99_gps",
    "C99_error_statistics",
    "C99_times",
    "C99_area",
    "C99_no_area",
    "C99_area_refuted",
    "C99_summary",
    "C99_reconstructed_features",
    "C99_cameras"
   ],
   "note": "Histograms of numpy, plots, rig and ground control point statistics and dates are not modelled; means and medians of counts, doubles in the code, are rounded down exactly."
  },
  {
   "property": "C100",
   "status": "proved",
   "theorems": [
    "C100_consistent",
    "C100_observed_once",
    "C100_add_point",
    "C100_fresh",
    "C100_save_load",
    "C100_failed_load_refuted",
    "C100_add_observation",
    "C100_add_position",
    "C100_remove_observation",
    "C100_remove_error",
    "C100_remove_gcp",
    "C100_visible",
    "C100_observed_once_refuted",
    "C100_worst",
    "C100_worst_image"
   ],
   "note": "The text of JSON files is not modelled; names of shots in files that are not strings are rejected; ties between equal errors go to the first image."
  },
  {
   "property": "C101",
   "status": "proved",
   "theorems": [
    "C101_rq",
    "C101_factorize",
    "C101_singular",
    "C101_recover",
    "C101_focal",
    "C101_focal_refuted",
    "C101_focal_negative",
    "C101_project",
    "C101_rotation",
    "C101_rotation_refuted"
   ],
   "note": "Exact arithmetic; failures of svd to converge are not modelled."
  },
  {
   "property": "C102",
   "status": "proved",
   "theorems": [
    "C102_items",
    "C102_served",
    "C102_items_served",
    "C102_inside",
    "C102_traversal_refuted",
    "C102_image"
   ],
   "note": "Flask's routing, answers and headers are not modelled: a request path is what the route hands to the function."
  }
 ]
}