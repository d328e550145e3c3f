STATUS.update({
"C01": ("proved", "whole class modelled; tie-breaking comparison arbitrary"),
"C02": ("proved", "for all matches/features and orders of the loops; C02_min_length_refuted records that min_length counts features of components, before the table of features is consulted"),
"C04": ("proved", "for every printing/parsing of doubles that is self-consistent; refuted parts: non numeric versions are accepted as version 0, depth priors are not stored"),
"C05": ("proved", "joining is exact and no shot of a track is lost; C05_observations_lost_refuted: an observation is overwritten when a cluster has two features in one shot"),
"C08": ("proved", "all histories under the stated protocol; two _refuted witnesses show the protocol is needed"),
"C09": ("proved", "all histories under the protocol; C09_remove_instance_refuted: removing a non-empty rig instance leaves dangling shots"),
"C10": ("proved", "exact effect, for every iteration order"),
"C34": ("partial", "everything but colors, meshes and observations of pano shots, which the code loses (C34_lost_refuted); instances mixing shots and panos make the copy fail (C34_mixed_refuted)"),
"C03": ("proved", "all histories of add/remove; all getters"),
"C06": ("proved", "for every iteration order of the hash maps"),
"C07": ("proved", "exact counts, including the behaviour with repeated track ids in the filter"),
"C15": ("proved", "every iteration order and every behaviour of set.pop; image names non-empty (C15_empty_name_refuted)"),
"C16": ("proved", "every image list; also when the GPS strategies are disabled by a missing position"),
"C17": ("proved", "refs = candidates as stated; C17_reference_subset_refuted: with a subset of references the wrong positions are used"),
"C18": ("proved", "pairs_from_neighbors for every table, and the whole bag of words selection without GPS preselection"),
"C19": ("partial", "proved when the references are candidates (and for capture times always); otherwise false: C19_separate_references_refuted, phantom points at the origin hide candidates"),
"C23": ("proved", "every interleaving of readers, detectors, queue and lock-free counter; no failure of loading or detection, no put timeout"),
"C24": ("partial", "bounded runs always; deadlock freedom when the queue is unbounded or holds one sentinel per reader. Otherwise false: C24_small_queue_refuted, C24_one_process_refuted; C24_no_image_refuted: crash without images"),
"C20": ("proved", "brute force (with or without epipolar mask), FLANN with any answers of the index, and words; the word matcher accepts a lone candidate at any distance (C20_words_single_candidate_refuted)"),
"C21": ("proved", "unfilter_matches and the whole match() pipeline, for every matcher output in range, every filter setting and every RANSAC answer"),
"C22": ("proved", "when the first image of every pair is a reference, as pairs_selection guarantees (C22_action composes both); otherwise false, C22_second_reference_refuted: columns are not swapped"),
"C36": ("proved", "exact arithmetic for the 85% threshold; positions abstracted to the outcome of each test"),
"C25": ("proved", "every regex engine; also the per image assignments. The reserved word INCOMPLETE_INSTANCE_GROUP and empty camera names give single shots, stated in the theorem"),
"C37": ("proved", "for comma-free names; C37_comma_refuted shows a collision otherwise"),
"C38": ("proved", ""),
"C39": ("partial", "exact window and size bound proved; that every instance can be used is false: C39_last_instance_refuted, the last one never is"),
"C26": ("proved", "every camera a program can hold; the models with two focal lengths need a non-zero focal length (division)"),
"C27": ("proved", "every camera; a vector of the wrong length is refused"),
"C40": ("proved", "C40_set_distortion_refuted: assigning the distortion property also overwrites focal, aspect ratio and principal point"),
"C41": ("proved", "exact real arithmetic, through Eigen's quaternion algorithm"),
"C12": ("proved", "every pose buildable through the API; C12_set_rotation_origin_refuted: assigning only the rotation leaves a stale origin"),
"C13": ("proved", "scale non zero (C13_zero_scale_refuted)"),
"C14": ("proved", "whole map including rigs; also undone by the inverse similarity"),
"C11": ("proved", "all maps reachable under the protocol with valid poses; C11_near_identity_refuted: a single shot whose rig camera is within 1e-15 of the identity reads the instance pose instead"),
"C28": ("partial", "exactly the measurements that have a place in the file come back, none is invented; opk_angles, opk_accuracy and attributes are never written: C28_lost_refuted"),
"C29": ("proved", "every map built through the API that is saveable (RecSpec.v); a second round trip loses nothing more; C29_shared_name_refuted: a shot with the name of a pano shot loses its rig"),
"C35": ("proved", "exact real arithmetic; Python and C++ conversions; EXIF orientations 1, 3, 6, 8 (others are a KeyError)"),
"C42": ("proved", "cv2 nearest resizing modelled by its documented formula; C42_grey_mask_refuted: a mask with grey levels such as 254 combined with a segmentation (values 0/1, bitwise and) drops features although neither mask is 0"),
"C30": ("proved", "json and gcp_list.txt; findings: C30_unknown_altitude_refuted (lines with altitude nan are never grouped), C30_identifiers_lost_refuted (role, survey point id, observation uid are not saved)"),
"C31": ("partial", "all flag combinations except point_num_views without a tracks manager, where the file is ill formed: C31_views_without_tracks_refuted; the vertices themselves: C31_vertices"),
"C43": ("proved", "for every formatting oracle that prints words"),
"C32": ("proved", "exact real arithmetic; C++ and Python compute the same formulas"),
"C33": ("proved", "on the ellipsoid (altitude 0), both directions; at other altitudes Bowring's formula is an approximation: only the longitude (and the whole equator) is exact"),
"C44": ("proved", "exact real arithmetic, all ten projection types; rotations of angle at most 2^-26 excluded because the claim is false there: C44_small_rotation_refuted, C44_zero_rotation, C44_identity_pose_refuted (the derivative with respect to the rotation has the opposite sign, e.g. for a camera with the identity pose)"),
"C45": ("proved", "exact real arithmetic, undistorted fisheye pixels between 2e-8 and pi-2e-8 from the centre (thresholds of the code). Findings: C45_dual_documentation_refuted (documentation of the dual model differs from the code), C45_dual_centre_refuted and C45_dual_near_centre_refuted (the bearing of a dual camera within 2e-6 of the image centre is NaN); distorted cameras are the subject of C47"),
"C46": ("proved", "get_K_in_pixel_coordinates is exactly half a pixel away from the documented pixel coordinates: C46_pixel_matrix"),
"C47": ("proved", "the derivative used by the code for the two coefficient model is not the true one, hence linear convergence only; Brown, FISHEYE62 and FISHEYE624 (two dimensional iterations) and dual cameras are not covered"),
"C48": ("proved", "Findings: C48_opposite_refuted (the angle between opposite vectors is computed as 0 instead of pi), C48_zero_min_angle_refuted (with min_angle = 0 parallel rays are accepted with a point that is not a number), C48_two_views_behind_refuted (the two view solver accepts points behind both cameras), C48_dlt_sideways_refuted (a bearing with zero third component, possible with spherical cameras, gives one constraint instead of two: perfect observations may be rejected)"),
"C49": ("proved", "Findings: C49_last_pair_never_drawn and C49_last_pair_refuted (int(rand * (n - 1)) never draws the last pair of views: with three views whose first is wrong the track is never triangulated), C49_dlt_frame_refuted (triangulate_dlt gives camera frame bearings to the refinement, that expects world ones: perfect observations may be moved away), C49_unknown_type (an unknown triangulation_type silently does nothing). Also seen in the model: the loop counter is hidden by the pair (i, j), so that the stopping rule compares the optimal number of iterations with a view index; the point re-triangulated from the inliers is discarded"),
"C50": ("proved", "Geometry is universally quantified (any functions); what the geometric code computes is modelled elsewhere (C44-C49). Rig instances' names clashing with image names excluded."),
"C51": ("proved", "The documented maximal interior size is exceeded with multi-camera rigs (C51_size_refuted). Boundary limited to a million shots in the code: hypothesis of C51_boundary."),
"C52": ("proved", "GCPs, parameter priors' standard deviations, up vectors and the solver itself are outside the model; two refuted sub-claims are recorded as _refuted theorems"),
"C53": ("proved", "condition numbers are an arbitrary permutation invariant function; exact arithmetic; the AUTO threshold adds a scalar deviation to both coordinates of the mean error and can vanish (refuted theorem)"),
"C54": ("proved", "C54_geodetic_refuted: the rotation between the two local frames is ignored"),
"C55": ("proved", "Exact arithmetic. Termination with MSAC or LMedS and local optimisation needs that refined models keep enough inliers: C55_msac_terminates_refuted shows an endless loop otherwise. Also refuted: that the inliers are those of `model` (they are those of `lo_model`), and that the line through two points is found when the first abscissa is 0. The probability argument of the python wrappers is ignored by the code."),
"C56": ("proved", "File contents are opaque; the extraction is a function of the image; the wall time in the report is fixed. Image names such that no file of one is a file of another (C56_names shows when)."),
"C57": ("proved", "The exif parsing of an image file and the camera made from metadata are parameters; parse (print d) = d is a hypothesis on JSON."),
"C58": ("proved", "What each stage computes from its inputs is a parameter; the list of its input files too, required disjoint from its outputs."),
"C59": ("proved", "float text is exact for the values written (hypothesis); k-means is any labelling with K non-empty clusters; links to images and other files, negative overlaps not modelled"),
"C60": ("proved", "the solver is any function that keeps constants and bounds; the choice of point pairs (resect_reconstruction) is a parameter; connected_reconstructions not modelled"),
"C61": ("proved", "C61_clash_refuted shows the hypothesis on names is needed. What is written to files is what is returned."),
"C62": ("proved", "C62_left_refuted: the view called left looks to the right (and conversely). C62_scaled_empty_refuted: a side may be rounded to 0. Sampling of colors (cv2.remap, cv2.resize) is not modelled."),
"C63": ("proved", "C63_roll_refuted: ptr_from_rotation reads rolls beyond 90 degrees as pi - roll. Angles smaller than 2^-52 (taken as 0 by OpenCV) are excluded by not_tiny."),
"C64": ("proved", "The singular value decomposition itself (numpy) is a parameter: orthogonal factors and ordered positive values."),
"C65": ("proved", "C65_plane_best_refuted: np.argmax(map(len, ...)) is 0 in Python 3, so the plane based method always returns the first candidate, even when it has no inliers and another one has all."),
"C66": ("proved", "Exact rationals. Four variants that do not hold are proved as *_refuted."),
"C67": ("proved", "str(float) is any printing of numbers as words."),
"C68": ("proved", "C68_offset_refuted, C68_short_gps_refuted and C68_round_refuted state where the code departs from the claim"),
"C69": ("proved", "C69_order_refuted, C69_projection_refuted, C69_case_refuted, C69_focal_refuted and C69_dual_refuted state where the code departs from the claim"),
"C70": ("proved", "The part about rig instances with several images is refuted (C70_rig_refuted). Angles that OpenCV takes for zero and gravity within 10^-8 of the optical axis (but not along it) are excluded by hypothesis."),
"C71": ("partial", "The code takes the north in the geocentric frame, so the angles are wrong: C71_opk_refuted. Proved: which tags give angles, and that the formula is right with the north of the local frame (C71_opk_partial)."),
"C72": ("proved", "brown cameras, reconstructed images not in the list and fisheye cameras: C72_*_refuted describe what the code does"),
"C73": ("proved", "coordinates of views in images that are not square and brown cameras: C73_*_refuted"),
"C74": ("partial", "Camera, pose, ids, matches and points proved for all inputs; the track index is proved only when all earlier features have a point (the code violates the rest, refuted), and the identity pose, opencv fisheye offsets and half-pixel keypoints are stated as the code's deviations."),
"C75": ("proved", "Images, cameras, points, matrices and vis.dat proved; the two deviations of the code are stated (C75_openmvs_views_refuted, C75_openmvs_mask)."),
"C76": ("proved", "Proved for all invertible maps; rigs, saved rotations and dense clouds are stated as what the code does (C76_rigs_refuted, second half of C76_saved, C76_dense_refuted)."),
"C77": ("partial", "C77_three_rig_cameras_partial: the third shot of a linear motion reads the wrong rig camera in one case (C77_three_rig_cameras_refuted); derivatives and the minimisation are not modelled"),
"C78": ("proved", "The singular value decomposition is a parameter assumed right for the covariance it receives. C78_scale_refuted records that the scale is not the least squares one."),
"C79": ("proved", "C79_no_altitude_refuted shows that GCP without altitude are flattened in the wrong frame. of_camera simplifies rig cameras within 1e-15 of the identity."),
"C80": ("proved", "Four refuted sub-claims, see the theorems with suffix _refuted. C80_exact asks for a spread of 2e-8 and 2 cm, twice the thresholds of the code per axis."),
"C81": ("proved", "Real arithmetic for float and double. The last row and column read as 0 (C81_last_column)."),
"C82": ("proved", "Refuted and recorded: an even patch size counts values outside the patch in the variance (C82_even_patch_refuted), a patch size of 2 reads above the image (C82_small_patch_refuted), the first plane need not have the first depth (C82_initial_plane_refuted)."),
"C83": ("proved", "Refuted and recorded: a point seen exactly on the last column of another view does not count (C83_last_column_refuted)."),
"C84": ("proved", "Where the position rounds properly (not left of or above the first pixel, below 2^31); outside that the code compares with wrong pixels: C84_outside_refuted, C84_far_refuted. Equal resolutions keep both copies: C84_duplicates_refuted."),
"C85": ("proved", "Refuted and recorded: points behind the camera give a range upside down (C85_negative_depth_refuted); an image more than [resolution] times as wide as high has no rows (C85_no_rows_refuted). The order of images with as many points is not specified."),
"C86": ("proved", "Refuted and recorded: an image whose estimate fails gets the points of its first neighbour with a map, twice in the cloud (C86_reference_refuted); a file cut short while being saved is never made again, and no image near it is cleaned from then on (C86_torn_refuted), or the merge fails (C86_torn_cloud_refuted)."),
"C87": ("proved", "Refuted and recorded: a fourfold root is refused (C87_fourfold_root_refuted); x^4 - 6 x^2 - 3 with two simple real roots gives no numbers because the cube root cancels to 0 (C87_solved_refuted). A first coefficient of at most the machine epsilon is replaced by it (C87_small_leading_coefficient)."),
"C88": ("proved", "Poses from numbers that are only real parts of complex roots are rotations that put the third point right (C88_rotations), nothing more is claimed of them. p3p_example: a camera whose pose is found."),
"C89": ("proved", "Refuted and recorded: negating a rotation of determinant -1 is not the repair of a flip: points in a plane that did not move can give half a turn (C89_plane_refuted), so the optimality needs a positive determinant."),
"C90": ("proved", "Refuted and recorded: the best score so far is kept in a std::pair<int,...> and truncated, so a candidate worse by less than 1 can replace the best one (C90_best_refuted). If no score is positive the matrix returned was never written (None in the model)."),
"C91": ("proved", "Not every eigenvector of the action matrix need come from a solution when eigenvalues coincide; C91_simple says which do. Recorded: no pivoting, so a singular first basis matrix gives no result (C91_pivot)."),
"C92": ("proved", "Recorded: across the line of date the longitude goes the long way (C92_antimeridian_refuted); 60 seconds can be written (C92_seconds_refuted); a negative time step never ends (C92_negative_step_refuted); sampling a track without elevations is a TypeError (C92_no_elevation_refuted). That sampling in space ends is not shown. pyexiv2, gpxpy and the rounding of datetime are not modelled."),
"C93": ("proved", "Recorded: an image without features gets a histogram of not-a-numbers (C93_no_features_refuted), as does one whose features are all centers. The caches, the files of words and FLANN are not modelled."),
"C94": ("proved", "exiftool is not modelled: its output is an argument."),
"C95": ("proved", "The triangulations are assumed to give indices of their arguments and nothing else; a matrix without an inverse is excluded (focal length and aspect ratio not 0)."),
"C96": ("proved", "The npz encoding is the identity on arrays; rounding to single precision is a parameter that keeps singles and bytes; labels are texts."),
"C97": ("proved", "The detectors themselves, the conversion to grey and the check of the pixel type are not modelled; sums of descriptors that are 0 (not-a-numbers in numpy) are excluded."),
"C98": ("proved", "Camera ids, logging and the choice of the subsets (C39) are not part of this model; the SfM of a round is an arbitrary result whose shots are images of the round."),
"C99": ("proved", "Histograms of numpy, plots, rig and ground control point statistics and dates are not modelled; means and medians of counts, doubles in the code, are rounded down exactly."),
"C100": ("proved", "The text of JSON files is not modelled; names of shots in files that are not strings are rejected; ties between equal errors go to the first image."),
"C101": ("proved", "Exact arithmetic; failures of svd to converge are not modelled."),
"C102": ("proved", "Flask's routing, answers and headers are not modelled: a request path is what the route hands to the function."),
})
