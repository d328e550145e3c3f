# Source of /verif/properties.jsonl (run: python3 tools/props.py). Keeps the list in a readable form.
import json
P=[]
def p(id,title,statement,quantifier,why,anchors):
    P.append(dict(id=id,title=title,statement=statement,quantifier=quantifier,why_tests_cant=why,anchors=anchors))

p("C01","UnionFind is the equivalence closure of its unions",
 "After any history of X[item] look-ups and X.union(...) calls, X[a] == X[b] holds exactly when a and b are linked by a chain of union calls (or a == b); X[item] always terminates, returns a member of the item's own set, and neither look-ups nor path compression ever change which items are together.",
 "every finite history of look-ups and n-ary unions over any hashable, totally ordered items, every pair of items",
 "A test runs a few histories; the claim is about every history and relies on a structural (acyclicity) invariant of the parent links.",
 ["opensfm/unionfind.py: UnionFind.__getitem__, UnionFind.union, UnionFind.__iter__"])
p("C02","Tracks are the clean connected components of the match graph",
 "create_tracks_manager puts two features in the same track exactly when a chain of pairwise matches links them, keeps a component exactly when it has at least min_length features and never two features of the same image, gives every kept component its own track id, and copies each feature's own position/scale/color/id into the observation.",
 "every set of pairwise matches, every features/colors table, every min_length",
 "Needs all match graphs; tests only try a handful of hand written components.",
 ["opensfm/tracking.py: create_tracks_manager, _good_track"])
p("C03","TracksManager is one (shot, track) -> observation table seen from two sides",
 "After any sequence of add_observation / remove_observation, get_observation(s,t), get_shot_observations(s)[t] and get_track_observations(t)[s] agree and equal the last observation added for (s,t) and not removed since; removal of an unknown shot/track raises and changes nothing; every other pair is unaffected.",
 "every sequence of additions and removals, every shot and track id",
 "Refinement over unbounded histories; a dropped update of one of the two indices only shows for particular orders.",
 ["opensfm/src/map/src/tracks_manager.cc: AddObservation, RemoveObservation, GetObservation, GetShotObservations, GetTrackObservations"])
p("C04","Tracks file round trip",
 "TracksManager.instanciate_from_string(m.as_string()) returns a manager with exactly the observations of m (same shots, tracks, feature ids, colors, segmentation/instance labels), provided ids contain no tab/newline and numbers survive decimal printing; a line with the wrong number of fields or an unknown version is rejected with an error, never silently skipped; files in the older v0/v1 formats load with the documented defaults.",
 "every tracks manager, every text",
 "Codec law over all managers and all strings.",
 ["opensfm/src/map/src/tracks_manager.cc: WriteToStreamCurrentVersion, InstanciateFromStreamV0/V1/V2, GetTracksFileVersion, SeparateLineByTabs"])
p("C05","Merging tracks managers joins exactly the tracks sharing a feature",
 "merge_tracks_manager puts observations of two input tracks in one merged track exactly when a chain of shared (shot, feature id) pairs links the tracks; no shot observed by an input track disappears from its merged track; merged observations all come from the inputs.",
 "every list of tracks managers, every hash-table iteration order",
 "Quantifies over all overlaps and all iteration orders of unordered maps.",
 ["opensfm/src/map/src/tracks_manager.cc: MergeTracksManager","opensfm/src/foundation/union_find.h: Find, Union, GetUnionFindClusters"])
p("C06","Sub-manager extraction is exact restriction",
 "construct_sub_tracks_manager(tracks, shots) contains observation o at (s,t) exactly when the original does, t is in tracks and s is in shots.",
 "every manager and every pair of id lists (with duplicates and unknown ids)",
 "All inputs, including unknown/duplicate ids.",
 ["opensfm/src/map/src/tracks_manager.cc: ConstructSubTracksManager"])
p("C07","Pair connectivity counts common tracks",
 "get_all_pairs_connectivity() maps (a,b), a<b, to the number of tracks both a and b observe, which is also len(get_all_common_observations(a,b)); pairs with no common track are absent and no pair appears reversed.",
 "every manager, every pair of shots, every optional shot/track filter without duplicates",
 "Counting law over all managers.",
 ["opensfm/src/map/src/tracks_manager.cc: GetAllPairsConnectivity, GetAllCommonObservations","opensfm/tracking.py: all_common_tracks, common_tracks"])
p("C08","Map observations are symmetric between shots and landmarks",
 "In every map reached by creating/removing shots, landmarks and observations (one landmark per feature of a shot, one feature per landmark in a shot), landmark l lists shot s with feature f exactly when shot s has an observation of l whose feature id is f, and shot.get_observation(f) is that observation.",
 "every history of map operations obeying the stated usage protocol",
 "Invariant over all histories.",
 ["opensfm/src/map/src/map.cc: AddObservation, RemoveObservation, RemoveShot, RemoveLandmark, ClearObservationsAndLandmarks, CleanLandmarksBelowMinObservations","opensfm/src/map/shot.h: CreateObservation","opensfm/src/map/src/shot.cc: RemoveLandmarkObservation"])
p("C09","No dangling references after removal",
 "After remove_shot(s) no landmark lists s and its rig instance no longer lists s; after remove_landmark(l) no shot observes l; everything not mentioning the removed object is unchanged.",
 "every reachable map, every shot / landmark",
 "Dangling pointers only show in particular histories, often without crashing.",
 ["opensfm/src/map/src/map.cc: RemoveShot, RemoveLandmark, RemovePanoShot, RemoveRigInstance"])
p("C10","Pruning landmarks keeps exactly the well observed ones",
 "clean_landmarks_below_min_observations(n) leaves exactly the landmarks with at least n observations, with their observations untouched, and removes every trace of the others from shots; clear_observations_and_landmarks leaves no landmark and no observation in any shot.",
 "every reachable map, every n",
 "All maps and thresholds.",
 ["opensfm/src/map/src/map.cc: CleanLandmarksBelowMinObservations, ClearObservationsAndLandmarks"])
p("C11","A shot's pose is its rig camera pose composed with its instance pose",
 "shot.pose is always rig_camera.pose o instance.pose; creating a shot with pose p in an instance, or updating the instance with (shot, p), makes that shot's pose read back exactly p and moves all the other shots of the instance rigidly; setting the pose of a shot that shares its instance is refused and changes nothing.",
 "every rig geometry, every shot of an instance, every pose (exact real arithmetic)",
 "Algebraic law over all poses and rigs.",
 ["opensfm/src/map/src/shot.cc: GetPoseInRig, GetPose, SetPose","opensfm/src/map/src/rig.cc: AddShot, UpdateInstancePoseWithShot, RemoveShot","opensfm/src/geometry/pose.h: Compose, Inverse"])
p("C12","Pose algebra is the rigid motion group",
 "compose is associative with the default pose as unit; p.compose(p.inverse()) is the identity; p.relative_to(q) == p.compose(q.inverse()); transform_inverse(transform(X)) == X; set_origin(o) makes get_origin() == o and keeps the rotation; the camera centre is mapped to zero.",
 "all rotations and translations (exact real arithmetic)",
 "Algebraic laws over a continuum.",
 ["opensfm/src/geometry/pose.h: Pose"])
p("C13","Similarity transform and its inverse cancel",
 "Similarity(R,t,s).inverse() undoes transform, for every non-zero scale; the Python invert_similarity and the C++ Similarity::Inverse agree.",
 "all rotations, translations and non-zero scales",
 "Algebraic law over a continuum.",
 ["opensfm/src/geometry/similarity.h","opensfm/large/tools.py: invert_similarity"])
p("C14","Aligning a reconstruction does not change what cameras see",
 "apply_similarity(reconstruction, s, A, b) maps every point X to sAX+b and every camera so that the camera coordinates of each point are multiplied by exactly s: the projection of every point in every shot, hence every reprojection error, is unchanged for every projection model that only depends on the viewing direction.",
 "every similarity with s>0, every point, every shot pose in and out of rigs",
 "Invariance over a continuum of transforms.",
 ["opensfm/align.py: apply_similarity, apply_similarity_pose"])
p("C15","Selected pairs are matched exactly once, from a reference image",
 "ordered_pairs(pairs, images_ref) returns each selected unordered pair that touches images_ref exactly once (never both ways), always with the first image in images_ref, and no pair that was not selected.",
 "every set of pairs and every list of reference images, every set iteration order",
 "All pair graphs and all hash orders.",
 ["opensfm/pairs_selection.py: ordered_pairs, sorted_pair, match_candidates_from_metadata"])
p("C16","Exhaustive matching covers all pairs",
 "When every pair selection strategy is disabled, the pairs returned are exactly all unordered pairs of distinct images (reference x candidate), each once.",
 "every image list",
 "All inputs.",
 ["opensfm/pairs_selection.py: match_candidates_from_metadata, ordered_pairs"])
p("C17","Order based candidates are the sequence neighbours",
 "match_candidates_by_order(images, images, n) over a duplicate free sequence returns exactly the pairs of images at sequence distance between 1 and ceil(n/2).",
 "every image sequence, every n",
 "Boundary behaviour for every length and n.",
 ["opensfm/pairs_selection.py: match_candidates_by_order"])
p("C18","Neighbour based candidates keep the nearest images of each camera class",
 "With enforce_other_cameras, pairs_from_neighbors keeps the max_neighbors nearest images sharing the camera and the max_neighbors nearest images of other cameras, no more, and never skips a nearer image of the same class.",
 "every distance table, every camera assignment, every max_neighbors",
 "All orders / early-exit correctness.",
 ["opensfm/pairs_selection.py: pairs_from_neighbors, construct_pairs"])
p("C19","Candidate distance search returns each image's nearest candidates",
 "match_candidates_by_distance pairs each reference image with its k nearest candidate images within max_distance, the image itself excluded.",
 "every GPS layout, every split into reference and candidate images",
 "All layouts, in particular reference images outside the candidate list.",
 ["opensfm/pairs_selection.py: match_candidates_by_distance"])
p("C20","Symmetric matching is one to one and passes the ratio test both ways",
 "match_*_symmetric returns exactly the pairs found in both directions; with brute force each feature of either image occurs in at most one returned match and every returned match is nearest neighbour with Lowe's ratio in both directions.",
 "every pair of descriptor sets (every distance matrix), every ratio",
 "All distance tables including ties.",
 ["opensfm/matching.py: match_brute_force, match_brute_force_symmetric, match_words_symmetric, match_flann_symmetric"])
p("C21","Match indices refer to the original features",
 "unfilter_matches turns matches between masked feature lists into matches between the original lists: the i-th masked feature is reported at the original index holding it, indices are always in range, and no masked-out feature is ever reported.",
 "every mask pair and every list of in-range matches",
 "All masks.",
 ["opensfm/matching.py: unfilter_matches, match_descriptors, match"])
p("C22","Saved matches can all be found again",
 "save_matches stores every pairwise match under exactly one image, an image of images_ref, raises if neither image is in images_ref, and a later load over the same images finds for every pair (im1, im2) the same matches, swapped if stored the other way.",
 "every matched pair table, every images_ref",
 "All tables; loss of one pair direction is invisible to example tests.",
 ["opensfm/matching.py: save_matches","opensfm/tracking.py: load_matches","opensfm/dataset.py: find_matches, load_matches, save_matches"])
p("C23","Parallel feature extraction processes every image exactly once",
 "Under every interleaving of reader and detector threads, run_features_processing calls detect on each image exactly once, and detectors stop only after all images were taken from the queue.",
 "every image list, number of readers/detectors, queue capacity and thread schedule",
 "Schedules cannot be enumerated by tests.",
 ["opensfm/features_processing.py: run_features_processing, read_images, run_detection, Counter"])
p("C24","Feature extraction never hangs",
 "Every maximal run of run_features_processing terminates: some thread can always move until all are done.",
 "every image list, number of readers/detectors, queue capacity and thread schedule",
 "Deadlocks depend on the schedule and on the queue capacity computed from free memory.",
 ["opensfm/features_processing.py: run_features_processing, read_images, run_detection, Counter"])
p("C25","Rig instance creation partitions the images",
 "create_instances_with_patterns puts every image in exactly one rig instance or in the single shots list; images in one instance share the instance member id and the rig camera is that of the first matching pattern.",
 "every image list and every pattern table",
 "All inputs; the regex engine is arbitrary.",
 ["opensfm/rig.py: find_image_rig, create_instances_with_patterns, rig_assignments_per_image"])
p("C26","Camera models survive JSON",
 "camera_from_json(camera_to_json(c)) gives back the same camera for every projection type, in exact arithmetic and with non-zero focal length.",
 "every camera of every supported projection type",
 "All parameter values of eleven models.",
 ["opensfm/io.py: camera_to_json, camera_from_json"])
p("C27","Camera parameter vectors round trip",
 "camera_from_vector(id,w,h,type,camera_to_vector(c)) gives back c; vector lengths are the ones camera_from_vector unpacks.",
 "every camera of every supported projection type",
 "All parameter values; positional codecs are prone to swapped slots.",
 ["opensfm/io.py: camera_to_vector, camera_from_vector"])
p("C28","Shot metadata survives JSON",
 "json_to_pymap_metadata(pymap_metadata_to_json(m)) gives back every measurement present in m and invents none.",
 "every combination of present/absent measurements and values",
 "2^n presence combinations times all values.",
 ["opensfm/io.py: pymap_metadata_to_json, json_to_pymap_metadata"])
p("C29","Reconstruction JSON round trip",
 "Loading a saved reconstruction gives the same cameras, biases, rig cameras, rig instances with the same members, shots with the same pose, points with coordinates and colors, pano shots and reference.",
 "every reconstruction",
 "All shapes of reconstructions (rigs, panos, single shots).",
 ["opensfm/io.py: reconstruction_to_json, reconstruction_from_json, rig_instance_camera_per_shot"])
p("C30","Ground control points round trip",
 "read_ground_control_points(write_ground_control_points(gcps)) gives back ids, positions, altitude presence and all observations in order; gcp_list.txt lines with equal coordinates are grouped in one point, unknown shots are ignored.",
 "every list of ground control points / every parsed gcp list",
 "All inputs.",
 ["opensfm/io.py: read_ground_control_points, write_ground_control_points, _read_gcp_list_lines"])
p("C31","PLY exports are well formed",
 "The vertex count announced in the header is the number of vertex lines, and every vertex line has exactly the number of values announced by the property lines.",
 "every reconstruction and every combination of export flags",
 "All flag combinations and sizes.",
 ["opensfm/io.py: ply_header, points_to_ply_string, reconstruction_to_ply, point_cloud_to_ply, point_cloud_from_ply"])
p("C32","Topocentric frame is a rigid, invertible frame",
 "The topocentric to ECEF transform is a rigid motion with determinant 1 whose columns are east, north, up; its origin is the reference; converting ECEF<->topocentric is lossless and preserves distances; gps_distance is a (pseudo)metric.",
 "every reference and every point (exact real arithmetic)",
 "Identities over a continuum.",
 ["opensfm/geo.py, opensfm/src/geo/src/geo.cc: ecef_from_lla, ecef_from_topocentric_transform, topocentric_from_lla, gps_distance"])
p("C33","Geodetic conversion is exact on the ellipsoid",
 "lla_from_ecef(ecef_from_lla(lat, lon, 0)) == (lat, lon, 0) in exact arithmetic, for latitudes strictly between the poles.",
 "every latitude in (-90,90), longitude in (-180,180]",
 "Identity over a continuum; tests check one point within a tolerance.",
 ["opensfm/geo.py: ecef_from_lla, lla_from_ecef"])
p("C34","Deep copy preserves the reconstruction",
 "copy.deepcopy(reconstruction) has the same cameras, biases, shots with the same pose and measurements, points with the same coordinates and color, and (when asked) the same observations.",
 "every reachable reconstruction",
 "All reconstructions.",
 ["opensfm/src/map/src/map.cc: DeepCopy, UpdateShotWithRig, AssignShot","opensfm/types.py: Reconstruction.__deepcopy__"])
p("C35","Pixel coordinate normalization is invertible",
 "denormalized_image_coordinates(normalized_image_coordinates(p,w,h),w,h) == p and conversely; pixels of the image map to the centred box of the larger side; upright conversion of in-image points falls inside the upright image.",
 "every image size and every point",
 "Identity over a continuum.",
 ["opensfm/features.py: normalized_image_coordinates, denormalized_image_coordinates","opensfm/upright.py: opensfm_to_upright"])
p("C36","Ad hoc match filters keep exactly the right matches",
 "apply_adhoc_filters only drops matches, keeping their order; a match survives exactly when it moves between the two images (or more than 85% of all matches do not move), and is off the poles of panoramas and off the known watermarks.",
 "every list of matches, every combination of cameras and positions",
 "All match lists and camera combinations, including the all-static fallback boundary.",
 ["opensfm/matching.py: apply_adhoc_filters, _non_static_matches, _not_on_pano_poles_matches, _not_on_vermont_watermark, _not_on_blackvue_watermark"])
p("C37","Rig instances are grouped by their set of rig cameras",
 "group_instances puts every instance in exactly one group; two instances are in the same group exactly when they have the same set of rig cameras.",
 "every list of instances (rig camera names without comma)",
 "All instance lists, orders and name sets.",
 ["opensfm/rig.py: group_instances"])
p("C38","Reconstructed rig instances are counted exactly",
 "count_reconstructed_instances is the number of instances all of whose shots are in the reconstruction; a reconstructed shot outside of all instances raises KeyError.",
 "every list of disjoint instances and every set of reconstructed shots",
 "All instance lists and subsets of shots.",
 ["opensfm/rig.py: count_reconstructed_instances"])
p("C39","Rig calibration window",
 "A calibration round uses consecutive instances around the drawn one, at most rig_calibration_subset_size of them, and every instance can be used.",
 "every number of instances, window size and drawn index",
 "All sizes and random draws.",
 ["opensfm/rig.py: propose_subset_dataset_from_instances"])
p("C40","Camera parameters are read and written by name",
 "Setting one parameter of a camera (set_parameter / the k1, k2, p1, ... properties) makes exactly that parameter read back the value and leaves all the others as they were; a parameter the camera model does not have is refused on reading and on writing.",
 "every camera model, every parameter, every value",
 "All models and parameter combinations.",
 ["opensfm/src/geometry/camera.h: Camera::Parameters","opensfm/src/geometry/src/camera.cc: SetParameterValue, GetParameterValue","opensfm/src/geometry/python/pybind.cc: Camera properties"])
p("C41","Rotation vectors and rotation matrices are converted without loss",
 "The rotation matrix of every rotation vector is a rotation that fixes the vector; converting a rotation matrix to a vector and back gives the same matrix, with a vector no longer than pi; converting a vector shorter than pi to a matrix and back gives the same vector; the opposite vector is the inverse rotation.",
 "every rotation and every vector (exact real arithmetic)",
 "Continuum; branch-heavy quaternion extraction.",
 ["opensfm/src/geometry/transformations_functions.h: VectorToRotationMatrix, RotationMatrixToVector","opensfm/src/geometry/pose.h"])
p("C42","Feature masks",
 "Loading the mask of an image's features gives one answer per feature: with no mask every feature is kept; with a mask a feature is kept iff the cell of the mask that covers its place in the upright image is not 0, and that cell is always inside the mask, for every mask size and EXIF orientation. A mask made from a segmentation is non-zero exactly where the label is not ignored; a combined mask is non-zero only where both masks are.",
 "every image and mask size, orientation, feature position between the first and last pixel centres, segmentation and ignored labels",
 "Continuum of positions; all sizes.",
 ["opensfm/masking.py","opensfm/upright.py: opensfm_to_upright","opensfm/features.py: normalized_image_coordinates"])
p("C43","Point cloud PLY round trip",
 "point_cloud_from_ply(point_cloud_to_ply(cloud)) returns the same number of rows in the same order, colours and labels unchanged, coordinates and normals as rounded by the printed precision; the file is a well formed PLY (announced count and property list match every row); files without header or with short rows raise.",
 "every point cloud; every number formatting that produces a word parsed back to the rounded number",
 "All clouds, all sizes.",
 ["opensfm/io.py: point_cloud_to_ply, point_cloud_from_ply"])
p("C44","The optimiser gets true derivatives",
 "The residual of a bundle adjustment reprojection error is the projection minus the observation over the standard deviation, and the four jacobians returned with it (camera, rig instance, rig camera, point) are the derivatives of that residual, for every camera model, with and without a rig camera, wherever the projection is differentiable and the rotations are not nearly zero; likewise for panoramas (bearing residual), for the derivatives of a projection alone, and for the jacobian used for the covariance of a point, whose accumulated matrix is symmetric positive semi-definite.",
 "every camera model, every parameter vector, every pose whose rotation angle exceeds 2^-26, every point at which the projection is differentiable",
 "Continuum; finite differences only test a few points to a few digits.",
 ["opensfm/src/geometry/functions.h: ComposeForwardDerivatives, ComposeDerivatives","opensfm/src/geometry/transformations_functions.h","opensfm/src/geometry/camera_projections_functions.h","opensfm/src/geometry/camera_distortions_functions.h","opensfm/src/geometry/camera_instances.h","opensfm/src/bundle/error/projection_errors.h","opensfm/src/geometry/src/covariance.cc"])
p("C45","Cameras project as documented, and bearings invert projections",
 "camera.project(point) is the documented formula of the camera's projection type, for all ten types, with the parameters read by name; it depends only on the direction of the point. camera.pixel_bearing(pixel) is a unit vector. For a camera without distortion (perspective, fisheye and panorama families) projecting the bearing of a pixel gives the pixel back, and the bearing of the projection of a point in front is its direction.",
 "every camera any factory function can make, every parameter value, every point and pixel in the stated domains (exact real arithmetic)",
 "Continuum; ten models; only grids of points can be tested.",
 ["doc/source/geometry.rst","opensfm/src/geometry/camera_instances.h","opensfm/src/geometry/src/camera.cc: Project, Bearing","opensfm/src/geometry/camera_projections_functions.h","opensfm/src/geometry/camera_distortions_functions.h"])
p("C46","Camera matrices and undistortion maps agree with the projection",
 "For a perspective camera without distortion, get_K() applied to a point and dehomogenised is project(point); get_K_in_pixel_coordinates(w, h) gives the same place in pixels. The undistortion map of a camera to itself is the identity, and in general the entry of a pixel is where the first camera sees the ray of this pixel in the second one.",
 "every such camera, image size, point and pixel",
 "Continuum.",
 ["opensfm/src/geometry/src/camera.cc: GetProjectionMatrix, GetProjectionMatrixScaled, ComputeCameraMapping"])
p("C47","Undistortion is accurate",
 "For cameras with radial distortion (perspective, simple radial, radial, fisheye, OpenCV fisheye): when the distortion displaces a point by at most 10 percent (3 percent for the four coefficient model), the bearing of the projection of a point is within 2e-6, or the tenth power of the distortion times its displacement, of the direction of the point; and every pixel has a direction seen exactly there, with its bearing as near. With a single positive coefficient any amount of distortion is removed to 7 percent of the displacement or 8e-6.",
 "every such camera, parameters, points and pixels (exact real arithmetic, with the code's Newton iterations, tolerance and iteration bound)",
 "Continuum; convergence of an iteration with an inexact derivative.",
 ["opensfm/src/geometry/camera_distortions_functions.h: Backward, DistoEval","opensfm/src/foundation/newton_raphson.h","opensfm/src/geometry/src/camera.cc: Bearing"])
p("C48",
 "Triangulation finds the point closest to the rays, and accepts only points that pass its checks",
 "triangulate_bearings_midpoint on unit bearings computes the unique point minimising the sum of squared distances to the lines, defined exactly when the bearings are not all parallel, and equal to the common point when the lines meet; it succeeds only if (for positive minimum angle and depth) the point is finite, at least min_depth in front of every camera along its bearing, within the i-th threshold of the i-th bearing, and two bearings make an angle in [min_angle, pi - min_angle]; perfect observations under these conditions always succeed with the exact point. triangulate_two_bearings_midpoint returns the middle of the common perpendicular (the same point as the many view solver), and fails exactly when the squared sine of the angle is under 1e-10. triangulate_bearings_dlt returns the exact point for perfect observations whose bearings have a nonzero third component, whatever null vector the decomposition returns. epipolar_angle_two_bearings_many is in [0, pi/2] and zero exactly for bearings coplanar with the translation.",
 "every number of rays, centers, unit bearings, thresholds, rotations (exact real arithmetic)",
 "Continuum of configurations and any number of views; minimality and uniqueness are universal statements.",
 ["opensfm/src/geometry/triangulation.h", "opensfm/src/geometry/src/triangulation.cc"])
p("C49",
 "Tracks are triangulated to points their stored observations agree with",
 "TrackTriangulator.triangulate_robust stores a point only with at least two observations, and the observations stored are exactly those of the track (in the shots of the reconstruction) whose bearing is within the threshold of the direction of the stored point; whatever the random numbers, at least as many are stored as agree with the refined point of any pair drawn before the loop stops; perfect observations are all stored with the exact point as soon as a drawn pair sees the point under the minimum angle (always with two views). TrackTriangulator.triangulate stores either nothing or all the observations, with the refinement of a point that passes all the checks, and perfect observations are always stored with the exact point. triangulate_shot_features leaves existing points alone, adds only tracks of the given shots, every one that is triangulated, and (without random numbers) gives the same points for every iteration order of the set of tracks.",
 "every number of views, poses, cameras, observations, thresholds, sequence of random numbers, iteration order and refinement that does not increase its cost",
 "Continuum of configurations, every random sequence and set order.",
 ["opensfm/reconstruction.py: TrackTriangulator, triangulate_shot_features, retriangulate, TrackHandlerTrackManager.get_observations"])
p("C50",
 "Incremental reconstruction is a partition of the images, keeps rigs whole and stops only when nothing more can be added",
 "For any dataset, incremental reconstruction terminates without raising for duplicate shots; every image of the tracks is either listed in not_reconstructed_images and in no reconstruction, or in exactly one reconstruction; reconstructions are disjoint; the shots of a rig instance are never separated and shots that are not images of the tracks appear only as companions of one; reconstructions are returned largest first; each starts from a candidate pair (at least min_common common tracks, at least 30% of which do not fit a rotation) with enough triangulated points; each step of the growth adds, among the images that see at least five points and have enough resection inliers, the one that sees most points; at the end no remaining image could be added to any reconstruction and no pair of remaining images can start one.",
 "all track sets, rig assignments naming each shot once, configurations, candidate pair lists, geometric computations and set iteration orders",
 "depends on the interleaving of arbitrarily many bootstraps, failed resections and in-place updates of the set of remaining images; tests run one or two tiny synthetic scenes",
 ["opensfm/reconstruction.py: incremental_reconstruction, grow_reconstruction, bootstrap_reconstruction, reconstruction_from_relative_pose, resect, add_shot, reconstructed_points_for_images, compute_image_pairs_sequential, pairwise_reconstructability", "opensfm/src/sfm/src/tracks_helpers.cc: CountTracksPerShot"])
p("C51",
 "Neighbourhood of a shot for local bundle adjustment",
 "For any map, the neighbourhood of a shot consists of two disjoint unions of whole rig instances: an interior that contains the shot and only shots at distance smaller than the radius (distance counted in steps that share at least min_common_points points), equal to the set of all of them when the maximal size is not reached and within that size when no rig has several cameras; and a boundary made of exactly the instances sharing a point with the interior. When not all neighbours fit, those sharing most points are taken.",
 "all maps, radii, thresholds, maximal sizes, iteration orders and unstable sorts",
 "quantifies over arbitrary graphs of shots and points; the tests use a chain of four shots without rigs",
 ["opensfm/src/sfm/src/ba_helpers.cc: ShotNeighborhood, DirectShotNeighbors, ShotNeighborhoodIds"])
p("C52",
 "Bundle adjustments change only what they were asked to adjust",
 "For every map without dangling references and every minimiser that respects constant parameters: the local adjustment around a shot succeeds, keeps cameras, biases, rig cameras, shots, all instances outside the interior of the neighbourhood and all landmarks not seen from it, and its problem contains each observation of the interior once, each observation of interior points from the (fixed) boundary once, and nothing else; the adjustment of given shots changes only poses of rig instances all of whose shots are given; the full adjustment contains every observation once, frees every instance and landmark, refuses non-positive GPS accuracies and non-finite results, and keeps lever-arm rig cameras; the position prior of a moving instance is the mean of the GPS positions of its shots (false for the adjustment of given shots with three shots or more in an instance), and biases are kept when they are not compensated (false: they are reset).",
 "all maps, neighbourhoods, sets of shots, iteration orders, minimisers and configurations of GPS use",
 "a test sees one map and one solver run; that nothing else moves and that no observation is lost or counted twice concerns all of them",
 ["opensfm/src/sfm/src/ba_helpers.cc: BundleLocal, BundleShotPoses, Bundle, BundleToMap", "opensfm/src/bundle/src/bundle_adjuster.cc: AddCamera, AddRigInstance, AddRigCamera, AddPoint, AddPointProjectionObservation, SetCameraBias"])
p("C53",
 "Culling of points removes exactly the points and observations it documents",
 "remove_outliers removes exactly the observations of the given points whose reprojection error exceeds the configured threshold, together with the points which lost an observation and keep fewer than two, and returns the number of outliers; filter_badly_conditioned_points removes exactly the points not seen under the minimum angle, failing the numerical checks, or with a condition number above mean + one standard deviation (never more than half of the others); remove_isolated_points removes exactly the points whose mean squared distance to their k nearest points is above mean + 1.25 standard deviations (never more than 16 in 41), independently of the iteration order and of the scale; everything else in the map is unchanged.",
 "all maps reachable by API calls, all recorded errors, thresholds, point lists, iteration orders, poses and condition numbers",
 "the set removed depends on statistics over all points and on hash map iteration order; tests only check a few small maps",
 ["opensfm/reconstruction.py: get_error_distribution, get_actual_threshold, remove_outliers", "opensfm/src/sfm/src/map_helpers.cc: FilterBadlyConditionedPoints, RemoveIsolatedPoints", "opensfm/src/map/src/landmark.cc: RemoveObservation"])
p("C54",
 "Realigning a map onto another one",
 "realign_maps(from, to, update_points) succeeds on every pair of maps. Shots of `to` unknown to `from` are removed with their observations and rig memberships; the others take scale and merge_cc of `from`, their cameras its parameter values, and their rig instances its poses moved by the position of from's reference in to's local frame, so shots with the same rig camera end where `from` has them. With update_points every point is moved with the nearest shot that sees it and is known to `from`: its image in that shot does not move and its distance is divided by the scale. Points seen by no such shot and everything else stay. Realigning a map onto itself moves nothing. Positions on Earth are kept when the references share latitude and longitude (refuted otherwise).",
 "all pairs of maps built by calls that obey the usage protocol, all poses, points, references and scales, both values of update_points, all iteration orders",
 "The result depends on two arbitrary maps, their overlap, on which observer of each point is nearest, and on iteration orders of hash tables; tests try a few scenes.",
 ["opensfm/src/sfm/src/retriangulation.cc: RealignMaps", "opensfm/src/map/src/map.cc: Map::RemoveShot", "opensfm/src/geometry/similarity.h: Similarity::Transform", "opensfm/src/geometry/pose.h: Pose::SetOrigin"])
p("C55",
 "Robust estimation keeps the best model it looked at",
 "The robust estimators (RANSAC, MSAC, LMedS with local optimisation) return one of the models they looked at, with exactly its own score and list of inliers, and no model they looked at is better: none has more inliers (RANSAC), a smaller truncated cost (MSAC) or a smaller median error (LMedS). Every model looked at comes from as many distinct samples as a minimal set needs, or from distinct inliers of another one. No model of a drawn sample is skipped unless the loop is stopped early, and that happens only when that many draws would all contain an outlier with less than the admitted probability. With enough samples estimation ends (with too few it never does). For poses and rotations the threshold is an angle: a sample is an inlier exactly if its direction is within that angle of the predicted one; the pose returned is the inverse of the model's.",
 "all data, models, solvers, error functions, thresholds, parameters and random sequences",
 "Tests run a few generated data sets with a fixed seed; the claim is about the best of all models looked at for every data set and every random sequence",
 ["opensfm/src/robust/robust_estimator.h: Estimate, ShouldStop, RunEstimation", "opensfm/src/robust/scorer.h", "opensfm/src/robust/random_sampler.h", "opensfm/src/robust/line_model.h", "opensfm/src/robust/absolute_pose_model.h", "opensfm/multiview.py: absolute_pose_ransac, relative_pose_ransac"])
p("C56",
 "Feature extraction on files: schedules, kills and reruns",
 "detect_features gives the same files whatever the number of workers and the interleaving of their steps: an image that has features (and words, if they are needed) is left alone unless forced, every other gets features, words and report, and no other file changes. Killed at any point, each file is old, whole or a beginning of the new one, words are touched only after whole features and reports after both. Run again after a kill that tore no file it gives what an uninterrupted run gives; run again after a full run it changes nothing; a forced run sets everything right. What does not hold: a torn feature file is not repaired by an unforced run, old words without features survive, and a legacy feature file hides the features of a forced run.",
 "all lists of images with distinct file names, all initial files, all contents, every interleaving of the workers and every kill point, including in the middle of a write",
 "schedules and crash points are unbounded; a test sees one of them",
 ["opensfm/features_processing.py:detect, run_features_processing", "opensfm/dataset.py:features_exist, words_exist, load_features, save_features, save_words, save_feature_report", "opensfm/io.py:IoFilesystemDefault"])
p("C57",
 "Metadata extraction on files: results, kills and reruns",
 "A run of extract_metadata that ends well leaves for each image the metadata that were on disk, or else those of the image file with the overrides applied, and camera models that are those of the first image naming each camera, replaced by the camera overrides (an override named all replaces every one); nothing else changes. It ends well exactly when every file it has to read parses. Run again after a kill that tore no metadata file it has the outcome and the files of an uninterrupted run; run again after success it changes nothing. Metadata torn by a kill make every later run fail and are never repaired; overrides edited after the first run have no effect on the metadata.",
 "all lists of images, all initial files, every kill point, all contents of metadata and overrides",
 "crash points and histories of runs are unbounded",
 ["opensfm/actions/extract_metadata.py:run_dataset", "opensfm/dataset.py:exif_exists, load_exif, save_exif, load_exif_overrides, load_camera_models_overrides, save_camera_models"])
p("C58",
 "Stages that overwrite their results survive kills",
 "A stage that looks at no file it writes, killed at any point, even in the middle of a write, and run again ends with the outcome and the files of an uninterrupted run. This holds of create_tracks, and of match_features and reconstruct provided the kill did not tear reference_lla.json: the reference is made up by the first stage that finds none, used as it is by every later one, and a torn one is kept.",
 "all programs reading only paths they do not write, all inputs, every kill point",
 "crash points are unbounded and contents arbitrary",
 ["opensfm/actions/match_features.py", "opensfm/actions/create_tracks.py", "opensfm/actions/reconstruct.py", "opensfm/dataset.py:init_reference, load_reference", "opensfm/matching.py:save_matches"])
p("C59",
 "Splitting into submodels covers the dataset with the requested overlap",
 "create_submodels puts every image with a GPS position in at least one submodel (the one of its cluster, or of its group when image_groups.txt exists) and images without a position in none; submodel k holds, in dataset order and once each, exactly the images of cluster k and those within submodel_overlap metres of one of them, so two images within the overlap of each other are together in the submodel of either; the number of clusters is ceil(n / submodel_size), or the number of groups in name order; the list written for each submodel is read back as those images, and the next commands find all the submodels and only them whatever directories an earlier run left. An image without a group is a KeyError, a malformed line a ValueError; an image named twice is in its last group, and a group left without images makes the command fail (TypeError).",
 "all lists of images, positions, group files, sizes, overlaps, k-means results and earlier contents of the directory",
 "The coverage must hold for every layout of positions and every labelling k-means returns; tests use one synthetic layout.",
 ["opensfm/actions/create_submodels.py:run_dataset, _create_image_list, _read_image_groups, _cluster_images, _add_cluster_neighbors", "opensfm/large/tools.py:add_cluster_neighbors", "opensfm/large/metadataset.py:create_image_list, images_with_gps, create_submodels, remove_submodels, get_submodel_paths", "opensfm/dataset.py:_set_image_list"])
p("C60",
 "Aligning submodels moves each by one similarity and merges the copies of shots",
 "align_submodels writes, for every submodel with a reconstruction, an aligned copy in which each partial reconstruction is the original moved by one similarity of scale in (0, 10], whatever the solver answers. The problem given to the solver has one relative motion per shot of each partial reconstruction and one GPS position per distinct shot, starts from identities, and the relative motions vanish at its answer exactly when every shot of every aligned partial reconstruction has the pose the solver gives to that shot, so that copies of a shot in several submodels coincide; if similarities bringing the copies together exist, that value is attained and the applied alignment is theirs. Common points, GPS positions and common cameras have zero residual exactly when the aligned points, positions and poses agree. Names of partial reconstructions never collide (shot names in the hard mode can).",
 "all sets of submodels, reconstructions, poses, pairs of points and solver answers",
 "The sign and inversion conventions of five residuals must agree with the transformation applied afterwards, for all rotations and scales; a test only sees that an optimum looks right.",
 ["opensfm/large/tools.py:add_camera_constraints_soft, add_camera_constraints_hard, add_point_constraints, align_reconstructions, invert_similarity, apply_transformations, load_reconstruction_shots, partial_reconstruction_name", "opensfm/actions/align_submodels.py:run_dataset", "opensfm/src/bundle/reconstruction_alignment.h"])
p("C61",
 "The undistorted reconstruction",
 "Undistorting a reconstruction gives, for each shot that is an image of the dataset and whose camera is perspective, brown, fisheye, fisheye_opencv or fisheye62, one shot with the same pose and measurements, the name of the shot with the extension of the image format added unless it ends with it, and a perspective camera of the same size, without distortion, whose focal length is the mean of the two of the original; for each panorama, six shots at the same optical centre with the same measurements, turned by the six rotations of a cube, with square cameras of half angle 45 degrees. No other shot, and the dictionary returned lists exactly these. Points keep names, coordinates and colors, the reference is kept. The tracks of a flat image are those of the shot, unchanged; those of a view of a panorama are those found in it; there are no others. It succeeds whenever no two results have the same name (images 'a' and 'a.jpg' exported to jpg do, and undistortion fails).",
 "every reconstruction (references valid, rigid poses, cameras of any model), tracks, list of images, image format and width, and every iteration order of the maps",
 "the result depends on every shot, camera model, name and order of a map; name collisions appear only with particular names",
 ["opensfm/undistort.py: undistort_reconstruction", "opensfm/undistort.py: perspective_views_of_a_panorama", "opensfm/undistort.py: get_shot_with_different_camera", "opensfm/undistort.py: add_subshot_tracks"])
p("C62",
 "The six views of a panorama",
 "Every observation in a panorama is found in at least one of its six views, with everything but its place unchanged, where the view looks in the same direction of the world as the panorama did; it is found in a view exactly when the view sees that direction in its image, and in two views only on their common border. Every pixel of a view is read in the panorama where the panorama looks in the same direction, inside the image; the pixel of an observation is read at the place of the observation in the panorama. Scaling an image gives a longer side of exactly the maximum if it was larger and the other in proportion to half a pixel.",
 "every panorama camera, rotation, observation, pixel, image size, and (in the reconstruction) every reconstruction, tracks, and iteration order",
 "tests sample a few directions; coverage of the sphere by the cube and equality of directions are for all directions and rotations",
 ["opensfm/undistort.py: add_pano_subshot_tracks", "opensfm/undistort.py: render_perspective_view_of_a_panorama", "opensfm/undistort.py: perspective_views_of_a_panorama", "opensfm/undistort.py: scale_image"])
p("C63",
 "Camera angles convert to rotations and back",
 "rotation_from_ptr(pan, tilt, roll) is the rotation of the camera that looks at azimuth pan (from north to east), tilt below the horizon, with its right side raised by roll; rotation_from_ptr_v2 builds the same camera. ptr_from_rotation reads pan and tilt back for every roll, and the roll when it is between -90 and 90 degrees (a larger roll comes back as pi minus it); ptr_from_rotation_v2 reads all three back, and whatever it reads from any rotation not looking straight up or down are angles of that rotation. rotation_from_opk(omega, phi, kappa) turns a camera looking down with its top to the north by kappa about z, phi about y and omega about x, and opk_from_rotation is its inverse. rotation_matrix_from_up_vector_and_compass gives a rotation with that up vector and that compass angle. The up direction guessed from an EXIF orientation is the side of the stored pixels that the EXIF standard puts on top.",
 "all real pan, tilt, roll, omega, phi, kappa, all rotations, all up vectors and compass angles, all orientation tags",
 "the angles and rotations are a continuum, with wrap-around at pi and the degenerate directions where angles are not unique",
 ["opensfm/geometry.py: rotation_from_ptr, ptr_from_rotation, rotation_from_ptr_v2, ptr_from_rotation_v2, rotation_from_opk, opk_from_rotation", "opensfm/multiview.py: camera_up_vector, camera_compass_angle, rotation_matrix_from_up_vector_and_compass", "opensfm/reconstruction_helpers.py: guess_gravity_up_from_orientation_tag", "opensfm/transformations.py: euler_matrix, euler_from_matrix"])
p("C64",
 "Camera motions from a plane homography are exactly the explaining ones; planes are made horizontal",
 "motion_from_plane_homography(H) of an invertible H returns, unless two singular values are within a ratio of 1.0001, eight motions (R, t, n, d), and these are exactly the rotations R, translations t, unit normals n and distances d for which H maps every point X of the plane n.X + d = 0 to a multiple d of its position R X + t in the second camera; no motion is missed and none is spurious. plane_horizontalling_rotation(p) of a nonzero p returns a rotation taking p to the vertical (0, 0, |p|).",
 "all homographies given by their singular value decomposition, all rotations, translations, normals and distances; all plane normals",
 "that nothing is missed or spurious is a statement about all real motions; special directions (plane already horizontal or upside down) have to work too",
 ["opensfm/multiview.py: motion_from_plane_homography, plane_horizontalling_rotation", "opensfm/transformations.py: rotation_matrix, angle_between_vectors"])
p("C65",
 "The reconstruction of two views returns the matches that agree with its motion",
 "two_view_reconstruction_general returns a rotation, a translation and inliers such that the inliers are listed in increasing order and are exactly the matches for which the midpoint of the two lines of sight is seen by both cameras within the threshold of the two bearings (given a parallax of at least 1e-5); a match of a point that both cameras see exactly is always an inlier. It returns the result of the five point or the plane based method with most inliers, and nothing only if both fail. With the reversal check the five point method returns the motion or its reverse, whichever has most inliers (more than five), and nothing when they are too close to tell. The plane based method should return the motion with most inliers of the eight candidates.",
 "all lists of bearings, all thresholds, all outcomes of the robust solver, of the nonlinear refinement and of the homography",
 "the inliers are defined by real inequalities at every match; which method wins depends on all the outcomes of the solvers; a wrong choice of motion shows only in configurations where the first candidate is not the best",
 ["opensfm/reconstruction.py: two_view_reconstruction_general, two_view_reconstruction_5pt, two_view_reconstruction_plane_based, two_view_reconstruction_and_refinement, _two_view_rotation_inliers", "opensfm/matching.py: compute_inliers_bearings", "opensfm/src/geometry/triangulation.h: TriangulateTwoBearingsMidpointMany"])
p("C66",
 "The position of an image and the reference of the dataset",
 "Extracting the metadata of an image gives exactly the latitude and longitude that its EXIF tags state (degrees, minutes and seconds as ratios, hemisphere letters), the altitude with its sign (at most 10000 m) and the dilution of precision; both coordinates or none; a DJI position in the XMP has priority. On tags of the types of the standard it never fails and invents nothing. The reference of the dataset is the mean of the positions weighted by their precision (of the ground control points when no image has one), and lies within any latitude/longitude box that contains them.",
 "all tag tables and XMP blocks, all ratios and reference letters, all lists of positions",
 "the tags come from arbitrary cameras; a test shows a few files, not all combinations of signs, denominators and missing tags",
 ["opensfm/exif.py: eval_frac, gps_to_decimal, EXIF.extract_lon_lat, EXIF.extract_altitude, EXIF.extract_dop, EXIF.extract_geo", "opensfm/dataset.py: invent_reference_from_gps_and_gcp"])
p("C67",
 "Camera names and focal lengths",
 "Two images that get the same camera name (camera id) have the same width, height, projection type up to case, and focal ratios that print the same up to six characters; a make repeated in the model does not change the name. The focal ratio is the stated 35 mm equivalent divided by 36, else focal length divided by sensor width, the width being stated by the resolution tags in any of the four units or found in the sensor table; the 35 mm equivalent is always 36 times the ratio, and nothing is invented.",
 "all makes, models, sizes, projection types, focal lengths, resolution units; all ways of printing numbers",
 "collisions between names are over pairs of arbitrary texts",
 ["opensfm/exif.py: camera_id_, sensor_string, compute_focal, EXIF.extract_focal, EXIF.extract_sensor_width, EXIF.extract_image_size, EXIF.extract_projection_type"])
p("C68",
 "The capture time is the time the image file states",
 "The capture time extracted from an image is the number of seconds from 1970-01-01 of the time its tags state: the UTC time of the GPS if there is one (to the nearest microsecond), else the first stated of the original, digitized and file times, with its fraction of a second; missing, blank and impossible dates are passed over; a stated offset to UTC is subtracted; without any time the result is 0. Later times give greater numbers. (False of the code for offsets east of Greenwich with minutes, whose minutes are added, and for GPS times whose seconds round to 60 or that have fewer than two numbers.)",
 "every date of the years 1 to 9999, time of day, fraction of one to six digits, offset, and combination of present, blank, impossible and missing tags",
 "the calendar (leap years, month lengths), the three groups of tags and the offsets give too many combinations; tests use a few current dates and no half-hour zones",
 ["opensfm/exif.py:EXIF.extract_capture_time", "opensfm/exif.py:get_tag_as_float"])
p("C69",
 "Every image gets the camera of its metadata",
 "After the metadata are extracted, every image has a camera under its camera name, with that name and the size of the first image of that name. A camera without an entry in the table of known calibrations has the projection type of the image, its focal length (the configured prior if it is unknown), its principal point, square pixels and no distortion; one with an entry that says its type has the entry's parameters; overrides replace all cameras or the named ones. The camera depends on the image alone. (The last claim is false of the code for entries without a projection type: the first image writes its own type into the shared table. Entries under makes with capitals, and entries by focal length of makes with models, are never used; the type dual cannot be made.)",
 "every list of images, metadata, table of calibrations, prior and overrides",
 "the fault needs several images of one make and different projections in one run; tests make one camera at a time",
 ["opensfm/exif.py:calibration_from_metadata", "opensfm/exif.py:hard_coded_calibration", "opensfm/exif.py:camera_from_exif_metadata", "opensfm/actions/extract_metadata.py:run_dataset", "opensfm/data/camera_calibration.yaml"])
p("C70",
 "Shots initialised from metadata are where and how the metadata say",
 "Initialising a reconstruction from metadata (reconstruction_from_metadata) gives a shot to exactly the images that have a latitude and a longitude, with the camera of the image, scale 1 and the metadata of the image, in the dataset's cameras and reference. The position of the shot in the frame of the reference is the GPS position at the altitude of the GPS (at most 10 km; 2 m if missing or not to be used); the accuracy is never zero. Its rotation has the omega, phi, kappa of the image, else it puts the image upright (by gravity, else by the EXIF orientation, where a missing or invalid one means upright) and looks to the compass angle (else to the north). All this if no two images are of the same rig instance; otherwise the earlier shots of the instance lose their pose and their place in the instance.",
 "every list of images with any metadata, every reference, rig assignment and set of cameras",
 "tests place a few images with typical metadata; the claim is for every combination of present and missing metadata, every order and number of images",
 ["opensfm/reconstruction_helpers.py: reconstruction_from_metadata, exif_to_metadata, rotation_from_shot_metadata", "opensfm/types.py: Reconstruction.create_shot, add_rig_instance"])
p("C71",
 "Camera angles of drones",
 "For an image with a position and with the yaw, pitch and roll of the camera (or of a DJI gimbal, whose pitch is 90 degrees off) in its XMP block, the omega, phi and kappa that are read are those of the camera: one that looks down with the top of its image to the nose of the drone, after the drone is turned by yaw, pitch and roll from the north. No angles are read without a position or when one of the angles is missing or not a number.",
 "every XMP block, position and triple of angles",
 "tests compare a few stored values; the claim is for every position on earth and every attitude",
 ["opensfm/exif.py: EXIF.extract_opk", "opensfm/geometry.py: rotation_from_opk, opk_from_rotation"])
p("C72",
 "The Bundler export describes the same cameras, points and views",
 "The Bundler export writes as many cameras as images in the list and as many points as in the reconstruction. Camera i is the one of the i-th image (marked as missing if that image was not reconstructed); when the image has a perspective camera, the format's own projection formula sees every point exactly where the reconstruction does (in pixels from the centre, y up). The views of a point are the observations of its track by the reconstructed images, each once, at the position observed. The export fails for brown cameras and for reconstructed images left out of the list; fisheye cameras are written as if they were perspective ones.",
 "every reconstruction, tracks manager and list of images, every order of iteration, every 3D point",
 "tests compare the export of one synthetic scene with a stored file; the claim is for all scenes, cameras, poses and points",
 ["opensfm/actions/export_bundler.py: export_bundler"])
p("C73",
 "The NVM export describes the same cameras, points and views",
 "The VisualSFM export writes the shots of the reconstruction that are in the image list (all without a list), in order, announces their number, and gives each the quaternion and centre that place every point in the camera frame as the shot's pose does; the quaternion computed from a rotation matrix is of length 1, has a non-negative scalar part and turns every vector like the matrix. It writes exactly the points whose track is observed by at least two exported images, announces their number, and lists each observation once with the index of its camera. The coordinates written for a view are pixels only if the image is square; brown cameras make the export fail.",
 "every reconstruction, tracks manager, list of images and image sizes, every rotation matrix, every diagonalisation routine that returns the unit eigenvectors of all eigenvalues",
 "tests check one file; the claim is for every rotation (also by 180 degrees), every selection of images and every set of tracks",
 ["opensfm/actions/export_visualsfm.py: export", "opensfm/transformations.py: quaternion_from_matrix"])
p("C74",
 "The COLMAP export describes the same cameras, poses, points and matches",
 "export_colmap writes, for perspective, fisheye and brown cameras, a COLMAP camera that sees every point in front of it at the pixel where OpenSfM's camera sees it, and refuses the models COLMAP lacks; the quaternion and translation of an image give the camera coordinates of every point; the pair id of two images determines them and the rows of matches pair the same features; cameras and images are numbered from 1 in order, points from 0, and the track of a point names the images of its reconstruction that observe it. The full claim fails in the code in four ways, stated as such: an unrotated camera gets a NaN quaternion, the principal point of an opencv fisheye camera is not scaled to pixels, keypoints are half a pixel off COLMAP's convention, and track entries use the feature number rather than the position in the image's list of points, which agree only while every earlier feature has a point.",
 "every camera, pose, point, list of reconstructions, tracks manager, set of match files and pair of image ids below COLMAP's limit",
 "equality with COLMAP's camera models must hold for every real point and parameter, and the numbering for every reconstruction; a test compares a few pixels",
 ["opensfm/actions/export_colmap.py: camera_to_colmap_params, image_ids_to_pair_id, COLMAPDatabase.add_matches, export_matches, export_cameras, export_features, export_points_reconstruction, export_images_reconstruction, angle_axis_to_quaternion"])
p("C75",
 "The OpenMVS and PMVS exports describe the same cameras, images and points",
 "export_openmvs writes one image per selected perspective shot, in order, referring to a camera and a pose that see every point at the pixel where the reconstruction sees it (integer coordinates at pixel centres); its vertices are the points with a selected observer, and the views of a vertex are exactly the images observing it provided all of those were written; an observation by an image that was not written becomes a view by image 0, and an image without mask is given the working directory as mask (both shown). export_pmvs writes matrices that see every point where the camera does in pixels from the corner of the resized image, within half a pixel of the same place after resizing, and vis.dat lists for each image exactly the other images of the reconstruction sharing tracks with it.",
 "every set of cameras, shots, points, tracks, image list, enumeration order, image size and process size",
 "the index bookkeeping must be right for every subset of images and every order of tracks, and the projection equality for every point; tests export one scene",
 ["opensfm/actions/export_openmvs.py: export", "opensfm/src/dense/openmvs_exporter.h: OpenMVSExporter::AddCamera, AddShot, AddPoint", "opensfm/actions/export_pmvs.py: export", "opensfm/features.py: resized_image"])
p("C76",
 "The export to geographic coordinates moves cameras and points together",
 "export_geocoords computes the affine map that agrees with the reference's conversion and the projection at the origin and at one metre along each axis (everywhere if that conversion is affine); for every invertible map, every point of the exported reconstruction is moved by it and every camera outside of a rig has its centre moved by it and sees the moved points exactly as it saw the points; the table of image positions holds the moved centre of every shot. Stated as deviations of the code: the cameras of rigs are not moved at all, the saved file describes the moved cameras only when the map is a rotation and a translation, and the export of the dense cloud fails on every cloud with a point.",
 "every reference, projection, reconstruction whose shots are in their rig instances, invertible affine map, order of shots and world point",
 "equality of what cameras see must hold for every point and every affine map, and aliasing of the pose object depends on the rig structure of the reconstruction",
 ["opensfm/actions/export_geocoords.py: _get_transformation, _transform, _transform_image_positions, _transform_reconstruction, _transform_dense_point_cloud", "opensfm/src/map/src/shot.cc: Shot::GetPose"])
p("C77",
 "Residuals of a bundle adjustment",
 "Beside the reprojection errors, each residual of a bundle adjustment is zero exactly when the poses agree with the measurement: a shot's origin, orientation and view of a point are those of its rig camera's pose composed with its instance's; the up vector is turned to the vertical; the compass, tilt and roll residuals are the difference of the angles the short way around over the standard deviation; GPS, point, rig camera and camera priors vanish exactly at the (bias-corrected) prior and weigh by the standard deviation; a relative motion or rotation vanishes exactly for the observed relative pose; depths, common positions, linear motions and the gauge likewise. Every functor reads the rig cameras of its own shots. Not so: of three shots in linear motion of which the last two share a rig camera, the third is given that of the first; linear motion does not compare directions; roll cannot tell an upside-down camera; the barrier has its constant added with the wrong sign.",
 "all parameter values, poses, rig cameras, measurements, standard deviations, scale matrices of full rank",
 "residuals are functions of real vectors; tests evaluate them at a few poses and never compare with the pose they stand for",
 ["opensfm/src/bundle/error/error_utils.h", "opensfm/src/bundle/error/position_functors.h", "opensfm/src/bundle/error/absolute_motion_errors.h", "opensfm/src/bundle/error/motion_prior_errors.h", "opensfm/src/bundle/error/parameters_errors.h", "opensfm/src/bundle/error/prior_error.h", "opensfm/src/bundle/error/relative_depth_error.h", "opensfm/src/bundle/error/relative_motion_errors.h", "opensfm/src/bundle/data/pose.h", "opensfm/src/bundle/data/bias.h", "opensfm/src/bundle/src/bundle_adjuster.cc:Run"])
p("C78",
 "Fitting a similarity to point pairs: least squares, exact on exact data, own inliers",
 "superimposition_matrix and affine_matrix_from_points (shear off) refuse fewer points than dimensions and unequal counts with ValueError. Otherwise they return a similarity: a proper rotation, a scale that is 1 or the ratio of the RMS deviations from the centroids, and the translation that matches the centroids; no other rotation and translation with that scale has a smaller sum of squared distances. If the targets are an exact similarity image of the sources, every source point is brought onto its target, and the similarity itself is returned unless the points are on one line (in the plane: unless they are all the same). decompose_similarity_transform gives back scale, rotation and translation. fit_similarity_transform returns exactly the points within the threshold of the transformation it returns, and on exact data with at least one sample that is not on a line finds the similarity with all points as inliers whatever the other samples are.",
 "all lists of points of any length, all similarities, all correct singular value decompositions, all sequences of random permutations, all thresholds",
 "tests fit a few point sets generated with a fixed seed; optimality over all rotations and exactness for every configuration, including the reflected and rank deficient ones, needs a proof",
 ["opensfm/transformations.py: affine_matrix_from_points, superimposition_matrix", "opensfm/multiview.py: fit_similarity_transform, decompose_similarity_transform"])
p("C79",
 "Alignment to GPS and ground control points by a direct fit",
 "align_reconstruction with align_method naive (or auto, when it chooses it) applies one similarity to the whole reconstruction: with no position nothing changes, with one position (or all the same) a translation, with two both points are brought to their positions, in general the rotation and translation with the least squared error for the scale that equalizes the scatters (1 for rigs of several cameras). When the positions are images of the points by a similarity and the points are not on a line, exactly that similarity is applied and every rig instance ends at the mean of the GPS positions of its shots. The points used are exactly the rig instances with GPS and the ground control points that are triangulated and surveyed, as the options say. auto never chooses the direct fit for less than three points or points on a line. With GPS bias compensation the bias of each camera is the inverse of the similarity from its shots to their GPS positions, and either every camera that has shots is given one or none. (Refuted: a ground control point without altitude is flattened in the frame of the reconstruction before its vertical is known.)",
 "all reconstructions, configurations, sets of ground control points, orders of hash maps, correct singular value and eigenvalue decompositions",
 "tests align one synthetic scene; exactness and optimality must hold for every geometry and every mix of GPS, GCP, rigs and options",
 ["opensfm/align.py: align_reconstruction, compute_reconstruction_similarity, alignment_constraints, detect_alignment_constraints, compute_naive_similarity, set_gps_bias, triangulate_all_gcp", "opensfm/multiview.py: triangulate_gcp"])
p("C80",
 "Alignment with a prior on the orientation of the cameras",
 "With align_method orientation_prior (or auto for few points or points on a line) the reconstruction is levelled by the prior (no_roll, horizontal, vertical) and aligned in the plane. The directions used are the right and bottom of the upright picture for every EXIF orientation. If the cameras are all at the same height and every picture with an orientation tag is as the prior says, the plane found has the true vertical as normal, upward; and if then the positions are images of the points by a similarity that keeps that vertical, exactly that similarity is applied, even for two points or points on a (not vertical) line. In general the similarity has a positive scale, a rotation with the same heights as the levelling one, and brings the centroid of the points to the centroid of the positions at scale 1 if the scale is fixed, except for two points that would move by more than 1 km. With no position the reconstruction is only levelled. (Refuted: the viewing direction is inverted for the tags 2, 5, 7, so that mirrored pictures looking down give an upside down plane; without tags the sign of the plane is arbitrary; a path that climbs tilts the plane; two shots with the same GPS 2 km away are put 1 km away from it and halved.)",
 "all reconstructions, priors, EXIF orientations, positions, orders of hash maps, correct eigenvectors and singular value decompositions",
 "the existing tests use one prior on synthetic scenes; the eight orientations, degenerate paths and exactness over all similarities need a proof",
 ["opensfm/align.py: compute_orientation_prior_similarity, estimate_ground_plane, get_horizontal_and_vertical_directions", "opensfm/multiview.py: fit_plane, plane_horizontalling_rotation"])
p("C81",
 "Depth maps: geometry and matching score",
 "Backprojecting a pixel at a depth gives the one point that the view sees there at that depth; the homography of a plane takes the pixel of each of its points to the pixel where the other view sees the point; the depth of a plane at a pixel and the plane of a depth and a normal are inverse to each other unless the plane is seen from the side or from behind; the score of a plane is the weighted correlation of a patch with what the first order expansion of that homography finds in the other image, is between -1 and 1, symmetric, 1 for equal patches up to gain and offset and -1 for flat ones, and the best over the other views is taken; interpolation gives the pixels at whole positions, stays between the pixels around and is exact for linear brightness.",
 "all calibrations, poses, planes, pixels, images, patch sizes and weighted samples",
 "Tests project a few points; the statements are identities and inequalities over all real matrices, images and sample lists.",
 ["opensfm/src/dense/src/depthmap.cc: Project, Backproject, PlaneInducedHomography, DepthOfPlaneBackprojection, PlaneFromDepthAndNormal, NCCEstimator, LinearInterpolation, ComputePlaneImageScore, ComputePlaneScore"])
p("C82",
 "Estimated depth maps",
 "In an estimated depth map pixels of the border, masked pixels and pixels with a flat patch have depth 0; depths are not negative; a pixel with a depth has the score and the neighbour of its plane, a score at least that of the first random plane, and the depth of its plane unless it is still as first drawn; updating a pixel leaves it at least as good as the planes of its adjacent pixels, as the random changes and as the other neighbour drawn; more iterations never lower a score nor change which pixels have depths before the median filter; the filter only takes depths away, when more than 5% from the median; brute force finds the best of its candidates, which go from the least to the greatest depth evenly in inverse depth.",
 "all images, masks, calibrations, settings, random draws, median functions and numbers of iterations",
 "The passes are random and interleaved; a test sees one run, the statements hold for every draw, pass order and iteration count.",
 ["opensfm/src/dense/src/depthmap.cc: DepthmapEstimator"])
p("C83",
 "Cleaned depth maps",
 "Cleaning keeps the depth of a pixel just when enough other views see its point at about the depth they have there, and sets it to 0 else; more views, a greater tolerance or a lower number asked for keep at least as much; points that enough views see exactly are kept; views with no depth there do not count; cleaning again changes nothing.",
 "all depth maps, poses, calibrations, thresholds and numbers of views",
 "The count is over arbitrary lists of views with real thresholds; tests check a single scene.",
 ["opensfm/src/dense/src/depthmap.cc: DepthmapCleaner::Clean"])
p("C84",
 "Pruned depth maps",
 "Pruning outputs, from top to bottom and left to right, one point for each pixel with a depth for which no other view has a finer pixel at about or behind that depth, with the point seen there, its unit normal in the world, its colour and its label; when each view is pruned with some of the others nothing is lost: a chain of ever finer pixels leads from every pixel with a depth to one that is in the output of its view.",
 "all collections of views, neighbour choices, depth maps, planes and thresholds below 1",
 "Losing all copies of a point would need a cycle over views; only an argument over all finite collections excludes it.",
 ["opensfm/src/dense/src/depthmap.cc: DepthmapPruner::Prune"])
p("C85",
 "Neighbours and depth ranges of the depth maps",
 "The images used for the depth map of an image are the image itself, then at most the configured number of others of the reconstruction that share with it more than 20 points seen from the two at 3 to 30 degrees, those with the most such points, in decreasing order, none twice; being a neighbour is mutual before the best are taken. The range of depths is positive and not empty for points in front of the camera and leaves out less than a tenth of the points on each side; configured bounds replace computed ones. A depth is kept just when it is below the greatest depth and its score above the configured one; images are never enlarged and keep their proportions; the exported points are those the pixels with a depth see.",
 "all reconstructions, tables of common tracks, lists of depths, depth maps, image sizes and configurations",
 "The tables and lists have any size, the angles any real value and the ranks ties.",
 ["opensfm/dense.py: find_neighboring_images, common_tracks_double_dict, angle_between_points, compute_depth_range, compute_depthmap, add_views_to_depth_estimator, depthmap_to_ply"])
p("C86",
 "Stages of the depth maps",
 "Whatever the order in which the tasks of a stage are run, and however often runs were interrupted between two saves before, a run that ends leaves the same files: the depth map of each image with neighbours whose estimate succeeds, this map cleaned with those of its neighbours, the points pruned with those of its neighbours, with the image itself as the reference; nothing saved is changed later, and the merged cloud has the rows of all clouds in the order of the images, each point with its normal, colour and label.",
 "all numbers of images, neighbourhoods, orders of the tasks, failing estimates and histories of interrupted runs",
 "Orders, interruptions and their combinations are not bounded.",
 ["opensfm/dense.py: compute_depthmaps, compute_depthmap, clean_depthmap, prune_depthmap, add_views_to_depth_cleaner, add_views_to_depth_pruner, merge_depthmaps, aggregate_depthmaps", "opensfm/dataset.py: UndistortedDataSet.raw_depthmap_exists, save_raw_depthmap, load_raw_depthmap, clean_depthmap_exists, pruned_depthmap_exists"])
p("C87",
 "Roots of a quartic equation",
 "The four numbers returned for a quartic equation whose first coefficient is above the machine epsilon are the real parts of its four complex roots, with multiplicity, so every real root is among them; refinement leaves every simple real root where it is and otherwise is at most five steps of Newton's method, ended before only when a step is below 1e-20. The equation is solved whenever two resolvents of its coefficients are not 0.",
 "all real coefficients",
 "Root formulas through complex square and cube roots have branches for every combination of signs of the resolvents.",
 ["opensfm/src/foundation/src/numeric.cc: SolveQuartic, RefineQuarticRoots", "opensfm/src/foundation/newton_raphson.h: NewtonRaphson"])
p("C88",
 "Camera pose from three points",
 "The poses returned for three points and unit bearings are rotations with translations, the third point always on the ray of its bearing; those that come from roots of the quartic put all three points on the lines of their bearings. Conversely every pose from which the three points are seen in their directions gives a root of the quartic, and is returned whenever the equation is solved, this root is simple and the determinant there is not 0. Poses are looked for exactly when the points are not on a line and the bearings not in a plane; there are four or none; only the directions of the bearings count.",
 "all points, bearings, camera poses and singular value decompositions",
 "The equations hold for a continuum of configurations, and completeness quantifies over all poses.",
 ["opensfm/src/geometry/absolute_pose.h: AbsolutePoseThreePoints", "opensfm/src/geometry/src/absolute_pose.cc: RotationMatrixAroundAxis, AbsolutePoseThreePoints", "opensfm/src/foundation/src/numeric.cc: ClosestRotationMatrix"])
p("C89",
 "Rotations and poses from many points",
 "The translation computed for a given rotation exists exactly if no bearing is 0 and two bearings are not parallel, leaves the points closest to their lines of sight among all translations, and is the true one for exact data. The rotation between two sets of points is a rotation, the best one where the covariance has a positive determinant, and the true one for points moved by a similarity and not all in a plane. Each turn of the pose iteration brings the points no further from their lines of sight; its result is a rotation and, but for the last change of translation (below 1e-7 of its length), no worse than the first guess; an exact pose is left unchanged, and points at the same distance from the camera give the exact pose. Parallel bearings give no pose.",
 "all samples, rotations, translations and singular value decompositions",
 "Optimality compares with every other rotation and translation, and the iteration must not get worse at any step from any state.",
 ["opensfm/src/geometry/absolute_pose.h: TranslationBetweenPoints, AbsolutePoseNPoints, AbsolutePoseNPointsKnownRotation", "opensfm/src/geometry/transform.h: RotationBetweenPoints", "opensfm/src/geometry/src/absolute_pose.cc: AbsolutePoseNPoints, AbsolutePoseNPointsKnownRotation", "opensfm/src/geometry/src/relative_pose.cc: RelativeRotationNPoints"])
p("C90",
 "The relative pose from an essential matrix",
 "For a multiple of the essential matrix of a motion, the four candidates are exactly the motions with a unit translation whose essential matrix is a multiple of it. The pose returned is one of the four, has a positive score, and no candidate beats it by 1 or more; if every point lies in front of both cameras and one pair of bearings is not almost parallel the pose returned is the true motion. Nothing is computed exactly if no candidate has a positive score. The matrix computed from many points is a multiple of an essential matrix, the closest one to the solution of the equations; exact data that determine it up to a factor give it, data that leave two solutions or fewer than nine points give none. Lists of different lengths are refused.",
 "all essential matrices, samples, and singular value decompositions",
 "The four candidates must be all the motions there are, for every essential matrix; closest compares with every essential matrix.",
 ["opensfm/src/geometry/relative_pose.h: RelativePoseFromEssential", "opensfm/src/geometry/src/relative_pose.cc: RelativePoseFromEssential", "opensfm/src/geometry/essential.h: EssentialNPoints, EncodeEpipolarEquation", "opensfm/src/geometry/src/essential.cc: EssentialNPoints", "opensfm/src/foundation/numeric.h: SolveAX0"])
p("C91",
 "Essential matrices from five points",
 "The ten cubic constraints vanish at a point of the null space exactly if the matrix there is a multiple of an essential matrix; elimination, where it succeeds, keeps the solutions of the constraints and solves for the cubic monomials; every solution is an eigenvector of the action matrix for its first coordinate. Every matrix returned satisfies all the epipolar equations and has a unit sum of squares. The motion behind the samples is among the results, up to a factor, if elimination succeeds, its last coordinate is not 0 and its eigenvalue is simple. A singular first basis matrix gives no result; more than nine samples are undefined; lists of different lengths are refused.",
 "all samples, bases of the null space, points of it, eigenvector lists",
 "The constraints are polynomials of twenty coefficients in any basis; completeness is about every motion and every set of samples.",
 ["opensfm/src/geometry/essential.h: EssentialFivePoints, FivePointsNullspaceBasis", "opensfm/src/geometry/src/essential.cc: o1, o2, FivePointsPolynomialConstraints, FivePointsGaussJordan, EssentialFivePoints"])
p("C92",
 "Positions from a GPX track",
 "A time inside the track is given the position between the two points around it at a constant rate, the elevation if the first of them has one, and the compass direction from the one to the other; a time before the first point or not before the last is a ValueError; at the time of a point it is this point. A position written to the EXIF tags is read back to half a millionth of a second of arc with its sign, the altitude to a centimetre, and the other tags stay. Sampling in time ends, has a sample every dt seconds on the track up to its end; sampling in space gives samples on the track dx metres apart to ten centimetres, or fails its assertion.",
 "all tracks in the order of time, times, positions, tags, steps",
 "Every track, time and step, with times that coincide and elevations that are missing; the loop of the sampling has no bound.",
 ["opensfm/geotag_from_gpx.py: interpolate_lat_lon, compute_bearing, to_deg, gpx_lerp, segment_sphere_intersection, space_next_point, time_next_point, sample_gpx, add_gps_to_exif", "opensfm/exif.py: EXIF.extract_lon_lat, EXIF.extract_altitude"])
p("C93",
 "Vectors that images are compared by",
 "The descriptor of an image has, for each center and coordinate, the sum of the differences to the center of the features of which it is the first nearest; the order of the features does not matter and the descriptors of sets of features add up. The normalised histogram has length 1 and the signed square roots of the descriptor up to one factor; without descriptors, or with others in size or type, there is none. Distances are given to exactly the other images that have a histogram. The histogram of words counts each word with the logarithm of its inverse share and adds up to 1; its distance is a metric between 0 and 2; a word outside the vocabulary is a ValueError.",
 "all features, centers, word lists, frequencies, collections of histograms",
 "Every set of features in any order with ties between centers; the metric laws range over all histograms.",
 ["opensfm/src/features/src/matching.cc: compute_vlad_descriptor, compute_vlad_distances", "opensfm/vlad.py: unnormalized_vlad, signed_square_root_normalize, VladCache.vlad_histogram", "opensfm/bow.py: BagOfWords.histogram, BagOfWords.bow_distance", "opensfm/pairs_selection.py: bow_distances"])
p("C94",
 "Upright coordinates",
 "Normalised coordinates of any place of an image become the pixel coordinates of that place after the quarter turns of the orientation of the image (none for 1, one clockwise for 6, two for 3, three for 8), in an upright image of the turned size or resized to the size asked for; other orientations are a KeyError and a side of 0 a division by zero. A video turned by a multiple of 90 degrees below 360 gets the orientation of these turns, a video without a rotation the orientation 1, other rotations are an error.",
 "all places, image sizes, orientations, new sizes, rotation texts",
 "Every size and place; the four orientations interact with the exchange of the sides.",
 ["opensfm/upright.py: opensfm_to_upright", "opensfm/video.py: video_orientation"])
p("C95",
 "Triangle mesh of a shot",
 "The mesh of a shot that the viewer textures: for every pose, camera, observations and points, the faces refer to vertices that exist and are the triangles of the places of the vertices in the image (of their directions, for fisheyes and panoramas); apart from the first four (21, 8), the vertices are exactly the reconstructed points that the shot observes and that are seen inside the image (not at the camera), in order. The four corners of a perspective image are at the mean depth of the points they share a face with, or at 50; the faces of a fisheye mesh that lie on its circle only are left out; the camera of a panorama is strictly inside the hull. Every projection has a mesh; a shot that is missing has an empty one.",
 "all poses, cameras, image sizes, observations, points, projection functions and triangulations",
 "Every set of points and every triangulation.",
 ["opensfm/mesh.py: triangle_mesh, triangle_mesh_perspective, back_project_no_distortion, triangle_mesh_fisheye, triangle_mesh_spherical", "opensfm/src/geometry/src/camera.cc: GetProjectionMatrix"])
p("C96",
 "Features files",
 "Features of at least one point that fit into the file (points in single precision, byte descriptors where these are stored as bytes, classes from 0 to 255, instances of 16 bits) are loaded with the same points, descriptors, colours, classes, instances and labels as were saved; numbers that do not fit are rounded once, and what was loaded is not changed by saving and loading it again. Binary descriptors are loaded as bytes, the others in single precision, if the feature type is written in capitals (in small letters HAHOG is loaded as bytes: refuted). Old files are loaded, without the classes that cannot be read; an unknown version and missing descriptors are errors. A mask keeps the features where it is true, in order, in all arrays alike; a mask of another length is an IndexError.",
 "all features, configurations, masks and files",
 "Every array and every configuration.",
 ["opensfm/features.py: SemanticData, FeaturesData.mask, FeaturesData.save, FeaturesData.from_file, _from_file_v0, _from_file_v1, _from_file_v2, _from_file_v3"])
p("C97",
 "Extraction of features",
 "Of every grey or colour image with sides of at least three pixels, and for every detector that finds points inside the image it is given, all points are returned in order with their descriptors, in normalised coordinates of their places, with sizes relative to the longer side and the colour of the pixel next to them. Images larger than asked for are resized to exactly this size with both sides scaled alike (rounded down), which moves the normalised coordinates of a place by less than half a pixel (very long images cannot be resized: refuted); the search for a threshold that gives enough points always ends, at the first threshold that does or is at most 0.0001; square root descriptors have length 1, keep the signs and compare distributions by Hellinger's distance; byte descriptors are whole numbers from 0 to 255 next to the scaled numbers; other images and unknown feature types are errors.",
 "all images, sizes, configurations, detectors, descriptors",
 "Every image, detector and descriptor; the threshold loop must end for all of them.",
 ["opensfm/features.py: extract_features, resized_image, root_feature, root_feature_surf, normalize_features, extract_features_sift, extract_features_surf, extract_features_hahog"])
p("C98",
 "Calibration of rigs from a reconstruction",
 "Rig cameras calibrated from one instance, or from any number of instances of a rig that moves without turning, describe the relative poses of all shots of all these instances exactly, and those of one instance are centred at their mean origin; for rigs that turn this fails even without errors, as rotation vectors are averaged (refuted). A rig camera is calibrated if and only if an instance with it is completely reconstructed, from a single group of instances with the same rig cameras, the largest. Calibration tries proposed subsets in turn and saves the rig cameras of the first of at most max_rounds + 1 that calibrates all rig cameras and reconstructs the asked fraction of its instances, and nothing if there is none.",
 "all instances, poses, reconstructions, thresholds, numbers of rounds",
 "Exactness must hold for every pose and number of instances, and the search for every sequence of subsets.",
 ["opensfm/rig.py: compute_relative_pose, create_rig_cameras_from_reconstruction, create_rigs_with_pattern"])
p("C99",
 "Statistics of reconstructions",
 "The statistics of a run are those of its data: counts, histogram and average of the track lengths of all points; means of the reprojection errors over exactly the observations with errors of at most four pixels and a defined angle; GPS errors of exactly the shots with GPS (an error if one has no bias), with their means, standard deviations and root mean squares, whose squares add up; the total of the reported times; minimum, maximum, mean and median of counts of features, for the shots with at least one; and for each camera the values of the largest reconstruction with it. The average over tracks longer than two is right if the shortest tracks have length two; otherwise it leaves out the shortest (refuted). The area is that of the bounding box if the shots are on both sides of the axes; otherwise it is measured from the axis (refuted).",
 "all reconstructions, tracks, errors, positions, reports",
 "The identities must hold for every number of reconstructions and every set of observations.",
 ["opensfm/stats.py: _length_histogram, reconstruction_statistics, _projection_error, _gps_errors, _gps_gcp_errors_stats, gps_errors, processing_statistics, features_statistics, cameras_statistics"])
p("C100",
 "Annotations of ground control points",
 "Over any session of the annotation tool: points are under their own names, which are distinct; add_point always succeeds and never gives a name twice in a session, whatever is removed or loaded; a point is observed at most once in an image, provided the loaded files respect this (otherwise not: refuted). Adding an observation raises for unknown points and for observed images, and otherwise adds just that observation and the given position; removing one removes just the observations of that point in that image and zeroes its error; removing a point leaves the others. What is saved is what is loaded, with all positions and precisions; a failed load loses the points in memory (refuted that they stay). The points shown in an image are exactly those observed in it, in order. The worst point exists and has the largest positive error of all points; the worst image of a point is the one with the largest error among the given images.",
 "all sequences of loads, additions, observations and removals; all files and reprojection errors",
 "Invariants over every session; round trip for every set of annotations.",
 ["annotation_gui_gcp/lib/gcp_manager.py: GroundControlPointManager, observation_to_json, observation_from_json, GeodeticMeasurement, id_generator"])
p("C101",
 "Factorizations of camera matrices and homographies",
 "A camera matrix with a regular left block is factored into a calibration matrix (upper triangular, positive diagonal, 1 at the end), a rotation and a translation whose product is the matrix up to scale, and a matrix made of these gives exactly them back, for any scale of either sign and any signs of the QR decomposition; a singular block raises. The homography of a turning camera, of any positive scale, gives its focal length if the viewing axis moves (otherwise any other may come out: refuted), and gives the rotation for known focal lengths; for negative scales the focal length is not a number and the matrix returned is no rotation (refuted). The projection to rotations is orthogonal.",
 "all camera matrices, homographies, scales, and decompositions within numpy's guarantees",
 "Real algebra over all matrices and every sign choice of the decompositions.",
 ["opensfm/multiview.py: P_from_KRt, KRt_from_P, rq, nullspace, focal_from_homography, R_from_homography, project_to_rotation_matrix"])
p("C102",
 "Files served by the viewer",
 "The items of the viewer are exactly the files below the dataset, at any depth, that look like reconstructions, each once and in order, and each is served under its path, as is every file below the dataset. Requests without .. are answered with nothing but files below the dataset; with .. files outside of it are served too (refuted that only files of the dataset are served). An image request gives exactly the file of that name in the directory of images.",
 "all file systems without links, datasets, and requests",
 "Directory trees of any depth and every request path.",
 ["viewer/server.py: get_recs, get_data, get_image, json_files, probably_reconstruction, reconstruction_files, verified_send"])
if __name__=="__main__":
    import os
    try:
        import props_more
    except ImportError:
        pass
    with open(os.path.join(os.path.dirname(__file__),"..","properties.jsonl"),"w") as f:
        for q in P: f.write(json.dumps(q)+"\n")
    print(len(P))
