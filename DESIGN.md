# Formal model of mapillary/OpenSfM in Rocq (Coq 8.16.1)

Layout of `rocq/theories` (logical name `Verif`). Each area has up to four files:

* `XModel.v`  — executable Gallina model, one definition per function of the code, each citing file:lines.
* `XSpec.v`   — the small independent specification used by the statements (when one is needed).
* `XProofs.v` — lemmas and proofs.
* `XProps.v`  — only the property theorems (closed by `exact`), `Print Assumptions` and the `Example`s showing that a
  concrete non-trivial case meets the hypotheses.

Python dicts keep insertion order: modelled as association lists / `gmap`s according to whether the order is observable.
C++ `unordered_map`s have unspecified order: modelled as std++ `gmap`s; when a loop's result could depend on the
iteration order the model takes the enumeration as a parameter and theorems quantify over it.
Exceptions are values (`option` / `sum`). Floating point numbers are modelled by the real numbers `R` unless the
property is about rounding; this idealization is repeated at each place it is used.

## Plan per property

| id | modelled | how proved |
|----|----------|-----------|
| C01 | unionfind.py, whole class | invariant (weighted forest with an acyclicity rank) + refinement to the equivalence closure of the union history |
| C02 | tracking.create_tracks_manager, _good_track on top of C01 and the TracksManager model | characterise `sets` as the partition by root, then combine with C01 |
| C03 | tracks_manager.cc add/remove/getters | refinement to one `gmap (shot*track) obs` by induction over histories |
| C04 | tracks file writer and the three readers over strings | codec round trip by induction over the lines; decimal printing of doubles is an oracle |
| C05 | MergeTracksManager + union_find.h | union-find by rank invariant, clusters = components; loss of observations stated exactly |
| C06,C07 | ConstructSubTracksManager, GetAllPairsConnectivity, GetAllCommonObservations | direct map reasoning, counting by fold |
| C08–C10 | map.cc shots/landmarks/observations | invariant over operation histories (protocol hypotheses explicit), refuted without the protocol |
| C11,C12 | pose.h, rig.cc, shot.cc over reals | matrix algebra (`ring`, `nsatz`/orthogonality) |
| C13,C14 | similarity.h, align.apply_similarity | matrix algebra |
| C15–C19 | pairs_selection.py | loop invariants over arbitrary set iteration orders |
| C20,C21 | matching.py | list/set reasoning over arbitrary distance tables |
| C22 | save_matches, load_matches, find_matches | map reasoning |
| C23,C24 | features_processing.py as a transition system (readers, detectors, bounded queue, counter) | inductive invariants over all interleavings; deadlock freedom under a capacity hypothesis, deadlock witness without |
| C25 | rig.py pattern grouping | fold invariants; the regex engine is a section variable |
| C26,C27 | io.py camera codecs | case analysis + `field` |
| C28–C31 | io.py metadata, reconstruction, gcp, ply | case analysis/induction |
| C32,C33 | geo.py, geo.cc over reals: GeoModel; ellipsoid, distance and derivative in GeoSpec | trigonometric identities; derivatives with Coquelicot (GeoDeriv) |
| C34 | DeepCopy over the map model | induction over the copied objects |
| C35 | features.py, camera.cc, upright.py coordinates over reals (PixelModel.v) | `field` |
| C36 | matching.py: match_robust / match filters | list reasoning |
| C37–C39 | rig.py instance grouping, counting, calibration window | map and arithmetic reasoning |
| C40 | camera.cc parameter access | induction over the parameter list |
| C41 | rotation vectors: Eigen AngleAxis / Quaternion as used by pose.h | trigonometry over R |
| C42 | masking.py over images as functions, numpy truncation and indexing (PixelModel.v) | interval reasoning on the covering cell |
| C43 | io.py point_cloud_to_ply / from_ply over texts (PlyModel.v, PyText.v) | induction over lines and words |
| C44 | functions.h, transformations_functions.h, camera_projections_functions.h, camera_distortions_functions.h, camera_instances.h, projection_errors.h, covariance.cc (FunctorModel.v, ProjModel.v): Forward and ForwardDerivatives of every functor, AutoDiffScalar as dual numbers | derivative_at (FunctorSpec.v: velocity of the image along every curve); each functor by auto_derive, composition by the chain rule of sums |
| C45 | Project, Bearing of camera.cc over the functors of FunctorModel.v (Forward and Backward of every projection and distortion, Newton iterations included) | documented (CameraSpec.v, transcribed from doc/source/geometry.rst); unfolding per model, polar coordinates for the inverse |
| C46 | GetProjectionMatrix, GetProjectionMatrixScaled, ComputeCameraMapping (ProjModel.v) | field, from C45 |
| C47 | radial Backward (Disto2, Disto24, Disto2468) with NewtonRaphson as in the code | contraction: each iteration multiplies the error by 1 - f[x,s]/D(x); Lipschitz bounds from the plane to directions; intermediate value theorem for the exact direction |
| C48 | triangulation.h / triangulation.cc in exact reals; NaN is None; the SVD of the DLT as a relation (any unit minimiser) | least squares: the gradient of the cost vanishes at the solution and the Hessian is definite; null space argument for the DLT; spherical bounds for angles |
| C49 | triangulate_robust, triangulate, triangulate_dlt, triangulate_shot_features with random numbers in [0,1) as a list and the Ceres refinement as a parameter that does not increase its cost | loop invariants over the list of random numbers; C48 for the pairs; zero cost forces the exact point |
| C50 | IncModel: reconstructions as (set of shots, abstract geometry); geometric steps are arbitrary functions; rig assignments from RigModel; loops with fuel and in-place set updates | IncSpec: growth relation; IncProofs: growth loop refines it, invariant of the pair loop (closed under rig instances, disjoint, covering, finished); IncProps: corollaries |
| C51 | NeighModel: the loops over points, observers, sorted counts and instances; the map as shot->landmarks and shot->instance (both directions consistent: C08, C09) | counting lemma for the nested loops; selection of a prefix of a descending list; induction on the radius; counterexample for the maximal size with rigs (C51_size_refuted) |
| C52 | BundleModel: construction of the problem (blocks with values and constant flags, priors, observations) over a scene, for the three adjustments, and the write back; the minimisation is any function that keeps constant blocks | loop invariants giving the problem in closed form; membership and NoDup of the observations; permutation invariance of the mean; counterexamples for the prior with three shots and the bias |
| C53 | CullModel.v over the maps of MapModel.v plus recorded errors; the covariance computation is an arbitrary function of the views; kd-tree search as a sort; exact reals | invariants of the three loops on top of C08/C09; Cantelli's inequality for the bounds; uniqueness of sorted lists for the k nearest; C53_auto_threshold_refuted shows that the AUTO threshold can be 0 |
| C54 | RealignMaps statement by statement over MapModel maps with PoseModel poses (real arithmetic) and the GeoModel conversion of references; cameras are values plus a kind | removal of a list of shots by the invariant of MapProofs; fold invariants for shots and cameras; nearest observer by induction over the observations; rigid motion algebra |
| C55 | RobustModel: the loop for an arbitrary model type (solvers, error), the three scorers, the sampler for an arbitrary generator, ShouldStop, error functions of the line, pose, rotation and similarity models; the minimal solvers other than the line are not modelled | invariant of the loop with the samples drawn and the models seen as history; counting for the scores; logarithms for the stopping rule; fairness of the generator for termination |
| C56 | programs over a file system with torn writes, small-step, interleaved; detect as such a program per image | footprint lemma: programs with disjoint footprints run as if alone; then case analysis of one image |
| C57 | the loop as a program over the file system with torn writes; JSON text by a parser that inverts the printer | induction over the images: a state on the way, run again, ends like the start |
| C58 | the same programs; what the stages compute is a function of what they read | the list of saves of a program is fixed by what it reads; saving a prefix and then all gives the same files |
| C59 | the image list and its text file, group file parsing, k-means as a parameter, the local plane (C32's topocentric frame), ball queries, union1d, np.take, the directories with their image_list.txt | membership lemmas, sorted indices give sublists, injectivity of the padded names, text round trips |
| C60 | ceres rotation functions on quaternions, the five residuals, the problem as maps and a constraint list, its construction from reconstructions, the solver as any function to parameters within the bounds, the application to the files | quaternion algebra to rotation matrices, zero-residual equivalences, fold invariants for the problem, induction on files |
| C61 | UndistRecModel.v: undistort_reconstruction on the reconstructions of RecModel.v, with arbitrary iteration orders | UndistRecProofs.v: an invariant of the loop over shots relates the shots done to the new reconstruction, its tracks and the dictionary; the clash of names is a concrete counterexample |
| C62 | UndistRecModel.v: pano_observation, render_source, scale_image_size; cameras of ProjModel.v | UndistPanoProps.v: the bearing of a panorama and the projection of a view in closed form (C45), then cases on the dominant coordinate; composed with C61 for whole reconstructions |
| C63 | AnglesModel: geometry.py and the compass functions of multiview.py over the reals, Rodrigues with OpenCV's DBL_EPSILON test, euler_matrix and euler_from_matrix for szxz | AnglesSpec says which way the axes of the camera point for given angles; matrices by ring with the Pythagorean identities, angles by the polar coordinates lemma of GeoProofs; existence of angles of any rotation by decomposing its rows |
| C64 | AnglesModel: motion_from_plane_homography given the factors of the singular value decomposition, plane_horizontalling_rotation | reduce to a diagonal homography; a rotation keeps lengths, so the normal and the distance solve three linear equations in squares (only d = +-d2 possible); then the rotation and the translation are unique |
| C65 | TwoViewModel: the functions over the reals; robust and refined poses and the decomposition of the homography are parameters; np.argmax of a map object is 0 | TwoViewSpec: a match agrees with a motion; the inliers by C48's midpoint theorems, uniqueness of the midpoint by a 2x2 system; case analysis for the choices; the refutation by an explicit homography and point |
| C66 | ExifModel.v: tag values, gps_to_decimal, extract_* and invent_reference over exact rationals; float(str) is a parameter | ExifSpec.v says what the tags state; field computation over Qc; induction on the list of images for the weighted mean. Refuted: a latitude without a longitude (KeyError), lower case letters, DJI numbers without sign, references across the antimeridian |
| C67 | ExifModel.v: camera_id, sensor_string, compute_focal, extract_sensor_width over texts and exact rationals; str(float) is a parameter | CamIdProofs.v: words of a joined text; field over Qc. Refuted: make and model are not determined by the name; resized images without use_exif_size; panorama type as an XMP attribute |
| C68 | CaptureModel: datetime (calendar, constructor, difference), strptime of the one format, number formats, extract_capture_time over the tags of ExifModel; instants in integer microseconds | calendar by counting days with a next-day relation; parsing by reading back the texts of the specification |
| C69 | CalibModel: table as a state, calibrations as dictionaries of rationals, cameras of CamModel, the loop over images and the overrides | case analysis over the projection types; induction on the list of images |
| C70 | MetaModel.v: the metadata dictionary, exif_to_metadata, the rotations from metadata, one round and the loop of reconstruction_from_metadata on the map of MapModel/RecModel | explicit result of one round; induction over the images with frame conditions on shots, instances, rig cameras; GeoProps C32 and AnglesProps C63 for the position and rotation; counterexample for two images of one rig instance |
| C71 | OpkModel.v: the tags, the yaw/pitch/roll matrix, the north vector from two ECEF points, the angles | case analysis on the tags; the formula with the local north gives a camera rotation whose angles are read (C63_opk_onto); with the code's ECEF north the nadir camera gets kappa = longitude + 90 for every northern place (monotonicity of the distance to the earth's axis) |
| C72 | the data of the file as a function of the shots (camera, pose), points, tracks and list of images; Bundler's projection formula in BundlerSpec | algebra on the documented projection of C45; induction over the lists of images, points and observations |
| C73 | the data of the file as a function of shots, points, tracks, sizes and image list; numpy.linalg.eigh is an oracle given the lower triangle | the matrix of the code is (4 q q' - I) / 3 for the quaternion q of the rotation, so its top eigenvector is q or -q; inductions over shots and points |
| C74 | `ColmapModel.v`: parameter conversion, pair ids, numbering, points and image lists of the export; `ColmapSpec.v` has COLMAP's own camera models | algebra over the reals with C45's camera lemmas; induction over the exported lists; div/mod for pair ids |
| C75 | `MvsModel.v`: the exporter object as a state machine, the driver's three loops, projection matrices, resized sizes and vis.dat | loop invariants over the three folds; C46's projection matrix; floor arithmetic for the half pixel bound |
| C76 | `GeocoordsModel.v` on the reconstruction of MapModel/RecModel with the aliasing of `shot.pose` (MetaModel.modify_pose) | loop invariant over the shots (writes to the pose of a lone shot reach its instance, others are lost); inverse of a 3x3 matrix |
| C77 | ResidualModel: the blocks of parameters, every functor of bundle/error but the projection errors (C44), how Run chooses the rig camera blocks | quaternion logarithm inverts the exponential (exp_quaternion_log); every residual rewritten over the composed pose; zero sets by cases; counterexamples for the defects |
| C78 | Kabsch's method in dimensions 3 and 2 with the SVD as an oracle that is right for the matrix it is given; the RANSAC loop over the drawn permutations | centring identity for the squared error, trace bound of orthogonal matrices (also the reflected case), uniqueness of a rotation from two directions, induction over the draws |
| C79 | AlignModel: align.py function by function over the map of MapModel/PoseModel, the fits of FitModel, the triangulation of TriangModel, GCP of GcpModel; numeric decompositions are parameters | AlignSpec says what deviations, eigenvalues and the positions of an instance are; on top of C78 (fits), C48 (triangulation) and C14 (application of a similarity); permutation invariance of the centroid for hash map orders |
| C80 | AlignModel: estimate_ground_plane, fit_plane with the eigenvector as a parameter, the EXIF directions, the fit in the plane and the clamp at 1 km | AlignSpec states the EXIF sides, what each prior means for a given vertical, and what a smallest eigenvector is; a plane with zero residual is the minimum and unique when two known level directions are not parallel; a rotation that keeps the vertical is a turn, so the fit in the plane (C78) recovers it |
| C81 | depthmap.cc in real arithmetic: images as functions of row and column, the six sums of NCC, homographies, the patch score | linear algebra (Lin.v); covariance expansion and Cauchy-Schwarz for the correlation; derivatives of quotients for the patch warp; induction over the views for the best score |
| C82 | DepthmapEstimator with the random draws as parameters, in place updates as functions of the pixel | local-step relation preserved by checks, propagation, refinement and passes; induction over pixels and iterations |
| C83 | DepthmapCleaner in real arithmetic | counting lemma between filters and sets of positions; monotonicity through sublists |
| C84 | DepthmapPruner with 64 bit to int conversion of the pixel indices | characterisation of the removing view for positions not left of or above the image; well-founded descent on the resolution over the finite set of pixels |
| C85 | dense.py's choices as functions of the table of common tracks and the positions; numpy's percentile with linear interpolation | angles through acos and uniqueness; counting positions; sortedness of merge sort; interpolation between sorted values |
| C86 | the three kinds of files as maps, tasks as steps of a store, runs as sequences of tasks; the computations themselves as parameters (C81-C84 are about them) | invariant: every file is the product aimed at; stage lemmas by induction over the tasks; prefixes of a run split by stage |
| C87 | Ferrari's formulas over complex numbers with principal square and cube roots, in exact arithmetic; Newton's method as a bounded iteration | field identities over the complex numbers: the resolvent cubic, then the product of four factors; a product is 0 only if a factor is |
| C88 | the solver line by line in exact arithmetic, singular value decompositions as a parameter | orthonormal frames of the points and bearings; Cramer's rule; the quartic as cos^2 + sin^2 = 1; the cofactors of the rotation between the frames for completeness; C87 for the roots |
| C89 | the solvers line by line in exact arithmetic, singular value decompositions as a parameter (one is constructed in SvdProofs, so the hypothesis can be met) | normal equations and definiteness of the sum of the projections; the optimality of C78 where det(U V^T) > 0; the projections as an upper bound of the error (majorization) |
| C90 | EssModel: the functions in exact arithmetic; singular value decompositions and the last singular values of the equations are parameters (C89's construction meets the first) | EssSpec: skew, essential, seen_by_both, epipolar; the two null directions and the injectivity of essential; signs of the depths of the four candidates; a von Neumann inequality for two equal singular values and 0 |
| C91 | FiveModel: polynomials as their twenty coefficients, the constraints, the elimination row by row, the action matrix and the complex eigenvectors; the null space and the eigenvectors are parameters | FiveSpec: value of a polynomial, is_essential, basis_of_solutions, eigenvector; essential matrices by C89's singular value decomposition; loop invariants of the elimination; FiveCase: a case worked out with rational numbers and vm_compute |
| C92 | GpxModel: the functions of geotag_from_gpx.py over the reals, with ExifModel's readers of the tags; the sampling loop takes fuel | GpxSpec: on_way, along, heading (by dot products with the north and the east); induction over the points and the fuel |
| C93 | VladModel: the loops over features and centers on lists of real numbers, the normalisation, the distances, the histogram of words | VladSpec: nearest, residual (inductive), unit_length, sums; fold invariants |
| C94 | UprightModel: the matrices and their product, the sizes, the orientation of a video; float(str) is a parameter | UprightSpec: places in images, quarter turns, normalised coordinates; field arithmetic per orientation |
| C95 | MeshModel: the five functions over the reals; the projection and scipy's Delaunay and ConvexHull are parameters | MeshSpec: faces in range, a place shown by a pinhole camera, the mean of the depths of neighbours, directions; loops turned into omap, means by induction on the faces |
| C96 | FeatFileModel: arrays with their types, conversions between types, the two classes, the file and its four versions | FeatFileSpec: what fits, same numbers, picking rows; the loaded features computed for every saved file, then conversions that are exact on what fits |
| C97 | ExtractModel: the functions over the reals; the detectors and cv2.resize are parameters | ExtractSpec: places of images, fractions, squares; integer division bounds, induction on rows and on the number of reductions of the threshold |
| C98 | RigCalModel: the functions over the reals, rotation vectors of PoseModel; the reconstructions of the rounds are arbitrary | RigCalSpec: relative poses, moved instances, accepted rounds; rigid motions, invariant of the groups, sorting, induction on the rounds; counterexample about the vertical |
| C99 | StatsModel: the functions over the integers and the reals, dictionaries as finite maps | StatsSpec: means, occurrences, extrema; weights of histograms under insertion, sorting, induction on reconstructions; algebra of means and variances |
| C100 | AnnotModel: the manager with ordered dictionaries, files as JSON values with sorted keys | AnnotSpec: consistency, observations as a relation; induction on sessions, pigeonhole for free names, lookups in sorted dictionaries |
| C101 | MultiviewModel: the functions in exact real arithmetic, qr and svd as parameters | MultiviewSpec: calibration matrices, guarantees of qr and svd, homographies of rotations; uniqueness of triangular times orthogonal, kernels, uniqueness of polar factors |
| C102 | ViewerModel: file systems as trees, paths as lists of names | ViewerSpec: files at a path, names, texts; induction on trees, sorting, path resolution; a counterexample with .. |

## Trusted base

* Coq 8.16.1's kernel, and the std++ library (no axioms) and Coq standard library.
* Axioms: whatever `Print Assumptions` lists beneath each theorem. Theorems over `R` use the standard library's
  `ClassicalDedekindReals.sig_forall_dec`, `ClassicalDedekindReals.sig_not_dec`, `FunctionalExtensionality.functional_extensionality_dep`
  (and `Classical_Prop.classic` where trigonometry is used). No other axioms.
* The reading of the code: the model is hand-written from /repo, which is never executed here.

## What is modelled and what is not

Each definition of a `*Model.v` file cites the lines it stands for and says where it simplifies. By source file:

| source | model | not modelled |
|---|---|---|
| foundation/union_find.h, unionfind.py | UnionFindModel, MergeModel | |
| foundation/newton_raphson.{h,cc}, types.h | FunctorModel | |
| map/tracks_manager.{h,cc}, observation.h | TracksModel, TracksIOModel, MergeModel, TextModel | C++ number formatting beyond its round trip (see TextModel) |
| tracking.py | TrackingModel | |
| map/map.{h,cc}, shot, rig, landmark | MapModel, MapCopyModel, RecModel, IncModel, CullModel | the covariance and mesh fields of shots; python views |
| map/ground_control_points.h, io.py (GCP part) | GcpModel, PyText | |
| sfm/map_helpers.cc, ba_helpers.cc, retriangulation.cc, tracks_helpers.cc | CullModel, NeighModel, BundleModel, RealignModel, IncModel | the bundle of merged points with GCPs, alignment constraints of BundleToMap |
| bundle/src/bundle_adjuster.cc, bundle/error/* | BundleModel (what is added, what is constant), ProjModel (projection errors), ResidualModel (all other residuals, which rig camera each reads) | Ceres; the derivatives of the residuals of ResidualModel |
| geometry/camera*, functions.h, covariance.cc | CamModel, FunctorModel, ProjModel, CameraModel, UndistortModel, PixelModel | floating point |
| geometry/pose.h, similarity.h, transformations_functions.h, Eigen AngleAxis/Quaternion | RotModel, PoseModel | floating point |
| geometry/triangulation.{h,cc} | TriangModel, TrackTriModel | the eigen solver (specified), floating point |
| foundation/numeric.cc | P3pModel (quartics, closest rotation) | SkewMatrix (in BaModel) |
| geometry/absolute_pose.{h,cc}, transform.h | P3pModel (three points), NposeModel (many points) | - |
| geometry/essential.cc, relative_pose.cc | EssModel, FiveModel, NposeModel (rotation only) | RelativePoseRefinement |
| robust/* | RobustModel | the minimal solvers other than the line |
| geo/geo.{h,cc}, geo.py | GeoModel | floating point |
| features/matching.cc, matching.py, features.py, masking.py, feature_loading.py | MatchModel, PixelModel, PairsModel | descriptors, FLANN, extraction of features |
| features_processing.py, context.py | FeatProcModel, FilesModel | threads of the python interpreter beyond interleaving |
| pairs_selection.py | PairsModel | kd-trees (specified), VLAD/BoW distances (parameters) |
| rig.py | RigModel, RigCalModel | the SfM runs inside the calibration |
| io.py (cameras, reconstruction, ply) | CamModel, JsonModel, RecModel, PlyModel | reading of image files |
| dataset.py, actions/{detect_features,extract_metadata,match_features,create_tracks,reconstruct}.py | FilesModel | the other files of a dataset |
| reconstruction.py | TrackTriModel, CullModel, IncModel, BundleModel, TwoViewModel | colouring |
| geometry.py, multiview.py (angles, planes, motions of a homography; fits of similarities) | AnglesModel, FitModel, AlignModel (fit_plane, triangulate_gcp) | singular values and eigenvectors (specified) |
| align.py | PoseModel, AlignModel | singular values and eigenvectors (specified), logging |
| actions/create_submodels.py, large/metadataset.py | SplitModel | links to files, geojson reports |
| actions/align_submodels.py, large/tools.py, bundle/reconstruction_alignment.h | SubAlignModel | the choice of point pairs, the solver |
| undistort.py | UndistRecModel.v: everything but undistort_image's resampling (cv2), the writing of files and the parallel map over shots | C61, C62 (C47 for the mapping of flat images) |
| exif.py (tags: positions, sizes, names, focal lengths, times), dataset.py:invent_reference | ExifModel, CaptureModel, CalibModel, OpkModel | reading the tags from a file (exifread), XMP parsing; float(str) is a parameter |
| reconstruction_helpers.py (metadata, rotations, reconstruction_from_metadata) | MetaModel | get_image_metadata is exif_to_metadata of the stored metadata; match_images / align options around it are elsewhere |
| actions/export_bundler.py | BundlerModel | decimal writing, the list file |
| actions/export_visualsfm.py, transformations.py (quaternion_from_matrix; affine_matrix_from_points, superimposition_matrix) | NvmModel, FitModel | the eigen solver (specified), decimal writing |
| actions/export_colmap.py | ColmapModel | the sqlite file, text encoding, two-view geometries (a parameter) |
| actions/export_openmvs.py, dense/openmvs_exporter.h, actions/export_pmvs.py | MvsModel | encodings, images, cv2.undistort |
| actions/export_geocoords.py | GeocoordsModel | pyproj (any function), text output |
| dense.py, dense/depthmap.{h,cc} | DenseModel, PipeModel | cv2 resizing, median blur (any function), not-a-numbers, the npz encoding, interactive plots |
| geotag_from_gpx.py (lookup, sampling, written tags) | GpxModel | reading GPX files, pyexiv2, local times |
| vlad.py, bow.py, features/matching.cc (VLAD) | VladModel | caches, the files of words, FLANN |
| upright.py, video.py (orientation) | UprightModel | the frames of the video |
| mesh.py | MeshModel | scipy triangulations (parameters) |
| features.py (files, masks; extraction) | FeatFileModel, ExtractModel | the npz encoding, detectors, FLANN indices |
| stats.py | StatsModel | plots, rig and ground control point statistics |
| multiview.py (camera matrices, homographies) | MultiviewModel | euclidean, homogeneous |
| viewer/server.py | ViewerModel | Flask |
| annotation_gui_gcp/lib/gcp_manager.py | AnnotModel | the text of files, printing; the user interface |
| report.py, synthetic_data | — (rows are added as the model grows) | |

Everywhere: real numbers stand for floating point numbers unless a model says otherwise; Python's and C++'s memory is not modelled.
