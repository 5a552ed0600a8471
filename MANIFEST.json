{
 "claims": [
  {
   "property": "C01",
   "status": "proved",
   "theorems": [
    "C01_line_integral"
   ],
   "note": "Real arithmetic; edges of positive length; observers off the segment, exactly in line or outside the epsilon band (eregular)."
  },
  {
   "property": "C02",
   "status": "proved",
   "theorems": [
    "C02_reversed",
    "C02_reversed_gradient"
   ],
   "note": "Real arithmetic; values at every eregular observer, gradients outside the epsilon band."
  },
  {
   "property": "C03",
   "status": "proved",
   "theorems": [
    "C03_solid_angle_flux"
   ],
   "note": "Surface integral defined by two nested Riemann integrals over a sweep of the triangle; its value is unique and gives the area for the constant 1."
  },
  {
   "property": "C04",
   "status": "proved",
   "theorems": [
    "C04_solid_angle_range"
   ],
   "note": "Real arithmetic; every non-degenerate triangle, |n.R| > eps."
  },
  {
   "property": "C05",
   "status": "proved",
   "theorems": [
    "C05_facet_integral"
   ],
   "note": "Both as a surface integral times the distance and as the volume integral over the cone from the observer; observers clear of the edge bands and off the band of this facet."
  },
  {
   "property": "C06",
   "status": "proved",
   "theorems": [
    "C06_jacobian"
   ],
   "note": "Real arithmetic; every closed surface with twin-paired edges (C26 shows construction yields one); observers in general position or in the planes of facets, off the lines through the edges. Cases: cube, observers outside, inside and in the plane of two facets."
  },
  {
   "property": "C07",
   "status": "proved",
   "theorems": [
    "C07_copied_triangle",
    "C07_facet_copy_refuted"
   ],
   "note": "Real arithmetic. Facet tensors are the copied upper triangle of the facet Jacobian, its antisymmetric part is given exactly, the total is exact; the copy being wrong for one facet is shown by a concrete body."
  },
  {
   "property": "C08",
   "status": "proved",
   "theorems": [
    "C08_ray",
    "C08_separated",
    "C08_outside_hull",
    "C08_crossing_number"
   ],
   "note": "Closed surfaces, convex or not; the ray may not touch any facet (for the crossing number: may only meet facets in their interior). Observers in planes of facets and in line with edges included."
  },
  {
   "property": "C09",
   "status": "proved",
   "theorems": [
    "C09_inside_hull"
   ],
   "note": "Bodies built from a correct hull; that the facets do not cover the surface twice is a hypothesis (one point covered once suffices), as correct_hull does not exclude it."
  },
  {
   "property": "C10",
   "status": "proved",
   "theorems": [
    "C10_double",
    "C10_double_tensor",
    "C10_linear",
    "C10_same_outcome"
   ],
   "note": "Real arithmetic for the scaling; every arithmetic for the outcome; doubles with the rounding bounds of C72 and C79."
  },
  {
   "property": "C11",
   "status": "proved",
   "theorems": [
    "C11_translation"
   ],
   "note": "Real arithmetic; every point set, every answer of scipy, every observer and outcome. scipy is assumed to answer with the same indices for the moved points."
  },
  {
   "property": "C12",
   "status": "proved",
   "theorems": [
    "C12_rotation"
   ],
   "note": "Real arithmetic; correct hulls; observers well placed (each edge off its epsilon band or exactly in line, each plane off its band or exactly in it); scipy assumed to answer with the same indices for the moved points."
  },
  {
   "property": "C13",
   "status": "proved",
   "theorems": [
    "C13_scaling"
   ],
   "note": "Real arithmetic; correct hulls, observers well placed at both scales."
  },
  {
   "property": "C14",
   "status": "proved",
   "theorems": [
    "C14_double",
    "C14_double_tensor",
    "C14_facet_cancels",
    "C14_glued"
   ],
   "note": "Real arithmetic; facet level and glued bodies, at every observer clear of the edge bands, also inside the bands of the planes; the glued body inherits clearness. In doubles with the three rounding bounds of C72 and C79."
  },
  {
   "property": "C15",
   "status": "proved",
   "theorems": [
    "C15_triangulation",
    "C15_quadrilateral",
    "C15_fan_point",
    "C15_polygon"
   ],
   "note": "Exact reals, observers clear of the edge bands (planes allowed). C15_triangulation: equal G and T whenever the facets of the two bodies can be grouped into corresponding coplanar groups with the same boundary (net directed edges). C15_quadrilateral, C15_fan_point, C15_polygon: the usual retriangulations have the same boundary, for polygons with any number of corners. Case: the cube with one side cut along the other diagonal, observers outside, inside, in the plane of a side and inside a side."
  },
  {
   "property": "C16",
   "status": "proved",
   "theorems": [
    "C16_history_independent"
   ],
   "note": "Every arithmetic, every twin relation, every history of normally returning calls."
  },
  {
   "property": "C17",
   "status": "proved",
   "theorems": [
    "C17_aliasing_harmless"
   ],
   "note": "Heap model with aliasing refines the stateless specification of SpecPoly.v."
  },
  {
   "property": "C18",
   "status": "partial",
   "theorems": [
    "C18_failed_call_corrupts_refuted",
    "C18_normal_return_heals_partial",
    "C18_reset_heals_partial"
   ],
   "note": "The claim is false of the code: refuted by a concrete history. What holds is proved, for every arithmetic: a call that returns normally heals the caches, and Polyhedron.reset heals them after any history."
  },
  {
   "property": "C19",
   "status": "partial",
   "theorems": [
    "C19_face_repeat_refuted",
    "C19_reset_repeat_partial",
    "C19_repeated",
    "C19_doubling"
   ],
   "note": "The claim is false of the code: refuted by a concrete face called twice. C19_repeated gives the exact result of every later call without reset, for every arithmetic; C19_doubling says over the reals that the n-th repetition is off by 2^n - 1 times a fixed vector. After Face.reset, or on a fresh face, the call is a function of its arguments."
  },
  {
   "property": "C20",
   "status": "proved",
   "theorems": [
    "C20_superposition",
    "C20_single_body"
   ],
   "note": "Every arithmetic, list order."
  },
  {
   "property": "C21",
   "status": "proved",
   "theorems": [
    "C21_accumulation"
   ],
   "note": "Every arithmetic."
  },
  {
   "property": "C22",
   "status": "proved",
   "theorems": [
    "C22_argument_check"
   ],
   "note": "Every argument list and state."
  },
  {
   "property": "C23",
   "status": "proved",
   "theorems": [
    "C23_prefix_sum"
   ],
   "note": "Every arithmetic, every failing position."
  },
  {
   "property": "C24",
   "status": "proved",
   "theorems": [
    "C24_gradient_flag"
   ],
   "note": "Every arithmetic; T zero needs only 0+0=0."
  },
  {
   "property": "C25",
   "status": "proved",
   "theorems": [
    "C25_outward_facets"
   ],
   "note": "Real arithmetic; every correct hull."
  },
  {
   "property": "C26",
   "status": "proved",
   "theorems": [
    "C26_twins"
   ],
   "note": "Real arithmetic; every correct hull; no TypeError at any observer."
  },
  {
   "property": "C27",
   "status": "proved",
   "theorems": [
    "C27_not_needed",
    "C27_cannot_work"
   ],
   "note": "Not needed: real arithmetic, correct hulls. Cannot work: every arithmetic and every interior test."
  },
  {
   "property": "C28",
   "status": "partial",
   "theorems": [
    "C28_in_plane",
    "C28_in_plane_gradient",
    "C28_gradient_raises_refuted"
   ],
   "note": "Zero and no exception without gradient at every in-plane observer other than the three points; with gradient off the epsilon bands. The unrestricted claim with gradient is refuted."
  },
  {
   "property": "C29",
   "status": "proved",
   "theorems": [
    "C29_vertex_raises",
    "C29_only_vertices",
    "C29_only_zero_division"
   ],
   "note": "Real arithmetic; closed surfaces, every observer."
  },
  {
   "property": "C30",
   "status": "proved",
   "theorems": [
    "C30_no_exception"
   ],
   "note": "Real arithmetic; closed surfaces, observers clear of the edges. Cases: cube, observers in general position, in the plane of a facet, in line with an edge and (without gradient) inside an edge."
  },
  {
   "property": "C31",
   "status": "partial",
   "theorems": [
    "C31_mirrored",
    "C31_near_line_refuted"
   ],
   "note": "The claim is false of the code in exact arithmetic: C31_near_line_refuted gives an instance and C31_mirrored says for every observer in the band what is returned instead. What holds outside the band is C01; what the band costs in G is bounded by C62_near_lines."
  },
  {
   "property": "C32",
   "status": "partial",
   "theorems": [
    "C32_inside_edge",
    "C32_inside_edge_refuted"
   ],
   "note": "The claim is false of the code: refuted. C32_inside_edge says for every observer in the interior of an edge what is returned instead, in exact arithmetic; the gravity vector there is still right (C58_cones: both facets at the edge contribute nothing)."
  },
  {
   "property": "C33",
   "status": "partial",
   "theorems": [
    "C33_gradient_sign_refuted",
    "C33_negated"
   ],
   "note": "The claim is false of the code: C33_gradient_sign_refuted gives an instance and C33_negated shows that every observer in line with an edge beyond its end gets minus the derivative of the (right) integral, in exact arithmetic. The tensor of a closed body is not affected, because both facets at the edge then have zero distance to the observer, which multiplies the gradient: C59_tensor_surface covers such observers (well_placed allows exactly in-line ones)."
  },
  {
   "property": "C34",
   "status": "proved",
   "theorems": [
    "C34_cross_product_vectors",
    "C34_cross_product_rows",
    "C34_vector_product"
   ],
   "note": "Shape, rows and errors: every arithmetic. Algebraic laws: real arithmetic."
  },
  {
   "property": "C35",
   "status": "proved",
   "theorems": [
    "C35_reference_names",
    "C35_reference_default"
   ],
   "note": "Every stacked configuration."
  },
  {
   "property": "C36",
   "status": "partial",
   "theorems": [
    "C36_vdatum_names_partial",
    "C36_vdatum_names_refuted"
   ],
   "note": "False of the code: the documented egm2008 is refuted. The accepted names are characterised exactly."
  },
  {
   "property": "C37",
   "status": "proved",
   "theorems": [
    "C37_given",
    "C37_ellipsoid_selection"
   ],
   "note": "Every stacked configuration and arithmetic; C37_given lists every outcome, with the values that count as not given written out."
  },
  {
   "property": "C38",
   "status": "proved",
   "theorems": [
    "C38_lon180_only_longitude",
    "C38_ranges",
    "C38_out_of_range_refuted"
   ],
   "note": "Only the first column changes, by 0 or -360: every arithmetic. Ranges and idempotence: real arithmetic; refuted outside (-180, 540]."
  },
  {
   "property": "C39",
   "status": "proved",
   "theorems": [
    "C39_ellipsoid_height"
   ],
   "note": "Every arithmetic and geoid; the no-op of the second call needs x+0=x."
  },
  {
   "property": "C40",
   "status": "proved",
   "theorems": [
    "C40_to_ecef_position"
   ],
   "note": "Every geodesy library."
  },
  {
   "property": "C41",
   "status": "proved",
   "theorems": [
    "C41_to_wgs84_position"
   ],
   "note": "Under the stated contract on ecef2geodetic."
  },
  {
   "property": "C42",
   "status": "partial",
   "theorems": [
    "C42_to_enu_position_partial",
    "C42_to_enu_other_ellipsoid_refuted",
    "C42_to_enu_other_origin_refuted",
    "C42_reads_wgs84"
   ],
   "note": "Proved from ECEF and from WGS84; refuted for data on another ellipsoid and for ENU data with another origin. C42_reads_wgs84 says exactly what happens to data on another ellipsoid: they are read as WGS84."
  },
  {
   "property": "C43",
   "status": "partial",
   "theorems": [
    "C43_enu_pipeline_refuted",
    "C43_enu_pipeline_partial",
    "C43_enu_exact"
   ],
   "note": "False of the code: refuted (easting 200). Proved for coordinates that pass as longitude and latitude. C43_enu_exact gives the exact result for every ENU dataset."
  },
  {
   "property": "C44",
   "status": "proved",
   "theorems": [
    "C44_crs_invariant",
    "C44_enu_ellipsoid_at_construction",
    "C44_no_attribute_error",
    "C44_enu_ellipsoid_refuted"
   ],
   "note": "The invariant over all conversion histories, the constructor check and absence of AttributeError are proved; equality of the two ellipsoids after to_enu is refuted, as the statement says."
  },
  {
   "property": "C45",
   "status": "proved",
   "theorems": [
    "C45_labels"
   ],
   "note": "Every configuration."
  },
  {
   "property": "C46",
   "status": "proved",
   "theorems": [
    "C46_wrong_shape",
    "C46_layering"
   ],
   "note": "Every pair of optional files. Files of the wrong shape raise, and exactly they do."
  },
  {
   "property": "C47",
   "status": "partial",
   "theorems": [
    "C47_masses_count_partial",
    "C47_self_contained_partial",
    "C47_masses_mix_refuted",
    "C47_filled_from_below"
   ],
   "note": "The number of masses and independence of a self-contained file are proved; mixing of omitted keys is refuted. C47_filled_from_below says for every i where an omitted density or constant comes from."
  },
  {
   "property": "C48",
   "status": "proved",
   "theorems": [
    "C48_given",
    "C48_points",
    "C48_source_selection"
   ],
   "note": "Every configuration whose keys are readable; C48_given writes out the values that count as not given."
  },
  {
   "property": "C49",
   "status": "proved",
   "theorems": [
    "C49_integers",
    "C49_grid",
    "C49_errors"
   ],
   "note": "Every configuration that selects a grid, exact real arithmetic."
  },
  {
   "property": "C50",
   "status": "proved",
   "theorems": [
    "C50_rows"
   ],
   "note": "Every configuration, environment and arithmetic."
  },
  {
   "property": "C51",
   "status": "partial",
   "theorems": [
    "C51_own_density_refuted",
    "C51_shared_density_partial"
   ],
   "note": "False of the code: refuted with two masses. Proved when the masses share density and constant."
  },
  {
   "property": "C52",
   "status": "partial",
   "theorems": [
    "C52_frames_refuted",
    "C52_cartesian_partial",
    "C52_geodetic_exact"
   ],
   "note": "False of the code: refuted for ECEF observers. Proved for Cartesian data. C52_geodetic_exact says for all geographic observers at which point the attraction is computed."
  },
  {
   "property": "C53",
   "status": "proved",
   "theorems": [
    "C53_all_or_nothing"
   ],
   "note": "Every configuration and every behaviour of the operating system (refusals)."
  },
  {
   "property": "C54",
   "status": "proved",
   "theorems": [
    "C54_file_name",
    "C54_distinct_requests_refuted"
   ],
   "note": "Name proved for every request; distinctness of files for distinct requests is refuted, as the statement says."
  },
  {
   "property": "C55",
   "status": "proved",
   "theorems": [
    "C55_no_masses"
   ],
   "note": "Every stack of configuration files."
  },
  {
   "property": "C56",
   "status": "partial",
   "theorems": [
    "C56_optional_vdatum_refuted",
    "C56_reader_defaults_partial",
    "C56_every_key"
   ],
   "note": "False of the code: refuted for vdatum. The readers themselves have the defaults. C56_every_key: every key that show prints is mandatory."
  },
  {
   "property": "C57",
   "status": "proved",
   "theorems": [
    "C57_order_independent"
   ],
   "note": "Real arithmetic; any renumbering of points, facets and facet points; every observer clear of the edge bands."
  },
  {
   "property": "C58",
   "status": "proved",
   "theorems": [
    "C58_cones",
    "C58_volume",
    "C58_hull"
   ],
   "note": "Volume integrals over tetrahedra as nested Riemann integrals; observers inside the body, in planes of facets, in line with edges or on a facet too (C58_cones)."
  },
  {
   "property": "C59",
   "status": "proved",
   "theorems": [
    "C59_tensor_surface"
   ],
   "note": "Closed surfaces, observers inside or outside, also in the planes of facets, on no facet."
  },
  {
   "property": "C60",
   "status": "proved",
   "theorems": [
    "C60_bounds",
    "C60_volume"
   ],
   "note": "Exact reals, bodies the constructor builds from a correct hull, well placed observers. Volume is the sum of det/6 over the facets; C60_volume shows it positive. Case: cube of side 20 seen from (25,13,17)."
  },
  {
   "property": "C61",
   "status": "proved",
   "theorems": [
    "C61_double",
    "C61_point_mass"
   ],
   "note": "Exact reals, bodies the constructor builds from a correct hull, well placed observers, explicit error bound 46 R/D (relative). Case: cube of side 20 seen from (40,20,40)."
  },
  {
   "property": "C62",
   "status": "proved",
   "theorems": [
    "C62_near_lines",
    "C62_near_lines_cones",
    "C62_band"
   ],
   "note": "Exact reals; closed bodies. C62_* : observers clear of the edges, near planes. C62_near_lines, C62_near_lines_cones: also observers almost in line with edges, without the gradient. Cases: the cube with an observer off two planes by less than eps, and with one almost in line with an edge."
  },
  {
   "property": "C63",
   "status": "proved",
   "theorems": [
    "C63_integer_bodies",
    "C63_only_these",
    "C63_causes"
   ],
   "note": "Every arithmetic. C63_only_these: with or without gradient. C63_causes: without gradient. Case: all three exceptions occur, in doubles."
  },
  {
   "property": "C64",
   "status": "partial",
   "theorems": [
    "C64_domain_error_refuted",
    "C64_lattice_partial"
   ],
   "note": "False of the code: C64_domain_error_refuted, IEEE doubles (Coq.Floats.SpecFloat), np.dot with or without fused multiply-add, for all log and acos; a correct hull and integer observers on and beside a slanted facet. What holds instead: C64_lattice_partial (no exception for bodies and observers on a lattice, at most six steps apart, off the planes of slanted facets); C63_causes names the only cause, C30 the absence in exact arithmetic, C72_accuracy the absence in doubles for observers that see every facet with a margin or lie exactly in its plane, perpendicular to an axis."
  },
  {
   "property": "C65",
   "status": "partial",
   "theorems": [
    "C65_finite_refuted",
    "C65_lattice_partial"
   ],
   "note": "False of the code: C65_finite_refuted, IEEE doubles, np.dot with or without fused multiply-add, for every acos and every log that is nan on negative numbers; a correct hull and an integer observer in line with an oblique edge. What holds instead: C65_lattice_partial (finite vector and tensor on a lattice, as C64_lattice_partial); C72_accuracy, finite results for observers that see every facet with a margin or lie exactly in its plane, perpendicular to an axis."
  },
  {
   "property": "C66",
   "status": "proved",
   "theorems": [
    "C66_integer_bodies",
    "C66_nan_observer"
   ],
   "note": "IEEE doubles, arbitrary log, acos and np.dot that give nan for nan (for acos nothing is needed)."
  },
  {
   "property": "C67",
   "status": "partial",
   "theorems": [
    "C67_omitted_keys",
    "C67_documented_defaults_refuted",
    "C67_null_keys_partial"
   ],
   "note": "Every arithmetic and library. The claim is false of the code: C67_omitted_keys shows what every file omitting the keys gets instead, C67_documented_defaults_refuted gives an instance; C67_null_keys_partial is what holds."
  },
  {
   "property": "C68",
   "status": "partial",
   "theorems": [
    "C68_chosen_source",
    "C68_chosen_source_refuted"
   ],
   "note": "Proved for observers and the first mass over the packaged default; refuted with a user file in between and for later masses."
  },
  {
   "property": "C69",
   "status": "proved",
   "theorems": [
    "C69_template"
   ],
   "note": "Every arithmetic and library in which the ellipsoid wgs84 is known."
  },
  {
   "property": "C70",
   "status": "proved",
   "theorems": [
    "C70_config_command"
   ],
   "note": "Every environment. The parsing of the configuration that precedes the copy is not modelled; a malformed user file raises before any effect."
  },
  {
   "property": "C71",
   "status": "proved",
   "theorems": [
    "C71_built_in_doubles",
    "C71_integer_bodies",
    "C71_far_body_refuted"
   ],
   "note": "IEEE binary64 with round-to-nearest-even operations in the order of the source, except np.dot: any sum of three products, rounded or fused, in any order (dotlib, FDot.v); log and acos arbitrary. C71_far_body_refuted shows that the margin cannot be dropped."
  },
  {
   "property": "C72",
   "status": "proved",
   "theorems": [
    "C72_accuracy"
   ],
   "note": "IEEE binary64 with round-to-nearest-even operations in the order of the source, except np.dot: any sum of three products, rounded or fused, in any order (dotlib, FDot.v); log and acos any functions with error at most 4(1+|log|) 2^-53 and 20*2^-53 (libm, FLog.v). The comparison with exact arithmetic is over the reals; the volume integral comes from C58."
  },
  {
   "property": "C73",
   "status": "proved",
   "theorems": [
    "C73_success",
    "C73_newton",
    "C73_double",
    "C73_double_gradient"
   ],
   "note": "C73_success holds for every arithmetic, C73_newton over the reals, C73_double and, with the gradient, C73_double_gradient for IEEE binary64 under the conditions of C72 and C79 (libm, FLog.v; dotlib, FDot.v). Qhull is an input: its answer is assumed correct (correct_hull), as in C58. The printed decimal text of the numbers is not modelled."
  },
  {
   "property": "C74",
   "status": "partial",
   "theorems": [
    "C74_separate",
    "C74_pipeline",
    "C74_shared_crs",
    "C74_shared_refuted"
   ],
   "note": "Datasets as Python objects on a heap (MObj.v). C74_separate for every history on datasets that share nothing; C74_pipeline for the masses of a run. False with a shared CRS object: C74_shared_crs says exactly what happens, C74_shared_refuted gives a case."
  },
  {
   "property": "C75",
   "status": "proved",
   "theorems": [
    "C75_batch",
    "C75_retry"
   ],
   "note": "C75_batch for every arithmetic, C75_retry over the reals. to_lon180 is left out of C75_retry: it never raises, and longitudes above 540 degrees change again at each call (C38)."
  },
  {
   "property": "C76",
   "status": "proved",
   "theorems": [
    "C76_positions"
   ],
   "note": "Every arithmetic in which the library functions invert each other (hypotheses ecef2geodetic_inverts, enu_contract). For other ellipsoids the claim is false, see C42."
  },
  {
   "property": "C77",
   "status": "partial",
   "theorems": [
    "C77_separate_threads",
    "C77_shared_body_refuted",
    "C77_shared_body_raises_refuted",
    "C77_locked"
   ],
   "note": "The calls as sequences of atomic operations (MThread.v), refined to MPoly.v. C77_separate_threads and C77_locked hold for every schedule; sharing a body without a lock is refuted (C77_shared_body_refuted, C77_shared_body_raises_refuted)."
  },
  {
   "property": "C78",
   "status": "proved",
   "theorems": [
    "C78_interrupted",
    "C78_recovery",
    "C78_no_reset_refuted"
   ],
   "note": "Operations as in MThread.v; Polyhedron.reset at the end of a call counts as one. C78_no_reset_refuted shows that the reset cannot be dropped."
  },
  {
   "property": "C79",
   "status": "proved",
   "theorems": [
    "C79_tensor_accuracy"
   ],
   "note": "Same trusted reading of the arithmetic as C72 (libm, FLog.v; dotlib, FDot.v; other operations in the order of the source). The derivative statement comes from C06, the trace from C08, both over the reals."
  },
  {
   "property": "C80",
   "status": "proved",
   "theorems": [
    "C80_snapshot",
    "C80_snapshot_reset",
    "C80_untouched"
   ],
   "note": "Memory of numpy arrays (MArray.v) over the bodies of MHull.v and MPoly.v. Arrays of observers have shape (3,), arrays of points three columns; points written as whole rows."
  },
  {
   "property": "C81",
   "status": "partial",
   "theorems": [
    "C81_now",
    "C81_refuted"
   ],
   "note": "The claim that a station stays where it was created is refuted (C81_refuted); C81_now is the exact behaviour."
  },
  {
   "property": "C82",
   "status": "proved",
   "theorems": [
    "C82_frame",
    "C82_origin",
    "C82_placed"
   ],
   "note": "For every arithmetic; C82_frame asks that the axes of the ellipsoid equal themselves (no nan)."
  },
  {
   "property": "C83",
   "status": "proved",
   "theorems": [
    "C83_gravity",
    "C83_tensor"
   ],
   "note": "C83_gravity: vectors; C83_tensor: tensors. log and acos within the error that libm allows, as in C72; both hulls correct and listing the same double-precision points."
  },
  {
   "property": "C84",
   "status": "partial",
   "theorems": [
    "C84_observer_exact",
    "C84_one_number_refuted",
    "C84_station_exact"
   ],
   "note": "False as stated: an array holding one number is silently used for all three coordinates (C84_one_number_refuted). C84_observer_exact and C84_station_exact: exactly these shapes are accepted, all others raise ValueError and change nothing."
  },
  {
   "property": "C85",
   "status": "proved",
   "theorems": [
    "C85_three_columns"
   ],
   "note": "qhull is assumed to return at least one facet and one point of it for each column."
  },
  {
   "property": "C86",
   "status": "proved",
   "theorems": [
    "C86_symmetric",
    "C86_negated",
    "C86_station_symmetric"
   ],
   "note": "C86_symmetric and C86_station_symmetric hold for every arithmetic; C86_negated for doubles and any log, acos and np.dot."
  },
  {
   "property": "C87",
   "status": "proved",
   "theorems": [
    "C87_translation"
   ],
   "note": "qhull is assumed to list the same facets for both bodies."
  },
  {
   "property": "C88",
   "status": "proved",
   "theorems": [
    "C88_mirror_image",
    "C88_symmetric_body",
    "C88_centre_of_symmetry",
    "C88_plane_of_symmetry",
    "C88_axis_of_symmetry"
   ],
   "note": "Over the real numbers. Symmetric bodies: only the corners need be symmetric, no three of them in line."
  },
  {
   "property": "C89",
   "status": "proved",
   "theorems": [
    "C89_corners_only",
    "C89_double_gravity",
    "C89_double_tensor"
   ],
   "note": "Over the real numbers, and in doubles within the rounding bounds of C72 and C79. The corners are the points listed in hull.vertices; no three of them in line (qhull lists extreme points only)."
  },
  {
   "property": "C90",
   "status": "proved",
   "theorems": [
    "C90_potential",
    "C90_loop"
   ],
   "note": "Over the real numbers. The epsilon bands of the lines through edges are excluded; the bands of the planes of facets are included, with their bound."
  },
  {
   "property": "C91",
   "status": "proved",
   "theorems": [
    "C91_tensor_volume",
    "C91_bound",
    "C91_point_mass",
    "C91_double"
   ],
   "note": "Over the real numbers (the point-mass limit also in doubles), for observers outside the epsilon bands; observers inside the body, where the kernel is not integrable, are covered by the surface form C59."
  },
  {
   "property": "C92",
   "status": "proved",
   "theorems": [
    "C92_gravity",
    "C92_tensor",
    "C92_double",
    "C92_double_tensor"
   ],
   "note": "Gravity and tensor, over the real numbers and in doubles."
  },
  {
   "property": "C93",
   "status": "proved",
   "theorems": [
    "C93_corners",
    "C93_tensor",
    "C93_double",
    "C93_double_tensor"
   ],
   "note": "Gravity and tensor, over the real numbers and in doubles. The two hulls are assumed to have the same triples: where small errors change the triples scipy returns, the theorem does not apply."
  },
  {
   "property": "C94",
   "status": "proved",
   "theorems": [
    "C94_masses",
    "C94_observers",
    "C94_show",
    "C94_incomplete",
    "C94_newton",
    "C94_double"
   ],
   "note": "Every arithmetic and geodesy library; the description of the file uses none of the readers of the model. Grids are included (number of nodes by the ceiling of the arithmetic; over the reals see C49). C94_show, C94_newton and C94_double carry the file through the whole run; the density and constant are those of the first mass (see C73)."
  }
 ]
}