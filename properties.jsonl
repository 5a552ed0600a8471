{"id": "C01", "title": "Edge line integral is the integral of dl/r", "statement": "For a directed edge p1->p2 of positive length and an observation point that is not on the closed segment and is either exactly in line with the edge or outside the machine-epsilon band around its line, the edge's line-integral vector computed during get_gravity is (unit vector from p1 to p2) times the integral over the segment of 1/distance-to-observer.", "quantifier": "all edges (any two distinct points), all observation points off the segment and not in the epsilon band, exact real arithmetic", "why_tests_cant": "the claim equates a closed form with an integral for a continuum of geometries, including the in-line special branch", "anchors": ["geec/polyhedron.py: Edge._line_integral_along_edge, Edge._get_ccw_line_integrals"]}
{"id": "C02", "title": "Reversing an edge negates its integral", "statement": "The value an edge hands to its twin (the negation of its own) is the value the twin would have computed itself: line integrals and their gradients of p1->p2 and p2->p1 are opposite at every regular observation point.", "quantifier": "all edges, all regular observation points, exact real arithmetic", "why_tests_cant": "the shortcut is valid only if an identity between two different evaluations of the formula holds at every point", "anchors": ["geec/polyhedron.py: Edge._set_twin_pqr, Edge._get_ccw_line_integrals"]}
{"id": "C03", "title": "Face solid angle is the flux integral", "statement": "For every non-degenerate triangular facet with its unit outward normal and every observation point off its plane (by more than epsilon), the solid angle used by Face.get_gravity equals minus the integral over the facet of n.R/|R|^3 (R from observer to surface point), i.e. the signed solid angle.", "quantifier": "all non-degenerate triangles, all observation points with |n.R| > epsilon, exact real arithmetic", "why_tests_cant": "equality of a sum of three arccosines with a surface integral over a continuum of shapes", "anchors": ["geec/polyhedron.py: Face._get_omega, _get_A1A2, _get_perp, _get_angle"]}
{"id": "C04", "title": "Solid angle range and sign", "statement": "For such facets the computed solid angle lies strictly between -2*pi and 2*pi, is non-zero, and its sign is opposite to that of the outward normal's scalar product with the vector from observer to facet.", "quantifier": "all non-degenerate triangles and off-plane observers, exact real arithmetic", "why_tests_cant": "a global bound on a multi-branch inverse-trigonometric expression", "anchors": ["geec/polyhedron.py: Face._get_omega"]}
{"id": "C05", "title": "Facet gravity is Newton's integral over the cone from the observer", "statement": "For every non-degenerate triangular facet with ccw outward orientation and every observer off the epsilon bands of the edges (or exactly in line with an edge, beyond its end) and of the facet's plane, the g returned by Face.get_gravity is density*Gc*1e5 times d times the surface integral over the facet of R/|R|^3, d being the signed distance from observer to facet plane; i.e. the signed Newtonian attraction of the cone with apex at the observer and the facet as base.", "quantifier": "all non-degenerate triangles of closed bodies, all observers outside the epsilon bands named, all densities and constants, exact real arithmetic", "why_tests_cant": "tests compare a few points against reference numbers; the claim is an identity of functions", "anchors": ["geec/polyhedron.py: Face.get_gravity"]}
{"id": "C06", "title": "Gradient tensor is the Jacobian of the gravity vector", "statement": "With gradient=True, every one of the nine entries T[i][j] returned by Polyhedron.get_gravity equals 1e4 times the partial derivative of G[i] (as returned) with respect to the j-th coordinate of the observation point (mGal/m to Eotvos), for every polyhedron whose edges are paired with opposite twins and every observer outside the epsilon bands of the lines through the edges that, for each facet, is outside the epsilon band of its plane or exactly in it.", "quantifier": "all closed triangulated surfaces with twin-paired edges, all such observers (also in the planes of facets), exact real arithmetic", "why_tests_cant": "finite differences at sample points cannot establish a derivative everywhere; and only six entries are computed by the code", "anchors": ["geec/polyhedron.py: Face.get_gravity, Face._get_dangle, Edge._line_integral_along_edge, Polyhedron.get_gravity"]}
{"id": "C07", "title": "Copied lower triangle is legitimate only after summation", "statement": "The code computes the upper triangle of each facet's tensor and copies it below. For one facet the true Jacobian is in general not symmetric (the copy is wrong by n_i B_j - n_j B_i); summed over a polyhedron with twin-paired edges the antisymmetric parts cancel and the copy is exact.", "quantifier": "all facets and all twin-paired polyhedra, observers off the epsilon bands of the edges and either off the band of each facet plane or exactly in it, exact real arithmetic", "why_tests_cant": "cancellation must hold for every polyhedron, and the per-facet failure is invisible in totals", "anchors": ["geec/polyhedron.py: Face.get_gravity lines 747-780"]}
{"id": "C08", "title": "Laplace equation outside the body", "statement": "The trace of T returned by Polyhedron.get_gravity(gradient=True) is zero at every well placed observer from which some ray (half-line) meets no facet; in particular at every well placed observer on the outer side of the plane of some facet of a body built from a correct convex hull. In general the trace is -4*pi*Gc*density*1e9 times the signed number of facets a generic ray crosses. Well placed: clear of the epsilon bands of the edges (or exactly in line with an edge, beyond its end) and, for each facet, either outside the epsilon band of its plane or exactly in it; without gradient, the edges of facets in whose plane the observer lies do not matter as long as it is no vertex.", "quantifier": "all closed (twin-paired) polyhedra, convex or not, all well placed exterior observers, all densities and constants, all call histories, exact real arithmetic", "why_tests_cant": "a global (topological) identity on the sum of facet solid angles", "anchors": ["geec/polyhedron.py: Polyhedron.get_gravity, Face.get_gravity"]}
{"id": "C09", "title": "Poisson equation inside the body", "statement": "The trace of T is -4*pi*Gc*density*1e9 at every well placed observer strictly on the inner side of all facets of a body built from a correct convex hull in which some facet has an interior point covered by no other facet (i.e. the facets do not cover the surface twice). Well placed: clear of the epsilon bands of the edges (or exactly in line with an edge, beyond its end) and, for each facet, either outside the epsilon band of its plane or exactly in it; without gradient, the edges of facets in whose plane the observer lies do not matter as long as it is no vertex.", "quantifier": "all convex polyhedra built from a correct hull without overlapping facets, all interior well placed observers, all densities and constants, all call histories, exact real arithmetic", "why_tests_cant": "same, for interior points", "anchors": ["geec/polyhedron.py: Polyhedron.get_gravity, Face.get_gravity"]}
{"id": "C10", "title": "Linearity in density and gravitational constant", "statement": "Scaling density (or Gc) by k scales every component of G and T by k; whether the call succeeds does not depend on them. In double precision it does so up to (1 + |k|) times the rounding bounds of C72 and C79.", "quantifier": "all polyhedra, observers, densities, constants, k, exact real arithmetic; for the bounds in doubles: all libraries, hulls and observers of C72 and C79, all finite densities and constants within R0 and G0", "why_tests_cant": "for all scalars", "anchors": ["geec/polyhedron.py: Polyhedron.get_gravity", "geec/station.py: Station.compute_gravity"]}
{"id": "C11", "title": "Translation invariance", "statement": "Moving the body and the observer by the same vector changes neither G nor T nor whether the call succeeds.", "quantifier": "all polyhedra, observers, translations, exact real arithmetic", "why_tests_cant": "for all translations", "anchors": ["geec/polyhedron.py: Face._get_dot_point1, Face._get_omega, Edge._get_ccw_line_integrals"]}
{"id": "C12", "title": "Rotation equivariance", "statement": "Rotating body and observer by Q rotates G to Q G and T to Q T Q^t.", "quantifier": "all rotations and translations, polyhedra and observers that are, for each edge, off its epsilon band or exactly in line beyond its end, and, for each facet, off the band of its plane or exactly in it, exact real arithmetic", "why_tests_cant": "for a continuum of rotations; the code is written in components and copies half a matrix", "anchors": ["geec/polyhedron.py: Face.get_gravity, Polyhedron.get_gravity"]}
{"id": "C13", "title": "Scaling law", "statement": "Scaling body and observer by k>0 scales G by k and leaves T unchanged, as long as no epsilon threshold is crossed.", "quantifier": "all k>0, polyhedra, observers outside the epsilon bands of both configurations or exactly in the planes and edge lines, exact real arithmetic", "why_tests_cant": "for all k; absolute thresholds make it false in general", "anchors": ["geec/polyhedron.py: Face._get_omega, Edge._line_integral_along_edge"]}
{"id": "C14", "title": "A facet and its reversal cancel", "statement": "Two bodies glued along a facet: the facet's contributions from the two sides (opposite orientation, opposite normal) to G and T sum to zero, so internal facets never matter. In double precision the values computed for the union and the sum of those computed for the parts differ by at most the three rounding bounds of C72 and C79.", "quantifier": "all triangles, all glued closed bodies, with and without the gradient, all observers off the epsilon bands of the edges or exactly in line with them (any distance from the planes, also within their bands), exact real arithmetic; for the bounds in doubles: all libraries, hulls and observers of C72 and C79", "why_tests_cant": "for all facets and observers; the two sides go through different branches (inout>0 and inout<0)", "anchors": ["geec/polyhedron.py: Face.get_gravity"]}
{"id": "C15", "title": "Independence of how a planar facet is triangulated", "statement": "ConvexHull splits planar polygonal facets into triangles arbitrarily. Two bodies whose facets can be grouped into planar polygons, corresponding polygons having the same plane, normal and boundary but any triangulation (either diagonal of a quadrilateral, a fan from a corner, a fan about any added point), have the same G and T at every observer off the epsilon bands of the edges of both, also in the plane of the polygon or inside it.", "quantifier": "all pairs of closed bodies, all groupings of their facets into corresponding coplanar polygons with equal boundary, all observers off the bands of the edges of both bodies or exactly in line with them, exact real arithmetic", "why_tests_cant": "qhull's choice is an implementation detail; independence must hold for each geometry", "anchors": ["geec/polyhedron.py: Polyhedron._get_faces, Face.get_gravity"]}
{"id": "C16", "title": "get_gravity is history independent", "statement": "The outcome of Polyhedron.get_gravity (values or exception) depends only on the polyhedron and the arguments: after any sequence of earlier calls that returned normally, with any observers, densities and gradient flags, it is the same as on a freshly built polyhedron.", "quantifier": "all polyhedra (any twin structure), all finite call histories, every arithmetic including IEEE doubles", "why_tests_cant": "all call histories; caches and in-place additions could leak", "anchors": ["geec/polyhedron.py: Polyhedron.get_gravity, reset, Face.reset, Edge.reset, Face._add_pqr, Edge._set_twin_pqr"]}
{"id": "C17", "title": "Sharing and in-place accumulation are harmless within a call", "statement": "Although a facet's accumulator aliases its first edge's array and twins receive cached negated copies, the G and T returned are the sum over facets of a pure function in which each edge's integral is either computed directly or is the negation of its previously visited twin's.", "quantifier": "all polyhedra with any twin relation, all observers, every arithmetic", "why_tests_cant": "aliasing bugs depend on visiting order and twin structure", "anchors": ["geec/polyhedron.py: Face._add_pqr, Face._add_dpqr, Edge._set_twin_pqr, Edge._get_ccw_line_integrals"]}
{"id": "C18", "title": "A failed call does not corrupt later calls", "statement": "After Polyhedron.get_gravity raises (for instance because the observer sits on a vertex), a later call with a good observer returns what a fresh polyhedron would return. (Refuted: the caches are not reset on exceptions.)", "quantifier": "all polyhedra, all histories including failing calls", "why_tests_cant": "needs all exception points in all histories", "anchors": ["geec/polyhedron.py: Polyhedron.get_gravity, Face.get_gravity"]}
{"id": "C19", "title": "Face.get_gravity called directly is repeatable", "statement": "Calling Face.get_gravity twice with the same arguments returns the same value. (Refuted: the accumulator is not reset and aliases an edge cache.)", "quantifier": "all faces and observers, call histories on faces", "why_tests_cant": "state dependent", "anchors": ["geec/polyhedron.py: Face.get_gravity, Face._add_pqr"]}
{"id": "C20", "title": "Superposition over a list of bodies", "statement": "Station.compute_gravity on a list leaves G and T equal to their previous values plus, in list order, each body's get_gravity result; in exact arithmetic the order of the list does not matter.", "quantifier": "all lists of polyhedra (with repetitions, shared objects), stations, every arithmetic (order-independence: exact)", "why_tests_cant": "all lengths and repetitions, including the same object appearing twice", "anchors": ["geec/station.py: Station.compute_gravity"]}
{"id": "C21", "title": "Repeated compute_gravity accumulates", "statement": "A second compute_gravity on the same station adds to the first result; it never replaces it: after any sequence of successful calls G and T are the running sums of the individual results.", "quantifier": "all stations and call sequences, every arithmetic", "why_tests_cant": "all histories", "anchors": ["geec/station.py: Station.compute_gravity"]}
{"id": "C22", "title": "Argument check precedes every effect", "statement": "If any element passed to Station.compute_gravity is not a Polyhedron, TypeError is raised and the station and all polyhedra are unchanged; if all are, TypeError from the check is impossible.", "quantifier": "all argument lists, positions of the offending element, states", "why_tests_cant": "position and state quantification", "anchors": ["geec/station.py: Station.compute_gravity"]}
{"id": "C23", "title": "Exception in the middle of a list keeps a prefix sum", "statement": "When get_gravity of the k-th body raises, the station holds exactly the sum of the first k-1 results, bodies after k are untouched, and the exception propagates.", "quantifier": "all lists and failing positions, every arithmetic", "why_tests_cant": "all failing positions", "anchors": ["geec/station.py: Station.compute_gravity"]}
{"id": "C24", "title": "gradient flag does not change G", "statement": "With gradient=False T is returned as zero and G is the same, bit for bit, as with gradient=True whenever both calls succeed; a call that succeeds with gradient=True also succeeds with gradient=False.", "quantifier": "all polyhedra, observers, densities, every arithmetic", "why_tests_cant": "the two flags execute different code in four functions", "anchors": ["geec/polyhedron.py: Face._get_omega, Face.get_gravity, Edge._line_integral_along_edge"]}
{"id": "C25", "title": "Facets are oriented outward and counter-clockwise", "statement": "For every correct convex hull of a non-degenerate point set each facet object carries a unit normal pointing away from the body, and its points are listed counter-clockwise about that normal; the points of the facet are those of the hull simplex.", "quantifier": "all point sets and all facet lists satisfying the hull contract, exact real arithmetic", "why_tests_cant": "qhull gives arbitrary orientation per facet", "anchors": ["geec/polyhedron.py: Polyhedron._get_faces"]}
{"id": "C26", "title": "Every edge gets exactly one opposite twin", "statement": "For every correct hull of distinct points, after construction each edge of each facet has a twin in the neighbouring facet, with start and end exchanged, and the twin of the twin is the edge itself; no TypeError 'twin undefined' can occur.", "quantifier": "all closed hulls, exact real arithmetic (coordinates compared by equality)", "why_tests_cant": "pairing depends on orientation of all facets and on visiting order", "anchors": ["geec/polyhedron.py: Polyhedron._get_edge_twin, Face._get_twinface, Face._get_edges"]}
{"id": "C27", "title": "The 'look for another interior point' loop is never needed and cannot work", "statement": "For a correct non-degenerate hull in exact arithmetic the fallback loop is never entered; whenever it is entered, the call fails with NameError (it reads an undefined variable), so construction never returns a wrongly oriented polyhedron through it.", "quantifier": "all hulls; all point sets and all answers of the interior test", "why_tests_cant": "dead-code / error-path claim over all inputs", "anchors": ["geec/polyhedron.py: Polyhedron._get_faces lines 849-867"]}
{"id": "C28", "title": "Observer in the plane of a facet", "statement": "An observer in a facet's plane but on none of its edges gets zero gravity and no exception from that facet. (With gradient=True this is refuted on a thin set of observers at exactly the epsilon distance where the edge length equals the distance; it holds for observers exactly in line with an edge or outside its epsilon band.)", "quantifier": "all triangles, all in-plane observers off the edge lines, exact real arithmetic", "why_tests_cant": "a measure-zero set random tests never hit", "anchors": ["geec/polyhedron.py: Face._get_omega, Face.get_gravity"]}
{"id": "C29", "title": "Observer at a vertex always raises", "statement": "get_gravity with an observer equal to a vertex of the body raises ZeroDivisionError and never returns a number. ZeroDivisionError is the only exception any observer can cause on a correctly built body, and without gradient vertices are the only observers that cause it.", "quantifier": "all polyhedra whose facets use the vertex, exact real arithmetic", "why_tests_cant": "all bodies and vertices", "anchors": ["geec/polyhedron.py: Edge._line_integral_along_edge line 167"]}
{"id": "C30", "title": "No spurious math-domain errors", "statement": "At every observer that is no vertex and is clear of the edges (outside the epsilon band of the line through each edge, or in line with it beyond an end; without gradient the edges of facets in whose plane the observer lies do not matter), at whatever distance of the planes of the facets, the call returns normally: the arccosine and square-root arguments are always within their domains and no division by zero happens.", "quantifier": "all twin-paired polyhedra and all such observers, exact real arithmetic", "why_tests_cant": "total correctness over a continuum", "anchors": ["geec/polyhedron.py: Face._get_angle, Face._get_dangle, Edge._line_integral_along_edge"]}
{"id": "C31", "title": "Near-in-line observers", "statement": "The edge integral is accurate for every observer off the edge. (Refuted in exact arithmetic: every observer within machine epsilon of the line through the edge, beyond its end but not exactly on the line, gets minus the integral over the segment mirrored at the start point. What this costs in G is bounded in C62.)", "quantifier": "observers in the epsilon band", "why_tests_cant": "an adversarial measure-tiny region", "anchors": ["geec/polyhedron.py: Edge._get_ccw_line_integrals lines 219-222"]}
{"id": "C32", "title": "Observer on an edge is reported", "statement": "The field's edge integral diverges for an observer in the interior of an edge, so the call should not return a finite edge integral. (Refuted: it returns a finite logarithm, and without gradient get_gravity returns normally at every observer that is not a vertex.)", "quantifier": "observers inside an edge", "why_tests_cant": "measure-zero configuration", "anchors": ["geec/polyhedron.py: Edge._line_integral_along_edge lines 165-169"]}
{"id": "C33", "title": "Interchanged end points: gradient sign", "statement": "When the end points are interchanged for an in-line observer, the gradient of the edge integral is also sign corrected. (Refuted at edge level; masked in the totals because both facets sharing the edge then have zero distance.)", "quantifier": "in-line observers nearer to the end point", "why_tests_cant": "masked in every total, so no black-box test can see it; the masking must be proved", "anchors": ["geec/polyhedron.py: Edge._get_ccw_line_integrals lines 207-211, 231-233"]}
{"id": "C34", "title": "cross_product", "statement": "cross_product of two size-3 vectors is the vector product (orthogonal to both, antisymmetric, |a x b|^2 + (a.b)^2 = |a|^2|b|^2); it maps over the rows of 2-D arguments preserving order and shape; any row not of size 3 raises TypeError and nothing else is returned.", "quantifier": "all arrays of dimension up to two, any number of rows", "why_tests_cant": "all shapes", "anchors": ["geec/utils.py: cross_product"]}
{"id": "C35", "title": "Reference system names", "statement": "get_crs accepts ref exactly when, ignoring case, it is cart, ellps, enu or ecef; missing or null means ellps; anything else raises a configuration error.", "quantifier": "all strings and YAML values, all stacked configurations", "why_tests_cant": "all strings", "anchors": ["geec/crs.py: read_ref, get_crs, CRSEnum"]}
{"id": "C36", "title": "Vertical datum names", "statement": "Every documented datum name (ellps, egm84, egm96, egm2008) is accepted for vdatum. (Refuted: egm2008 is rejected; the accepted spelling is egm08.)", "quantifier": "all strings", "why_tests_cant": "all strings", "anchors": ["geec/crs.py: read_vdatum, VDatumEnum", "geec/cfg/config_template.yaml"]}
{"id": "C37", "title": "Ellipsoid selection", "statement": "A named ellipsoid wins over axes; two non-zero axes win over the default; otherwise WGS84 is used; an unknown name is rejected; axes giving negative flattening are rejected. An axis of null, 0, false or the empty text counts as not given; two given axes of which one is no number raise TypeError; a name that is not a text is rejected.", "quantifier": "all combinations of name and axes", "why_tests_cant": "all values incl. null, zero, one axis missing", "anchors": ["geec/crs.py: Ellipsoid.__init__, read_ellipsoid_parameters"]}
{"id": "C38", "title": "Longitude wrapping", "statement": "to_lon180 on geographic data changes only the first column and by a multiple of 360; for longitudes in (-180, 540] the result is in (-180, 180] and wrapping again changes nothing; (outside that range it is refuted).", "quantifier": "all arrays, all longitudes, exact arithmetic", "why_tests_cant": "unbounded data and value ranges", "anchors": ["geec/crs.py: wrap180", "geec/dataset.py: Dataset.to_lon180"]}
{"id": "C39", "title": "Ellipsoid height", "statement": "to_ellipsoid_height on geographic data adds to each height exactly the geoid height of the declared datum at that point, keeps longitude and latitude, and marks the data so that repeating the call adds nothing more.", "quantifier": "all arrays and datums, repeated calls", "why_tests_cant": "idempotence over call histories", "anchors": ["geec/crs.py: ellipsoid_height", "geec/dataset.py: Dataset.to_ellipsoid_height"]}
{"id": "C40", "title": "to_ecef preserves the physical position", "statement": "For data in any of the four systems, to_ecef yields the Cartesian positions denoted by (coordinates, reference system), relabels the data ECEF (CART stays CART), is idempotent, and touches nothing if it raises.", "quantifier": "all datasets in any reachable reference-system state", "why_tests_cant": "all states reachable by conversion sequences", "anchors": ["geec/dataset.py: Dataset.to_ecef", "geec/crs.py: enu_to_ecef, ellps_to_ecef"]}
{"id": "C41", "title": "to_wgs84 preserves the physical position", "statement": "to_wgs84 leaves the denoted Cartesian position unchanged (assuming pymap3d's ecef2geodetic inverts geodetic2ecef) and the result is labelled WGS84 ellipsoid, from any of ENU, ELLPS, ECEF; CART is left alone.", "quantifier": "all datasets", "why_tests_cant": "all states", "anchors": ["geec/dataset.py: Dataset.to_wgs84", "geec/crs.py: ecef_to_wgs84, ellps_to_wgs84, enu_to_wgs84"]}
{"id": "C42", "title": "to_enu preserves the physical position", "statement": "to_enu(lon0,lat0,alt0) re-expresses the data in the local frame at the requested origin without moving the points. (Holds from ECEF and from WGS84 data; refuted for data on another ellipsoid, and for data already in ENU with another origin, which is silently left alone.)", "quantifier": "all datasets and origins", "why_tests_cant": "all states", "anchors": ["geec/dataset.py: Dataset.to_enu", "geec/crs.py: wgs84_to_enu, ecef_to_enu"]}
{"id": "C43", "title": "ENU data survive the run pipeline", "statement": "Local ENU coordinates are not altered by the longitude and height preprocessing of geec run. (Refuted: an easting above 180 m is shifted by 360 m, and east/north are used as lon/lat in the geoid lookup.)", "quantifier": "all ENU datasets", "why_tests_cant": "all values", "anchors": ["geec/dataset.py: Dataset.to_lon180, to_ellipsoid_height", "geec/cli.py: run"]}
{"id": "C44", "title": "Reference-system invariant", "statement": "A CRS object can only be built in state ENU when its local frame uses the same ellipsoid; after any sequence of dataset conversions a dataset labelled ENU still has a local frame and one labelled ECEF has none. (Equality of the ellipsoids is refuted after to_enu.)", "quantifier": "all conversion sequences from any constructed dataset", "why_tests_cant": "all histories", "anchors": ["geec/crs.py: CRS.__post_init__", "geec/dataset.py: Dataset"]}
{"id": "C45", "title": "Column labels match the coordinates written", "statement": "For any observer reference system, after to_wgs84 the labels x/y/z in metres are used exactly when the coordinates are Cartesian and lon/lat/alt labels exactly when they are WGS84 geographic.", "quantifier": "all observer datasets", "why_tests_cant": "all systems; labels are frozen before conversion", "anchors": ["geec/observer.py: Observer.__post_init__, to_wgs84", "geec/cli.py: run"]}
{"id": "C46", "title": "Configuration layering", "statement": "A value read from the stacked configuration is the one of the highest-priority file that defines it: command line file, then user file, then package default; keys absent from a file never hide lower files. A file in which the path runs into a value without entries (a number, a text, null, a list under a name) raises ConfigTypeError even if a lower file defines the setting.", "quantifier": "all YAML documents and keys", "why_tests_cant": "all documents", "anchors": ["geec/config.py: setup, _default_setup"]}
{"id": "C47", "title": "Masses of different files do not mix", "statement": "The masses computed are those listed in the highest-priority file. (Partly refuted: their number is, but keys omitted in mass i are silently taken from mass i of lower-priority files.)", "quantifier": "all stacks of configurations", "why_tests_cant": "all documents", "anchors": ["geec/mass.py: get_masses", "geec/config.py: setup"]}
{"id": "C48", "title": "Coordinate source selection", "statement": "points beats file_path beats grid; a file_path that is not a file raises FileNotFoundError without falling back to the grid; with none of the three TypeError is raised. Null, false, 0 and the empty text, list or mapping count as not given; a given file_path that is no text raises a configuration error. Given points are read in order, each a row of three numbers x, y, z, and nothing else is accepted; the array holds integers exactly when every number is one.", "quantifier": "all configurations", "why_tests_cant": "all combinations", "anchors": ["geec/dataset.py: _read_coords"]}
{"id": "C49", "title": "Grid enumeration", "statement": "A grid configuration yields every point of the product of the three arithmetic progressions start, start+step, ... that come strictly before end (below it for a positive step, above it for a negative one) exactly once, x slowest and z fastest; a zero step is a ZeroDivisionError, an end at least one step behind the start a ValueError (less than a step behind: no points). The array holds integers exactly when the nine numbers are integers.", "quantifier": "all starts, ends and steps, exact real arithmetic; every arithmetic for the element type", "why_tests_cant": "all sizes", "anchors": ["geec/dataset.py: _read_coords"]}
{"id": "C50", "title": "Output rows correspond to observers", "statement": "The table written by geec run has one row per observation point, in order; the row starts with the observer's coordinates, followed by the G and the six tensor entries txx,txy,txz,tyy,tyz,tzz obtained for that observer from freshly built bodies, independently of all other rows; names, units and rows all have 12 columns.", "quantifier": "all configurations, numbers of observers and masses, every arithmetic", "why_tests_cant": "all sizes and orders; bodies are shared between rows", "anchors": ["geec/cli.py: run, add_gravity"]}
{"id": "C51", "title": "Each mass uses its own density and constant", "statement": "geec run computes the attraction of every mass with its own density and gravity_constant. (Refuted for two masses; holds when all masses share them.)", "quantifier": "all configurations", "why_tests_cant": "all configurations", "anchors": ["geec/cli.py: run lines 68-69, 81"]}
{"id": "C52", "title": "Observers and masses are in one frame", "statement": "The observer coordinates handed to the gravity computation are in the same Cartesian frame as the masses. (Refuted for every geographic, ENU or ECEF observer; holds when observers and masses are CART.)", "quantifier": "all configurations", "why_tests_cant": "all reference systems", "anchors": ["geec/cli.py: run lines 59-75"]}
{"id": "C53", "title": "Output is all or nothing", "statement": "geec run performs file-system effects only after every row has been computed: if any step raises nothing is created or written; otherwise exactly one csv file is written (none when the output argument is empty).", "quantifier": "all configurations and environments", "why_tests_cant": "all failure points", "anchors": ["geec/cli.py: run", "geec/api.py: write_file"]}
{"id": "C54", "title": "Output file name", "statement": "The file written is in the requested directory and its name is the requested one with its last suffix replaced by, or extended with, .csv; requesting a name ending in .csv writes exactly that name. (Distinct requests giving distinct files is refuted.)", "quantifier": "all output strings", "why_tests_cant": "all strings", "anchors": ["geec/api.py: write_file", "geec/cli.py: config"]}
{"id": "C55", "title": "No masses configured", "statement": "A configuration whose masses list is empty never produces output: run raises (IndexError) before reading observers.", "quantifier": "all such configurations", "why_tests_cant": "all configurations", "anchors": ["geec/cli.py: run lines 66-69"]}
{"id": "C56", "title": "Optional keys are optional", "statement": "A key whose reader has a default (vdatum, ref) may be omitted. (Refuted: printing the configuration reads every key first and raises NotFoundError, e.g. for vdatum of a mass not covered by the default file.)", "quantifier": "all configurations", "why_tests_cant": "all configurations", "anchors": ["geec/config.py: show", "geec/crs.py: read_vdatum"]}
{"id": "C57", "title": "Total gravity independent of facet, point and list order", "statement": "In exact arithmetic G and T do not depend on the order in which the hull lists its facets nor on which point of a facet comes first.", "quantifier": "all permutations of facets, renumberings of points, rotations of facet points, all observers off the epsilon bands of the edges or exactly in line with them, exact arithmetic", "why_tests_cant": "all permutations", "anchors": ["geec/polyhedron.py: Polyhedron.get_gravity, Face.get_gravity"]}
{"id": "C58", "title": "Volume form of Newton's law", "statement": "For every closed body and every well placed observer, G is density*Gc*1e5 times the volume integral of R/|R|^3 (R from the observer to the volume point), the body being cut into the signed tetrahedra that join its facets to the observer (those in whose plane it lies add nothing), or to any point q0 such that the observer is in none of the tetrahedra. In particular, for a body built from a correct convex hull, an observer outside it and any q0 in the body, it is the integral over tetrahedra that all count positively. Well placed: clear of the epsilon bands of the edges (or exactly in line with an edge, beyond its end) and, for each facet, either outside the epsilon band of its plane or exactly in it; without gradient, the edges of facets in whose plane the observer lies do not matter as long as it is no vertex.", "quantifier": "all closed bodies, well placed observers, decomposition points, densities and constants, exact real arithmetic", "why_tests_cant": "identity of functions", "anchors": ["geec/polyhedron.py: Polyhedron.get_gravity"]}
{"id": "C59", "title": "The gradient tensor is a surface integral", "statement": "For every closed body and well placed observer on no facet, the returned tensor applied to any vector e is -density*Gc*1e9 times the sum over the facets of (n.e) times the surface integral of R/|R|^3 over the facet: the gradient of a homogeneous body is the attraction of a layer spread on its surface. Well placed: clear of the epsilon bands of the edges (or exactly in line with an edge, beyond its end) and, for each facet, either outside the epsilon band of its plane or exactly in it; without gradient, the edges of facets in whose plane the observer lies do not matter as long as it is no vertex.", "quantifier": "all closed bodies, well placed observers, directions, densities and constants, exact real arithmetic", "why_tests_cant": "identity between a closed formula and integrals for a continuum of shapes", "anchors": ["geec/polyhedron.py: Polyhedron.get_gravity, Face.get_gravity, Edge.get_integral"]}
{"id": "C60", "title": "Two-sided bounds of the attraction", "statement": "For a body built from a correct convex hull, with density*Gc >= 0, whose vertices all lie beyond the plane z.(x-o)=m>0 (z a unit vector) and within the distance M of the observer o: the component of G along z is at least density*Gc*1e5*Volume*m/M^3 and |G| is at most density*Gc*1e5*Volume/m^2; the Volume enclosed by the facets is positive. In particular gravity points towards the body. Well placed: clear of the epsilon bands of the edges (or exactly in line with an edge, beyond its end) and, for each facet, either outside the epsilon band of its plane or exactly in it; without gradient, the edges of facets in whose plane the observer lies do not matter as long as it is no vertex.", "quantifier": "all correct hulls, well placed observers, separating planes, densities and constants, exact real arithmetic", "why_tests_cant": "an inequality for a continuum of shapes and observers; a sign error for some orientation would only show up on particular inputs", "anchors": ["geec/polyhedron.py: Polyhedron.get_gravity, Polyhedron.__init__"]}
{"id": "C61", "title": "Point-mass limit", "statement": "Seen from c - D*z, at a distance D >= 2R from the centre c of a ball of radius R that contains the vertices, the G of a body built from a correct convex hull differs from the attraction (density*Volume*Gc*1e5/D^2) z of its mass at c by at most the relative error 46 R/D; hence it tends to the point-mass value as D grows. Well placed: clear of the epsilon bands of the edges (or exactly in line with an edge, beyond its end) and, for each facet, either outside the epsilon band of its plane or exactly in it; without gradient, the edges of facets in whose plane the observer lies do not matter as long as it is no vertex. In double precision the same holds with the rounding bound of C72 added.", "quantifier": "all correct hulls, centres, directions, distances D >= 2R with a well placed observer, densities and constants with density*Gc >= 0, exact real arithmetic", "why_tests_cant": "a limit: no finite set of observers establishes it", "anchors": ["geec/polyhedron.py: Polyhedron.get_gravity"]}
{"id": "C62", "title": "Observers within epsilon of the plane of a facet or of the line of an edge", "statement": "At every observer that is no vertex and clear of the edges, at whatever distance of the planes of the facets, G differs from Newton's integral over the body by at most density*Gc*1e5*2*pi*eps for each facet whose plane the observer misses by at most eps. At an observer that almost lines up with edges, no vertex of the body being farther than D, G without the gradient is still returned and differs by at most a further density*Gc*1e5*4*sqrt(2*eps*D)*ln(3*D/sqrt(2*eps*D)) for each such edge of each facet.", "quantifier": "all closed bodies, all observers more than eps from the vertices and not exactly on the threshold of an edge, all densities and constants, exact real arithmetic", "why_tests_cant": "the band is far thinner than any test grid, and the claim is a bound over all observers in it", "anchors": ["geec/polyhedron.py: Face._get_omega, Edge._get_ccw_line_integrals, Polyhedron.get_gravity"]}
{"id": "C63", "title": "Exceptions of a call and their causes", "statement": "get_gravity on a body built by Polyhedron(points), in any state reached by calls that returned, raises nothing but ZeroDivisionError and ValueError, and TypeError if an edge of the body has no twin. Without the gradient, ZeroDivisionError is raised only if the computed distance of the observer to an end point of an edge equals 0, and ValueError only if for a facet at more than epsilon from the observer two consecutive side planes have unit normals whose computed scalar product lies outside [-1, 1].", "quantifier": "every arithmetic (IEEE doubles included), every hull scipy may return, all observers, densities, constants, flags and reachable object states", "why_tests_cant": "a claim about the absence of other exceptions for all inputs and all rounding behaviours", "anchors": ["geec/polyhedron.py: Polyhedron.get_gravity, Face._get_angle, Edge._line_integral_along_edge, Edge._set_twin_pqr"]}
{"id": "C64", "title": "No domain error from rounding", "statement": "In double precision a call raises no math domain error where exact arithmetic raises none.", "quantifier": "all bodies and observers with exactly representable coordinates, IEEE binary64", "why_tests_cant": "the failing observers form a thin set around the planes of slanted facets (they include observers exactly on such a facet); whether one exists at all is a claim over all inputs", "anchors": ["geec/polyhedron.py: Face._get_angle, Face._get_dangle, Face._get_omega"]}
{"id": "C65", "title": "Numbers, not nan, for finite inputs", "statement": "In double precision a call that returns normally, at an observer where exact arithmetic gives the attraction, returns finite numbers.", "quantifier": "all bodies and observers with exactly representable coordinates, IEEE binary64", "why_tests_cant": "the failing observers are those in line with oblique edges, where the comparison with epsilon fails by rounding", "anchors": ["geec/polyhedron.py: Edge._get_ccw_line_integrals, Edge._line_integral_along_edge"]}
{"id": "C66", "title": "A missing coordinate never yields a number", "statement": "If some coordinate of the observer is nan, the call returns without raising, and every component of G, and of T if asked for, is nan.", "quantifier": "IEEE binary64 with any log, acos and scalar product such that log and scalar product of nan are nan; all bodies whose edges have twins, all reachable states, densities, constants and flags", "why_tests_cant": "holds through every comparison branch of the code for every body; a single branch taken the other way would give a plausible wrong number", "anchors": ["geec/polyhedron.py: Polyhedron.get_gravity, Edge._get_ccw_line_integrals, Face._get_omega"]}
{"id": "C67", "title": "Omitted keys take the documented default", "statement": "A key left out of a configuration file takes the default documented in the shipped files: vdatum ellps, ellipsoid wgs84, ref ellps. (Refuted for every file over the packaged default: an omitted vdatum of the first mass is egm96, an omitted name of the observers' ellipsoid is airy, and semi-axes given without a name for the first mass are ignored in favour of wgs84. A key written without a value does give the documented default.)", "quantifier": "all files given on the command line over config_default.yaml, all libraries and CSV contents", "why_tests_cant": "must hold for every file that omits the key, whatever else it contains", "anchors": ["geec/cfg/config_default.yaml", "geec/crs.py: read_ellipsoid_parameters, read_vdatum, read_ref, Ellipsoid", "geec/config.py: setup"]}
{"id": "C68", "title": "Giving one source of coordinates selects it", "statement": "A file that gives exactly one of points, file_path or (for observers) grid gets the coordinates from that source. (Holds for the observers and the first mass over the packaged default; refuted when the user's own configuration file lists points, and for later masses, which raise NotFoundError.)", "quantifier": "all files over config_default.yaml, all CSV contents", "why_tests_cant": "needs every combination of present, absent and empty keys in stacked files", "anchors": ["geec/dataset.py: _read_coords", "geec/cfg/config_default.yaml", "geec/config.py: setup"]}
{"id": "C69", "title": "The shipped template is a complete configuration", "statement": "Passing the shipped template with --config yields the same masses and observers whatever the user's own configuration file contains (except a vertical datum for the observers, which the template lacks), reads no CSV file and passes the printing of the configuration.", "quantifier": "all user configuration files that are mappings, all libraries and CSV contents", "why_tests_cant": "ranges over all user files below the template", "anchors": ["geec/cfg/config_template.yaml", "geec/config.py: setup, show", "geec/mass.py: get_masses", "geec/observer.py: get_observer"]}
{"id": "C70", "title": "geec config writes the template and nothing else", "statement": "geec config either performs no file-system effect and raises, or writes exactly one file: the template unchanged, in the directory asked for, named config_template.yaml or the requested name with the suffix replaced by .yaml. It creates no directory (FileNotFoundError if it is missing) and overwrites an existing file.", "quantifier": "all output arguments, file systems and refusals by the operating system", "why_tests_cant": "ranges over all names and failures", "anchors": ["geec/cli.py: config"]}
{"id": "C71", "title": "A body is built correctly in double precision", "statement": "Polyhedron(points), computed in IEEE doubles from a correct hull, returns a body with one face per facet, every face listing its vertices counterclockwise seen from outside, with a unit normal close to the true one (error at most 2^-47 L^2/|(B-A)x(C-A)| per coordinate), and every edge paired with its reverse in another face - provided each facet spans with the centroid a volume above the rounding error ((n+1)M+8L)L^2/2^50 (n vertices, coordinates at most M, differences at most L). Integer coordinates up to 1024 and up to 500 vertices always satisfy this. Without the proviso it is false: a body of size 1 at distance 2^52 gets an inward facet or NameError.", "quantifier": "all finite double coordinates of moderate exponent, all correct hulls, both answers of the linear program", "why_tests_cant": "rounding errors depend on every bit of every coordinate", "anchors": ["geec/polyhedron.py: Polyhedron.__init__, Polyhedron._get_faces, Polyhedron._in_hull, Polyhedron._get_edge_twin", "geec/utils.py: cross_product"]}
{"id": "C72", "title": "Accuracy of gravity in double precision", "statement": "Polyhedron(points).get_gravity(observer, density, Gc) without the gradient, computed in IEEE doubles, returns normally with finite components, each within N L 10^5 R0 G0 (g^3 + g s + N)/2^35 of the value in exact arithmetic - and so, outside the body, of Gc*density*10^5 times the volume integral of Newton's kernel. N is the number of facets, |density| <= R0, |Gc| <= G0, L bounds the coordinates of the vertices relative to the observer and of the edges, twice the area of each facet is at least L^2/g, the observer is at least L/g off the plane of each facet, each edge spans with the observer an area of at least L^2/g, and consecutive side planes seen from the observer make an angle of sine at least 1/s (g <= 1024, s <= 32768); for facets perpendicular to a coordinate axis the observer may instead be exactly in the plane of the facet, even on the surface of the body, off its edges. This holds after any history of calls on the object.", "quantifier": "all bodies of up to 2^20 facets and observers with finite double coordinates of moderate exponent that meet the margins, all densities and constants, all reachable object states, every log and acos accurate to a few units in the last place, every order and fusing of the operations of a scalar product", "why_tests_cant": "rounding errors depend on every bit of every coordinate, and the bound must hold for bodies of any number of facets", "anchors": ["geec/polyhedron.py: Polyhedron.get_gravity, Face.get_gravity, Face._get_omega, Face._get_angle, Edge._get_ccw_line_integrals, Edge._line_integral_along_edge", "geec/utils.py: cross_product, sign"]}
{"id": "C73", "title": "A run from the configuration file to the table follows Newton's law", "statement": "geec run succeeds exactly when every key it prints is present, the masses and observers can be read and converted, there is at least one mass and one observer, every hull can be built and no single gravity computation fails. When masses and observers are Cartesian, the hulls are correct and every observer lies outside every body in a position the formulas accept, the run succeeds, writes one file, and each row holds the observer's coordinates and density*Gc*10^5 times the sum over the bodies of the volume integral of Newton's kernel (density and Gc of the first mass); the diagonal terms of the printed gradient add up to 0. In IEEE doubles, without the gradient and with the margins of C72, the run also succeeds, every printed component is finite and differs from Newton's value by at most J N L 10^5 R0 G0 (g^3 + g s + N + J)/2^34 for J masses of at most N facets. With the gradient (s <= 8192, L <= 2^50) the nine entries of each printed tensor are finite and within D = J N 10^9 R0 G0 (g^5 + g^2 s^3 + (N + J)(g^2 + g s))/2^29 of the sum of the exact tensors, and their diagonal adds up to at most 3 D in absolute value.", "quantifier": "all environments (files, libraries, operating system), configurations, numbers of masses, facets and observers, output names", "why_tests_cant": "correctness of the whole pipeline must hold for every configuration; a test compares a few tables with references", "anchors": ["geec/cli.py: run, add_gravity", "geec/api.py: write_file", "geec/station.py: Station.compute_gravity", "geec/polyhedron.py: Polyhedron.get_gravity", "geec/config.py: show"]}
{"id": "C74", "title": "Converting one dataset does not disturb another", "statement": "After any history of conversions (to_lon180, to_ellipsoid_height, to_ecef, to_wgs84, to_enu) on several datasets, with exceptions caught, every dataset holds what its own conversions alone make of it and every further conversion returns or raises accordingly. (True when the datasets share neither coordinate array nor CRS object, as those made by get_masses and get_observer; refuted when two datasets share a CRS object: the conversions write to it in place, so converting the first relabels the second, whose coordinates are then never converted.)", "quantifier": "all families of datasets, histories of conversions in any order and number, arrangements of shared objects", "why_tests_cant": "aliasing shows only for particular sharing patterns and call orders; all histories must be covered", "anchors": ["geec/dataset.py: Dataset.to_lon180, to_ellipsoid_height, to_ecef, to_wgs84, to_enu", "geec/crs.py: ellipsoid_height, ellps_to_ecef, enu_to_ecef, ecef_to_wgs84, ecef_to_enu, wgs84_to_enu", "geec/mass.py: to_lon180, to_ellipsoid_height, to_ecef"]}
{"id": "C75", "title": "Converting a list of masses stops at the first failure and can be tried again", "statement": "A conversion of a list of masses that raises has converted exactly the masses before the failing one, and left the failing one and the ones after it as they were. After the offending datasets are repaired a second call over the same list, if it returns, leaves every other mass converted exactly once (exact arithmetic; to_ellipsoid_height, to_ecef, to_wgs84, to_enu).", "quantifier": "all lists of masses, positions of the failure, repairs", "why_tests_cant": "the failure point is arbitrary and the state after it must be right for each", "anchors": ["geec/mass.py: to_lon180, to_ellipsoid_height, to_ecef", "geec/dataset.py: Dataset"]}
{"id": "C76", "title": "Conversions between reference systems never move a point", "statement": "Under any history of to_ecef, to_wgs84 and to_enu (any origins) on unshared datasets, with exceptions caught, every dataset denotes the Cartesian positions it denoted at the start, provided geographic data are on WGS84 and the geodesy library's functions invert each other.", "quantifier": "all datasets, histories and origins", "why_tests_cant": "round trips of every length and order", "anchors": ["geec/dataset.py: Dataset.to_ecef, to_wgs84, to_enu", "geec/crs.py"]}
{"id": "C77", "title": "Concurrent gravity computations", "statement": "Threads that call Station.compute_gravity on stations and bodies of their own get, under every schedule of their atomic operations, the results, exceptions and states they get alone, and each ends after enough steps of its own. With a lock around each get_gravity the bodies may be shared. (Without a lock two threads that share a body are refuted: both may return wrong values, or one may raise NotImplementedError or TypeError.)", "quantifier": "all numbers of threads, bodies, observers, schedules", "why_tests_cant": "schedules are unbounded and not reproducible", "anchors": ["geec/station.py: Station.compute_gravity", "geec/polyhedron.py: Polyhedron.get_gravity, Face.get_gravity, Face._add_pqr, Edge._set_twin_pqr"]}
{"id": "C78", "title": "An interrupted computation leaves a prefix sum and at most one dirty body", "statement": "If Station.compute_gravity stops after any number of operations (its own exception or KeyboardInterrupt), the station holds the sum of G over a prefix of the list, and of T over the same prefix or all but its last body; every body but the next one in the list behaves as new; bodies outside the list and other stations are untouched. Resetting that one body is enough to make all later calls right; without the reset a later call may return a wrong value.", "quantifier": "all lists of bodies, interruption points, later calls", "why_tests_cant": "every crash point must be covered", "anchors": ["geec/station.py: Station.compute_gravity", "geec/polyhedron.py: Polyhedron.get_gravity, reset"]}
{"id": "C79", "title": "Accuracy of the gradient tensor in double precision", "statement": "Polyhedron(points).get_gravity(observer, density, Gc, gradient=True), computed in IEEE doubles, returns normally; the vector is as accurate as in C72, and the nine entries of the tensor are finite and within N (g^5 + g^2 s^3 + N (g^2 + g s)) 10^9 R0 G0/2^30 of the tensor in exact arithmetic, which holds 10^4 times the partial derivatives of the exact gravity at the observer. For an observer outside the body the trace of the computed tensor is within three times that bound of 0. N, g, s, R0, G0 and the conditions on the observer are as in C72, with s <= 8192 and coordinates relative to the observer at most 2^50. This holds after any history of calls on the object.", "quantifier": "all bodies of up to 2^20 facets and observers with finite double coordinates of moderate exponent that meet the margins, all densities and constants, all reachable object states, every log and acos accurate to a few units in the last place, every order and fusing of the operations of a scalar product", "why_tests_cant": "rounding errors depend on every bit of every coordinate, and the bound must hold for bodies of any number of facets", "anchors": ["geec/polyhedron.py: Polyhedron.get_gravity, Face.get_gravity, Face._get_omega, Face._get_dangle, Edge._line_integral_along_edge", "geec/utils.py: cross_product, sign"]}
{"id": "C80", "title": "A body is a snapshot of its points, and the library never writes to the caller's arrays", "statement": "Polyhedron(points) keeps the shape the array had at that moment: whatever the program later writes to that array, to the observer arrays it passed or to the arrays it got back, get_gravity returns or raises what a body just built from the original points does (after a call on the body that raised, once reset has been called). No statement of the library changes an array the program holds, except compute_gravity, which changes the G and T of its own station: arguments are never modified and the arrays returned by a call never change later.", "quantifier": "all programs that create arrays, bodies and stations, write to any array they hold, call get_gravity, reset and compute_gravity in any order and catch the exceptions; every body, observer, density, constant and arithmetic", "why_tests_cant": "aliasing shows only for some interleaving of writes and calls, and there are infinitely many", "anchors": ["geec/polyhedron.py: Polyhedron.__init__, Polyhedron._get_faces, Polyhedron.get_gravity, Face._get_edges, Edge.__init__", "geec/station.py: Station.__init__, Station.compute_gravity"]}
{"id": "C81", "title": "A station sits where its coordinate array says now, and adds in place", "statement": "Expected: a Station stays at the coordinates it was created with. False: it keeps the caller's array, and writing to that array moves the station. What holds: compute_gravity evaluates all bodies at the point the array holds when it is called and adds their G and T, in the order of the list, to what the station's G and T hold at that moment, in those same array objects, so that an array taken from the station earlier shows the new sums; if a body raises, so does compute_gravity.", "quantifier": "all programs as in C80, all stations, lists of bodies, densities, constants and arithmetics", "why_tests_cant": "the result depends on all earlier writes to the arrays involved", "anchors": ["geec/station.py: Station.__init__, Station.compute_gravity", "geec/polyhedron.py: Polyhedron.get_gravity"]}
{"id": "C82", "title": "A local frame is the one the configuration describes", "statement": "get_crs with ref: enu returns the East-North-Up frame whose origin has exactly the configured longitude_origin, latitude_origin and altitude_origin, on the ellipsoid and vertical datum that ref: ellps with the same keys selects; whatever makes ref: ellps fail makes it fail too. A frame is never returned unless all three origin keys hold numbers. to_ecef of a dataset read with such a configuration places every point with that origin and that ellipsoid.", "quantifier": "all stacked configurations, spellings of enu, origins, ellipsoids, datums, all datasets and every arithmetic", "why_tests_cant": "a swapped or defaulted key shows only for some origins; all stacked configurations must be covered", "anchors": ["geec/crs.py: get_crs, create_local_enu_crs, read_enu_parameters, enu_to_ecef", "geec/dataset.py: get_dataset, Dataset.to_ecef"]}
{"id": "C83", "title": "Two machines agree", "statement": "Two machines with different log, acos and np.dot (any order and fusing of the operations), on which qhull lists the same facets in different orders or to which the points of a body were given in different orders, build the same body and, after any earlier calls on either, get_gravity returns on both. The gravity vectors differ in each component by at most twice the bound of C72, and with gradient=True the tensors in each entry by at most twice the bound of C79, under the conditions of C72 and C79 on the points as one machine lists them.", "quantifier": "all pairs of math libraries with log and acos correct to a few units in the last place, all scalar products, all correct hulls and relistings, observers, densities, constants and histories of calls, in IEEE double precision", "why_tests_cant": "tests run on one machine with one numpy, one BLAS and one order of the facets", "anchors": ["geec/polyhedron.py: Polyhedron.__init__, Polyhedron.get_gravity, Face.get_gravity, Face._get_omega, Edge._get_ccw_line_integrals", "geec/utils.py: cross_product, sign"]}
{"id": "C84", "title": "An observer is three numbers", "statement": "Polyhedron.get_gravity and Station.compute_gravity raise for an observer array that does not hold three numbers, and leave the station and the bodies as they were.", "quantifier": "all array shapes (any number of axes, any positive lengths), contents, bodies with facets, states, densities, constants and every arithmetic", "why_tests_cant": "broadcasting depends on the shape; infinitely many shapes", "anchors": ["geec/station.py: Station.__init__, Station.compute_gravity", "geec/polyhedron.py: Polyhedron.get_gravity, Face._get_dot_point1, Face._get_omega"]}
{"id": "C85", "title": "A body is made of points with three coordinates", "statement": "Polyhedron(points) returns a body only if points is a two-dimensional array with three columns (otherwise it raises), and the body is then made from the rows of the array.", "quantifier": "all array shapes and contents, every qhull that returns at least one facet with as many points as there are columns, and every arithmetic", "why_tests_cant": "the shape is never checked by the code: rejection depends on what every later step does with every other shape", "anchors": ["geec/polyhedron.py: Polyhedron.__init__, Polyhedron._get_faces", "geec/utils.py: cross_product"]}
{"id": "C86", "title": "Exact symmetries of the computed results", "statement": "The gradient tensor returned by a gravity computation, and the one accumulated by a station, is symmetric to the last bit. In double precision, a negated density or a negated gravity constant gives exactly the negated vector and tensor (zeros aside, whose sign may differ), or raises the same exception.", "quantifier": "all bodies, observers, densities, gravity constants and earlier calls; the first part for every arithmetic, the second for IEEE doubles with any log, acos and dot product", "why_tests_cant": "exact equality must survive rounding, overflow and non-finite values at every input, and tests compare with a tolerance at a few points", "anchors": ["geec/polyhedron.py: Polyhedron.get_gravity", "geec/station.py: Station.compute_gravity"]}
{"id": "C87", "title": "Moving an integer body does not change a bit", "statement": "In double precision, a body with integer coordinates (up to 1024, up to 500 hull vertices) and the same body moved by an integer vector give bit for bit the same gravity vector and tensor, or the same exception, at an integer observer and the observer moved likewise, provided qhull lists the same facets for both.", "quantifier": "all such bodies, moves, observers (coordinates up to 2^52), densities, gravity constants and earlier calls; any log, acos and np.dot", "why_tests_cant": "exact equality of every intermediate sign test and rounding over all bodies; a test compares a few pairs", "anchors": ["geec/polyhedron.py: Polyhedron.__init__, Polyhedron._get_faces, Polyhedron.get_gravity"]}
{"id": "C88", "title": "Mirror images and symmetric bodies", "statement": "The mirror image of a body has the mirror image of its gravity vector and gradient tensor. A body whose set of corners a rotation or reflection maps to itself (however qhull cut its facets into triangles) has, at every observer this map leaves fixed, gravity and gradient that the map leaves fixed: zero gravity at a centre of symmetry, gravity lying in a plane of symmetry, gravity along an axis of symmetry.", "quantifier": "all correct hulls, all linear isometries of either handedness with a translation, all well placed observers, densities, gravity constants and earlier calls; any in_hull", "why_tests_cant": "a mirror image reverses the orientation of every facet, so the code orders all points differently; the claim ranges over all bodies, mirrors and observers", "anchors": ["geec/polyhedron.py: Polyhedron.__init__, Polyhedron._get_faces, Polyhedron.get_gravity"]}
{"id": "C89", "title": "Only the corners of the body matter", "statement": "Two answers of qhull with the same set of corners give exactly the same gravity vector and gradient tensor: the order of points and facets, extra points inside the body, and the choice of the triangles into which a flat facet with four or more corners is cut have no influence. In double precision, on any two machines, the results for two such answers differ by at most the sum of the rounding bounds of C72 (gravity) and C79 (tensor).", "quantifier": "all pairs of correct hulls with the same corners, no three of them in line, all observers clear of the edges of both triangulations, all densities, gravity constants and earlier calls; any in_hull", "why_tests_cant": "qhull's choice of diagonals depends on its version and on rounding, and the claim ranges over all triangulations of all convex bodies; a test sees the one that qhull returned", "anchors": ["geec/polyhedron.py: Polyhedron.__init__, Polyhedron._get_faces, Polyhedron.get_gravity"]}
{"id": "C90", "title": "The computed gravity is conservative", "statement": "There is a potential, a function of the observer alone, whose gradient is the gravity vector get_gravity returns, inside and outside the body: exactly at observers outside the epsilon bands of the planes of the facets (or exactly in a plane), and up to 2 pi eps density Gc 1e5 per facet elsewhere. The work of the returned vectors along a segment that stays clear of the edges exists and is the difference of the potential between its ends, whatever facets it passes through, and the work along a closed polygon is zero, up to the same bound times its length, and exactly zero if no point of it is in a band.", "quantifier": "all closed polyhedra, all observers and all segments and closed polygons clear of the edges, all densities and gravity constants, gradient on or off, any earlier calls on the object at each point", "why_tests_cant": "a potential is a statement about all observers at once, and the work along a path sums infinitely many calls; a test compares finite differences at a few points", "anchors": ["geec/polyhedron.py: Polyhedron.get_gravity, Face.get_gravity, Edge._line_integral_along_edge"]}
{"id": "C91", "title": "The gradient tensor is Newton's volume integral, bounded, and that of a point mass from afar", "statement": "Outside the body, the tensor get_gravity returns applied to any direction e is density times Gc times 1e9 times the integral over the body of the derivative along e of Newton's law, 3 (R.e) R/|R|^5 - e/|R|^3. Hence no gradient exceeds twice that of the whole mass at the distance m of a plane that separates the observer from the body, |T e| <= 2 density Gc 1e9 Volume / m^3 |e|; and from a distance D of the centre of a ball of radius R around the body, with D at least 2R, the tensor is that of a point mass density * Volume at the centre up to a relative error 384 R/D. In double precision the nine computed entries agree with the point mass up to that error and the rounding bound of C79.", "quantifier": "all correct hulls, all observers beyond the plane of some facet and clear of the edges, all directions, all densities and gravity constants (non-negative product for the bounds), any earlier calls", "why_tests_cant": "the code sums closed forms over edges and facets; that the sum is an integral over the solid for every body and every observer is not visible in any number of samples", "anchors": ["geec/polyhedron.py: Polyhedron.get_gravity, Face.get_gravity", "geec/polyhedron.py: Face._get_omega, Edge._line_integral_along_edge"]}
{"id": "C92", "title": "Small errors of the position of a station cause small errors of its results", "statement": "If the body lies beyond a plane at the distance m in front of two observers, their gravity vectors differ by at most 2 density Gc 1e5 Volume / m^3 times the distance between the observers, and their gradient tensors, along any direction, by at most 24 density Gc 1e9 Volume / m^4 times that distance. In double precision the two computed gravity vectors differ by at most that and twice the rounding bound of C72, and the entries of the two computed tensors by at most theirs and twice the rounding bound of C79.", "quantifier": "all correct hulls, all pairs of observers in front of such a plane and clear of the edges, all densities and gravity constants of non-negative product, gradient on or off, any earlier calls; in doubles all hulls and observers C72 applies to, any libm and dot product", "why_tests_cant": "a bound on the sensitivity of the results to the input ranges over all pairs of observers and all bodies; comparing two runs shows one difference", "anchors": ["geec/polyhedron.py: Polyhedron.get_gravity, Face.get_gravity, Edge._line_integral_along_edge", "geec/station.py"]}
{"id": "C93", "title": "Small errors of the corners of a body cause small errors of its results", "statement": "Take two lists of points for which scipy returns the same triples of corner numbers, each corner moved by at most d. If both bodies lie beyond a plane at the distance m in front of the observer and have diameter at most L, the two gravity vectors differ by at most density Gc 1e5 (2 Volume / m^3 + N L^2 / m^2) d, where N is the number of facets and Volume that of the first body, and the two gradient tensors, along any direction, by at most density Gc 1e9 (24 Volume / m^4 + 2 N L^2 / m^3) d. This holds also when the code orients a triple differently in the two bodies. In double precision the computed gravity vectors differ by at most that (with 2L for L) and twice the rounding bound of C72, and the entries of the computed tensors by at most theirs and twice the rounding bound of C79.", "quantifier": "all pairs of correct hulls with the same triples, all observers in front of such a plane and clear of the edges, all densities and gravity constants of non-negative product, gradient on or off, any earlier calls; in doubles all hulls and observers C72 applies to, any libm and dot product", "why_tests_cant": "a bound on the sensitivity of the results to the coordinates ranges over all bodies and all ways of moving their corners; comparing two runs shows one difference", "anchors": ["geec/polyhedron.py: Polyhedron.__init__, Polyhedron._get_faces, Polyhedron.get_gravity, Face.get_gravity"]}
{"id": "C94", "title": "A configuration file is read as it is written", "statement": "Take a configuration file that lists its masses under the key masses, each a mapping with a density, a gravity_constant, a crs and either a list of rows of three numbers under points or, with points not given, the name of a readable file under file_path or, with neither given, a grid of three (start, stop, step) triples with non-zero steps, which stands for its nodes in order, z fastest. Then get_masses returns exactly these masses, in the order of the file, each with its own density, constant, points (in order, x y z) and reference system: cart, ecef, ellps with a named, numeric or default ellipsoid and its vertical datum, or enu with the origin written there. get_observer likewise returns the points and reference system written under observers. The order of the keys, further keys and the files of lower priority make no difference. If in addition every key that geec run shows is present (with any value), the display of the settings succeeds (with a single file and one such key missing, geec run fails and writes nothing), and geec run on such a file, with all data in cart, correct hulls and well-placed observers outside the bodies, writes a table whose gravity columns are the density of the first mass times its constant times 10^5 times the sum of the Newton volume integrals over the bodies written in the file, exactly in exact arithmetic and within a stated bound in double precision (there with the gradient too).", "quantifier": "all configuration files of that form, any number of masses and points, all files of lower priority, every arithmetic and geodesy library", "why_tests_cant": "a test reads a few files; a value taken from a neighbouring mass or from another file of the stack shows only for some of them", "anchors": ["geec/mass.py: get_masses", "geec/observer.py: get_observer", "geec/dataset.py: get_dataset, _read_coords", "geec/crs.py: get_crs, read_ellipsoid_parameters, read_enu_parameters, read_ref, read_vdatum", "geec/config.py: setup"]}
