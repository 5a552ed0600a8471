# Formal model of julienpaul/GEEC in Rocq (Coq 8.16.1)

Sources read: `/repo/geec/{polyhedron,station,utils,crs,dataset,mass,observer,config,api,cli}.py`,
`/repo/geec/cfg/*.yaml`. Nothing was run; every definition of the model cites the lines it models.

## 1. Shape of the model

| file | models |
|---|---|
| `Base.v` | Python exceptions as values, abstract arithmetic record `arith`, 3-vectors |
| `MUtils.v` | `geec/utils.py` |
| `MEdge.v`, `MFace.v` | the numerical bodies of `Edge` and `Face` |
| `MHull.v` | `Polyhedron.__init__`, `_get_faces`, `_get_edge_twin` |
| `MPoly.v` | the stateful part: caches, numpy aliasing (arrays live in a heap, `+=` writes through references), `reset`, exceptions leaving state behind; `Station` |
| `MConfig.v` | confuse views and templates as used; `geec/config.py` |
| `MCrs.v` | `geec/crs.py` |
| `MDataset.v` | `geec/dataset.py`, `mass.py`, `observer.py` |
| `MCli.v` | `geec/api.py: write_file`, `geec/cli.py: run, config`, pathlib's `with_suffix`; effects on the file system are a list of events threaded through an error monad |
| `MObj.v` | datasets as Python objects: coordinate arrays and CRS objects in a heap, conversions that write to them in place |
| `MArray.v` | the numpy arrays that bodies, stations and the calling program hold and share; programs that write to them |
| `MShape.v` | observers and points given as arrays of any shape: broadcasting, `np.dot`, truth values |
| `MThread.v` | `compute_gravity` and `get_gravity` as trees of atomic operations; schedules of threads, interruptions |
| `MReset.v` | `reset` of edges, faces and bodies called by a user |
| `MDefault.v` | the shipped `cfg/config_default.yaml` and `cfg/config_template.yaml` |
| `RArith.v` | the real-number instance `RA` of `arith` |
| `FArith.v` | the IEEE binary64 instance `FA lg ac dot` of `arith` (Coq's `SpecFloat`; `log`, `acos` and numpy's `dot` are the parameters) |

| file | proves |
|---|---|
| `SpecPoly.v` | a specification of `get_gravity` without state (independent of `MPoly.v`) |
| `PPoly.v`, `PPlain.v`, `PStation.v` | the heap machine refines that specification; histories; `Station` |
| `PUtils.v`, `PCrs.v`, `PGrid.v`, `PCli.v` | `cross_product`; reference systems and configuration; grids; the run command |
| `PCall.v`, `PNan.v`, `PReset.v`, `PRepeat.v`, `PDefault.v`, `PRun.v` | exceptions of a call; nan; resets; calls without reset; the shipped configuration; when a run succeeds |
| `PObj.v`, `PThread.v` | unshared datasets do not interfere; the atomic operations refine `MPoly.v`, threads with different objects do not interfere |
| `PArray.v` | the arrays of a body are its own; what calls read and write |
| `FReal.v`, `FErr.v`, `FDot.v`, `FHull.v`, `FNorm.v`, `FBuild.v`, `FInt.v`, `FMove.v`, `PSim.v` | doubles as rounded reals (via Flocq); numpy's `dot`; rounding errors of the constructor; two arithmetics side by side |
| `FLog.v`, `FUnit.v`, `FEdge.v`, `FOmega.v`, `FGrav.v`, `FField.v`, `FSum.v` | rounding errors of log and acos (assumption `libm`), of the edge integral, the solid angle and the sum over facets |
| `FDeriv.v`, `FTensor.v`, `FTField.v` | rounding errors of the derivative of the solid angle, of the tensor of a facet and of its sum over facets |
| `RVec.v`, `REdge.v`, `REdgeModel.v` | real vectors; line integral of 1/r along an edge; what the edge code returns |
| `RAngle.v`, `ROmega.v`, `RFace.v`, `RFacet.v` | solid angle of a triangle, its branches and gradient; what the face code returns |
| `RFlux.v`, `RVolume.v`, `RSolid.v` | integrals over triangles and tetrahedra; gravity and gradient as such integrals |
| `RPoly.v`, `RTwin.v`, `RField.v`, `RRay.v`, `RTrace.v` | closed surfaces: values, twin sums, Jacobian, crossing number, trace |
| `RPlaced.v`, `RPlacedZ.v`, `RWell.v`, `RNear.v` | observers in planes of facets, in line with edges, and next to such lines |
| `RCorners.v` | the facets of a convex body follow from its corners; results do not depend on their triangulation |
| `RPotential.v` | the potential of a body as a sum over facets; its derivative along a line; integrals of the exact and the computed gravity along a segment |
| `RTensor.v` | uniform limits of surface and volume integrals; the derivative of Newton's kernel, its bounds and Lipschitz constant; the derivative of the field as the volume integral of that derivative |
| `RMirror.v` | isometries that reverse the handedness |
| `RHull.v`, `RLaws.v`, `RLinear.v`, `RMove.v`, `RMoved.v`, `RGlue.v`, `RTri.v`, `RBound.v` | construction from a hull; exceptions; linearity; motions; gluing; triangulations; bounds |
| `RHullZ.v`, `Examples*.v` | decision procedures for integer hulls and observers; concrete cases |
| `Properties*.v` | the property theorems, each with `Print Assumptions` and a concrete case |

The whole model is parametric in `arith`, a record of scalar operations **without laws**. Theorems about
control flow, caches, aliasing, bookkeeping, configuration and I/O hold for *every* `arith`, hence for IEEE
doubles with nan and infinities. Theorems about numerical meaning (integrals, derivatives, Laplace, ...) are
for the instance `RA` (Coq's reals), i.e. exact arithmetic. Theorems about rounding (C64-C66, C71, C72, C73_double, C73_double_gradient, C79) are for the instance
`FA lg ac dot`: binary64, round to nearest even, each operation of the source rounded once, in source order (LLVM does not
contract in numba without `fastmath`) - except numpy's `dot`, which goes through BLAS. The positive theorems hold for every
`dot` of the record `dotlib` (`FDot.v`): three products, each rounded or kept exact inside a fused multiply-add, added in any
order with a rounding after each addition, and nan for nan. `plain` and `fused` are two instances. One function stands for
`np.dot` of two vectors, the rows of a matrix product and the squared length inside `np.linalg.norm`. The witnesses of C64,
C65 and C71 hold for both instances (`known_dot`). Nothing is said about overflow inside `dot`: the bounds exclude it.

`RA` is total where the code is not: `ln 0 = 0`, `x / 0 = 0`, `acos` and `sqrt` outside their domain have
junk values. The model guards the operations that raise in the code (scalar division in numba, `math.acos`,
`math.sqrt`) explicitly, so a raised exception is never lost. The unguarded ones (`log` in numba, numpy
division) give nan or inf in the code; theorems about values only reach them with arguments in the domain, or
on paths whose result is multiplied by an exact zero and which C28, C32, C62 discuss.

External libraries are parameters (record fields or function arguments), never axioms:
scipy's ConvexHull and linprog (`convex_hull`, `in_hull`), pymap3d, pygeodesy (`geolib`), pandas' `read_csv`,
the file system (`env`). What a theorem needs of them is an explicit hypothesis of that theorem. Of ConvexHull
that is `correct_hull` (`RHull.v`): simplices are non-degenerate triangles of hull vertices, all hull vertices lie on
one side of each simplex and not all in its plane, and the neighbour across a side shares exactly the opposite side.
`hullb` decides it for integer hulls, so the contract is shown satisfiable on cubes and tetrahedra.

Notions used in the statements over the reals:

* `closed p`: every facet is a triangle listed counter-clockwise about its unit normal and every edge has a
  twin, reversed, whose twin it is. Bodies built from a correct hull are closed (C25, C26); the theorems on values
  need only `closed`, so they also cover non-convex closed surfaces.
* `regular p o`: the observer is outside every epsilon band (planes and edge lines).
* `clear p o gradient`: no vertex, and for each facet either clear of its three edges (outside the band of the
  edge's line or exactly in line with it beyond an end) or, without gradient, in its plane.
* `well_placed`: `clear`, and each facet's plane is either missed by more than epsilon or met exactly.
* `steady`: outside the bands of all edge lines, planes as in `well_placed`.
* `reachable p s`: the state `s` of the caches after any calls on `p` that returned normally.
* Integrals are iterated Riemann integrals (Coquelicot `is_RInt`). `surface_integral` parametrises a triangle by
  `p1 + u((1-v)(p2-p1) + v(p3-p1))` with Jacobian `|(p2-p1)x(p3-p1)| u`; `volume_integral` sweeps a tetrahedron by dilated
  copies of its base; a body is the signed sum of the tetrahedra joining its facets to a point.

## 2. Trusted base

* Coq 8.16.1's kernel. `Print Assumptions` is run under every property theorem. The only axioms that may
  appear are those of Coq's standard library: the real-number axioms
  (`ClassicalDedekindReals.sig_forall_dec`, `ClassicalDedekindReals.sig_not_dec`),
  `FunctionalExtensionality.functional_extensionality_dep`, `Classical_Prop.classic` and
  nothing else. Section 5 lists them per theorem.
* Flocq and Coquelicot are used as libraries of proved lemmas; they add no axioms.
* Faithfulness of the model to the cited lines (by reading), and these facts about libraries, from their
  documentation for the versions pinned in `poetry.lock`:
  - numba 0.57 (default error model "python"): scalar float division by zero raises ZeroDivisionError; dividing
    an array by a scalar does not raise; `log`/`sqrt` in compiled code never raise. CPython's `math.acos` and
    `math.sqrt` raise ValueError outside their domain. numpy float64 division never raises.
  - numpy: `-a`, `a + b` allocate new arrays, `a += b` writes in place, `x = a` aliases; `a += None` raises
    TypeError; `s[1::] = ...` on a row writes through to `hull.simplices`; fancy indexing copies;
    `np.mgrid` axis rule; in-place addition of floats to an int64 array raises UFuncTypeError;
    `np.apply_along_axis` raises ValueError on an array with no rows.
  - confuse 2.0.1: view resolution (missing keys skip a source, subscripting a scalar is a ConfigTypeError),
    iteration over a list view uses the length of the first source's list and per-index subviews of all
    sources, templates `float`, `str`, `list`, `[str, None]`, `Optional(String(..))`, formatting a view reads it.
  - pymap3d 3.0.1: `ell=None` means WGS84; functions act element-wise; `Ellipsoid` asserts non-negative
    flattening. pathlib's `with_suffix` (CPython 3.11). pygeodesy's LatLon may reject a pair (`latlon_ok`).

## 3. Not modelled

Plotting, rich/loguru printing (except that `config.show` *reads* every key), the log directory, the timing
module, typer's argument parsing, YAML and CSV text syntax, the bits of `log` and `acos`,
overflow inside one scalar product (the order and the fusing of its operations are covered, `FDot.v`), the geoid grids and
pymap3d's formulas themselves, qhull and linprog algorithms (a contract is assumed where stated), non-ASCII
case folding, arrays with an axis of length 0 as observers. In the command, rows of a configuration that are not three
numbers are refused when read; the code refuses them later, at the body (C85) or at the output table.

## 4. How the properties are proved

(ids as in `properties.jsonl`; "every arith" = any arithmetic; "RA" = exact reals)

* C01, C02, C31-C33 (RA): closed form -> `ln((r1+r2+l)/(r1+r2-l))` -> antiderivative of 1/|R1+s u|; branch analysis of
  the in-line cases. In the epsilon band of the line the code integrates over the mirrored edge (C31); C62 bounds the cost.
* C03, C04 (RA): product of the three complex numbers (cos, sin of the dihedral angles) gives
  `2 atan(D/det)`; surface integral by sweeping the triangle from a vertex.
* C05, C58, C59 (RA): the same sweep for `n*omega + I x n`, then over dilated facets.
* C06, C07 (RA): derivative of each building block; twins cancel the antisymmetric part.
* C08, C09 (RA): solid angles sum to -4 pi times the crossing number of any ray: the derivative along the ray cancels
  edge by edge, jumps of 4 pi at facets, limit 0 at infinity.
* C10-C15, C57 (RA): each facet's value is a function of its oriented triangle; motions, gluing and
  retriangulation act on those.
* C16-C24 (every arith): refinement of the heap machine by a value-semantics specification, induction over histories.
  C18, C19 are refuted on a concrete body; C18's positive part says what heals the caches.
* C25-C27, C29, C30 (RA): the constructor on a correct hull; enumeration of the exceptions a call can raise.
* C28 (RA): in-plane observers; refuted with gradient on a thin set.
* C34-C37, C39-C48, C50-C56 (every arith): decision logic; `_refuted` witnesses where false.
* C38, C49 (RA): longitudes; `np.mgrid` rule per axis (`ceil((stop-start)/step)` values `start + k*step`).
* C63 (every arith): enumeration of the paths that raise. C64, C65 (doubles): witnesses by computation; the lattice parts from C72 and C79,
  whose margins an integer determinant that is not 0 provides. C66 (doubles): nan
  propagates through every branch of a call.
* C67-C70 (every arith): the shipped files evaluated symbolically.
* C71 (doubles): forward error analysis `ap x r B e` (finite, within e 2^-53 of r), sign tests decided by the margin, then a
  simulation between the double and real constructor loops.
* C72 (doubles): the same analysis in scaled units, for the edge integral (log), the solid angle (acos) and the sums; the
  cache is handled by the invariant that every stored edge value is near the integral of its edge. Facets perpendicular to an
  axis with the observer in their plane give exact zeros (`FField.v`, section Zeros).
* C73: success of a run characterised step by step (every arith); composed with C58 over RA and with C72, C79 and a
  summation bound in doubles.
* Exact forms of refuted claims (every arith unless noted): C19_repeated by an invariant on the heap after each call,
  C19_doubling (RA) from it; C42_reads_wgs84, C43_enu_exact, C47_filled_from_below, C52_geodetic_exact, C56_every_key.
* C74-C76: a frame lemma for each conversion on the object heap, induction over histories and lists (every arith; C75_retry RA).
* C77, C78 (every arith): each atomic operation touches only the objects it names; the trees of operations are shown to run
  like `MPoly.v`; schedules by induction from the right, interruption points by splitting the tree at each bind.
* C79 (doubles): the analysis of C72 carried through the gradient branches (derivatives of the edge integral and of the solid
  angle in units of 1/L), then C06 and C08 on the exact side.
* C80, C81 (every arith): an invariant on the memory (arrays of bodies are unreachable for the program, stations own their sums),
  induction over programs. C82 (every arith): case analysis on what each key holds.
* C84, C85 (every arith): case analysis on shapes read from the last axis.
* C86: (every arith) induction over the facets; (doubles) rounding commutes with the sign.
* C87 (doubles): the code reads points only through differences, which are exact for integers; orientation by the margin of C71.
* C88: a mirror is a rotation (C12) followed by the reflection in a point, under which every term of every facet changes by a sign; symmetric bodies by C89.
* C89: group the facets by outward normal. An observer-free solid angle argument shows that each plane carrying facets of one triangulation carries facets of the other; the boundary edges of a group are determined by the corners in its plane (all lie on one side of it); the theorem on recut flat faces (RTri.v) then applies group by group. In doubles: C72 and C79 for each triangulation.
* C90: the potential is half the sum over facets of height times the integral of 1/r over the facet, itself height times solid angle plus edge terms. Differentiating along a line, edge terms of twin edges cancel and the sum of the field remains; at a facet plane the product height times solid angle is squeezed by 2 pi times the height. The work is then the fundamental theorem of calculus, and the computed field, cut at the bands, is integrable piece by piece.
* C91: difference quotients of the kernel converge to its derivative uniformly on a convex set away from the observer (mean value theorem and an explicit Lipschitz constant), so that their integrals converge too; the field is the volume integral of the kernel (C58), and its derivative is the tensor. Bounds of the kernel then carry over as in C60 and C61.
* C92: the kernel of gravity is Lipschitz beyond a plane (mean value theorem with the bound of its derivative), and so is that of the tensor (C91); the difference of the results is the integral of the difference of the kernels over one family of tetrahedra. C72 adds the rounding, here and in C61_double.
* C93: the tetrahedra of the two bodies with apex at a corner are compared at equal parameters: their volumes differ by at most d L^2 and corresponding points by at most d. A triple oriented differently in the two bodies spans tetrahedra with volumes at most d L^2 together. C79 adds the rounding of the tensor, in C91, C92 and C93; C72 and C79 likewise carry C10 and C14 to doubles
* C94: the entries of a mapping are described as lists of pairs, without the lookup of the model; the readers are then run on paths below the first file, which no lower file can shadow; C94_newton and C94_double compose this with C73, so that their hypotheses speak of the file, the hull library and the geometry only
* C83 (doubles): the conditions of C72 and C79 carried over to the relisted hull, then C57 on the exact side.
* C60, C61 (RA): monotonicity of the integrals of C58.
* C62 (RA): `|omega| < 2 pi` in the bands of planes; mirrored edge integrals are logarithmic and multiplied by small
  moments near lines.

Names: `Cnn_..._refuted` proves the negation of (part of) the claim on a witness, `Cnn_..._partial` proves part of it.
Both lead to status "partial" in `MANIFEST.json`.

## 5. Results and assumptions

See `MANIFEST.json` for the theorem names per property and `rocq/theories/Properties*.v` for the statements.
Output of `Print Assumptions`, per theorem:

**Closed under the global context** (no axioms):

C10_same_outcome, C16_history_independent, C17_aliasing_harmless, C18_failed_call_corrupts_refuted,
C18_normal_return_heals_partial, C18_reset_heals_partial, C19_face_repeat_refuted, C19_repeated,
C19_reset_repeat_partial, C20_single_body, C20_superposition, C21_accumulation, C22_argument_check,
C23_prefix_sum, C24_gradient_flag, C27_cannot_work, C34_cross_product_rows, C34_cross_product_vectors,
C35_reference_default, C35_reference_names, C36_vdatum_names_partial, C36_vdatum_names_refuted,
C37_ellipsoid_selection, C37_given, C38_lon180_only_longitude, C39_ellipsoid_height, C40_to_ecef_position,
C41_to_wgs84_position, C42_reads_wgs84, C42_to_enu_other_ellipsoid_refuted, C42_to_enu_other_origin_refuted,
C42_to_enu_position_partial, C43_enu_exact, C43_enu_pipeline_partial, C43_enu_pipeline_refuted,
C44_crs_invariant, C44_enu_ellipsoid_at_construction, C44_enu_ellipsoid_refuted, C44_no_attribute_error,
C45_labels, C46_layering, C46_wrong_shape, C47_filled_from_below, C47_masses_count_partial,
C47_masses_mix_refuted, C47_self_contained_partial, C48_given, C48_points, C48_source_selection, C49_integers,
C50_rows, C51_own_density_refuted, C51_shared_density_partial, C52_cartesian_partial, C52_frames_refuted,
C52_geodetic_exact, C53_all_or_nothing, C54_distinct_requests_refuted, C54_file_name, C55_no_masses,
C56_every_key, C56_optional_vdatum_refuted, C56_reader_defaults_partial, C63_causes, C63_only_these,
C66_nan_observer, C67_documented_defaults_refuted, C67_null_keys_partial, C67_omitted_keys, C68_chosen_source,
C68_chosen_source_refuted, C69_template, C70_config_command, C73_success, C74_pipeline, C74_separate,
C74_shared_crs, C74_shared_refuted, C75_batch, C76_positions, C77_locked, C77_separate_threads,
C77_shared_body_raises_refuted, C77_shared_body_refuted, C78_interrupted, C78_no_reset_refuted, C78_recovery,
C80_snapshot, C80_snapshot_reset, C80_untouched, C81_now, C81_refuted, C82_frame, C82_origin, C82_placed,
C84_observer_exact, C84_one_number_refuted, C84_station_exact, C85_three_columns, C86_negated,
C86_station_symmetric, C86_symmetric, C94_incomplete, C94_masses, C94_observers, C94_show

**Axioms** `ClassicalDedekindReals.sig_forall_dec`, `ClassicalDedekindReals.sig_not_dec`, `Classical_Prop.classic`, `FunctionalExtensionality.functional_extensionality_dep`
(all of Coq's standard library):

C01_line_integral, C02_reversed, C02_reversed_gradient, C03_solid_angle_flux, C04_solid_angle_range,
C05_facet_integral, C06_jacobian, C07_copied_triangle, C07_facet_copy_refuted, C08_crossing_number,
C08_outside_hull, C08_ray, C08_separated, C09_inside_hull, C10_double, C10_double_tensor, C10_linear,
C11_translation, C12_rotation, C13_scaling, C14_double, C14_double_tensor, C14_facet_cancels, C14_glued,
C15_fan_point, C15_polygon, C15_quadrilateral, C15_triangulation, C19_doubling, C25_outward_facets, C26_twins,
C27_not_needed, C28_gradient_raises_refuted, C28_in_plane, C28_in_plane_gradient, C29_only_vertices,
C29_only_zero_division, C29_vertex_raises, C30_no_exception, C31_mirrored, C31_near_line_refuted,
C32_inside_edge, C32_inside_edge_refuted, C33_gradient_sign_refuted, C33_negated, C34_vector_product,
C38_out_of_range_refuted, C38_ranges, C49_errors, C49_grid, C57_order_independent, C58_cones, C58_hull,
C58_volume, C59_tensor_surface, C60_bounds, C60_volume, C61_double, C61_point_mass, C62_band, C62_near_lines,
C62_near_lines_cones, C63_integer_bodies, C64_domain_error_refuted, C64_lattice_partial, C65_finite_refuted,
C65_lattice_partial, C66_integer_bodies, C71_built_in_doubles, C71_far_body_refuted, C71_integer_bodies,
C72_accuracy, C73_double, C73_double_gradient, C73_newton, C75_retry, C79_tensor_accuracy, C83_gravity,
C83_tensor, C87_translation, C88_axis_of_symmetry, C88_centre_of_symmetry, C88_mirror_image,
C88_plane_of_symmetry, C88_symmetric_body, C89_corners_only, C89_double_gravity, C89_double_tensor, C90_loop,
C90_potential, C91_bound, C91_double, C91_point_mass, C91_tensor_volume, C92_double, C92_double_tensor,
C92_gravity, C92_tensor, C93_corners, C93_double, C93_double_tensor, C93_tensor, C94_double, C94_newton

Primitive constants of the standard library's reals (`Rdefinitions.RbaseSymbolsImpl.*`, sealed by an opaque module, with
bodies) also show up in listings of all loaded libraries, as does `ssrunder.Under_rel` from Coq's ssreflect; no theorem depends on
the latter.

## 6. Findings about the code

* After an exception a polyhedron's caches are stale and the next call may return a wrong number (C18); `Face.get_gravity` called
  directly twice differs (C19).
* Conversions write to the CRS object of a dataset in place: datasets sharing one are relabelled together (C74). A body shared by
  two threads gives wrong values or spurious exceptions (C77); an interrupted call leaves its body dirty until `reset` (C78). A `Station` keeps the
  caller's coordinate array: writing to it moves the station (C81); a `Polyhedron` copies its points (C80).
* `chsgn` multiplies the edge integral but not its gradient (C33; harmless in the totals).
* Within epsilon of the line through an edge, beyond its end, the code returns minus the integral over the mirrored edge (C31). An
  observer inside an edge gets a finite value (C32). An observer exactly at the threshold can divide by zero (C28).
* The fallback loop of `_get_faces` reads an undefined name (C27).
* `egm2008` is rejected, `egm08` accepted (C36). `to_enu` ignores the ellipsoid and origin of the data (C42, C44). ENU
  eastings above 180 m are shifted by 360 m by `to_lon180` in the run pipeline (C43).
* `geec run` uses the density and constant of the first mass for all (C51), hands WGS84 degrees of observers to bodies in ECEF
  metres (C52), and maps distinct requests to the same file (C54).
* In doubles `math.acos` gets arguments beyond 1 for observers in the plane of a slanted facet: ValueError (C64). An observer in line
  with an oblique edge can get nan (C65). A nan coordinate gives nan without an exception (C66). A small body far
  from the origin gets an inward facet or NameError (C71).
* A hull that lists a facet twice leads to TypeError (C63).
* An omitted `vdatum` of the first mass is silently egm96, an omitted ellipsoid of observers silently `airy`, semi-axes without a
  name are ignored; later masses with omitted keys raise NotFoundError (C67). Points of a user file override `file_path` from
  the command line (C68). The template has no observers' `vdatum` and uses degrees as metres (C69, C52). `geec config`
  overwrites silently (C70).
* A station whose array holds a single number stands at that number in all three coordinates (C84).
* `Polyhedron.reset` heals any history (C18).
* Keys omitted in mass i are taken from mass i of lower-priority files (C47); printing the configuration makes
  optional keys mandatory (C56).

## 7. Seeded faults

`seeded/LOG.jsonl` records edits of the model made in a scratch copy, each a realistic bug, with the theorems that stopped
proving and those tightened because they had not.
