{
 "claims": [
  {
   "property": "C01",
   "status": "proved",
   "theorems": [
    "C01_history",
    "C01_no_leak",
    "C01_reserve",
    "C01_overflow_refuted"
   ],
   "note": "For every history of operations whose lengths stay within the stated limit; C01_overflow_refuted shows the limit is needed because growth doubles a 32-bit capacity."
  },
  {
   "property": "C02",
   "status": "partial",
   "theorems": [
    "C02_push_own_partial",
    "C02_push_own_refuted"
   ],
   "note": "Holds when the buffer has spare capacity or T is trivially movable (C02_push_own_partial). C02_push_own_refuted exhibits the failing case: full buffer of a non-trivial T."
  },
  {
   "property": "C03",
   "status": "proved",
   "theorems": [
    "C03_equality",
    "C03_lexicographic",
    "C03_order",
    "C03_derived"
   ],
   "note": "All six comparison operators, for every element order that is a strict total order."
  },
  {
   "property": "C04",
   "status": "proved",
   "theorems": [
    "C04_history",
    "C04_no_leak",
    "C04_number_refuted",
    "C04_assign_own_part_refuted"
   ],
   "note": "Every history within the int32 size limit, with ownership and no-leak. Two refuted corners: String(double) of a number printing more than 32 chars reads past its buffer; assigning an overlapping part of itself is a memcpy overlap."
  },
  {
   "property": "C05",
   "status": "proved",
   "theorems": [
    "C05_compare",
    "C05_operators",
    "C05_string_operators",
    "C05_total_order",
    "C05_starts_with",
    "C05_ends_with",
    "C05_starts_ends_char"
   ],
   "note": "StringView and String operators, starts_with, ends_with; views need not be terminated."
  },
  {
   "property": "C06",
   "status": "proved",
   "theorems": [
    "C06_find_first_of",
    "C06_find_first_not_of",
    "C06_find_last_of",
    "C06_string_find_last_of",
    "C06_find_first_of_substring",
    "C06_substr",
    "C06_removeLeadingSpaces"
   ],
   "note": "All searches, substr, removeLeadingSpaces."
  },
  {
   "property": "C07",
   "status": "proved",
   "theorems": [
    "C07_token",
    "C07_tokens",
    "C07_runs_unique"
   ],
   "note": "Per call and for the whole token loop; the run decomposition is unique."
  },
  {
   "property": "C08",
   "status": "partial",
   "theorems": [
    "C08_round_trip",
    "C08_malformed_refuted"
   ],
   "note": "Round trip for all printed int32 tables. The claim about malformed text is false of the code (refuted theorem): blank lines and fields cut the table, non-numbers read as 0."
  },
  {
   "property": "C09",
   "status": "proved",
   "theorems": [
    "C09_insertionSort"
   ],
   "note": "Exact model over slots with moved-from values; result is the unique stable sorted permutation, no undefined behaviour."
  },
  {
   "property": "C10",
   "status": "proved",
   "theorems": [
    "C10_sort3",
    "C10_sort4"
   ],
   "note": "sort3 and sort4 for every strict weak order."
  },
  {
   "property": "C11",
   "status": "proved",
   "theorems": [
    "C11_sortPermutation",
    "C11_applyPermutation",
    "C11_invertPermutation",
    "C11_invert_involutive",
    "C11_apply_then_inverse"
   ],
   "note": "sortPermutation is relative to std::sort's contract (a parameter of the model, with a witness that the contract is satisfiable)."
  },
  {
   "property": "C12",
   "status": "proved",
   "theorems": [
    "C12_roundtrip2_32",
    "C12_roundtrip2_64",
    "C12_roundtrip3_32",
    "C12_roundtrip3_64",
    "C12_limits",
    "C12_codes2_32",
    "C12_codes2_64",
    "C12_codes3_32",
    "C12_codes3_64"
   ],
   "note": "All four width/dimension instances, all in-range coordinates and all codes."
  },
  {
   "property": "C13",
   "status": "proved",
   "theorems": [
    "C13_bmi_encode",
    "C13_bmi_decode",
    "C13_bmi_decode3_unused_bits_refuted",
    "C13_dominance2_32",
    "C13_dominance2_64",
    "C13_dominance3_32",
    "C13_dominance3_64",
    "C13_float2_32",
    "C13_float2_64",
    "C13_float3_32",
    "C13_float_cells",
    "C13_mortonLess",
    "C13_float_roundtrip"
   ],
   "note": "BMI2 and portable branches agree on every input encoding can produce; they differ on unused high bits (refuted theorem). Float versions for every monotone rounding exact on 0 and the scale."
  },
  {
   "property": "C14",
   "status": "proved",
   "theorems": [
    "C14_sum",
    "C14_mean",
    "C14_median",
    "C14_variance",
    "C14_stdDev"
   ],
   "note": "Exact real arithmetic; rounding not modelled."
  },
  {
   "property": "C15",
   "status": "partial",
   "theorems": [
    "C15_mat_vec",
    "C15_mat_mat_partial",
    "C15_mat_mat_refuted",
    "C15_mat_entrywise",
    "C15_vec_entrywise",
    "C15_vec_scalar",
    "C15_associative",
    "C15_identity",
    "C15_inv",
    "C15_rotation",
    "C15_rotation_add",
    "C15_det",
    "C15_cross2",
    "C15_cross3",
    "C15_cross3_formula",
    "C15_dot",
    "C15_norm",
    "C15_normalized",
    "C15_distance",
    "C15_compare",
    "C15_order",
    "C15_minmax"
   ],
   "note": "All operators hold for every element arithmetic; the Mat*Mat product is proved for square right operands (P = N) and refuted otherwise (C15_mat_mat_refuted): the loop runs to N instead of P."
  },
  {
   "property": "C16",
   "status": "partial",
   "theorems": [
    "C16_addressing",
    "C16_transpose",
    "C16_transpose_involution",
    "C16_mat_vec",
    "C16_mat_mat",
    "C16_entrywise",
    "C16_identity",
    "C16_matmul_partial",
    "C16_matmul_refuted"
   ],
   "note": "Everything holds except matmul(C, A, B) = A * B: the code adds to C (C16_matmul_partial, C16_matmul_refuted)."
  },
  {
   "property": "C17",
   "status": "proved",
   "theorems": [
    "C17_solveQuadratic",
    "C17_discriminant"
   ],
   "note": "Exact real arithmetic; all coefficient triples."
  },
  {
   "property": "C18",
   "status": "proved",
   "theorems": [
    "C18_solveCubic",
    "C18_constants",
    "C18_quadratic",
    "C18_deflation"
   ],
   "note": "Exact real arithmetic, with the program's float and double constants. Stronger than the property: the Newton loop is shown to end only at an exact root, so the deflation root is exact whenever the function returns; the loop need not terminate in exact arithmetic."
  },
  {
   "property": "C19",
   "status": "proved",
   "theorems": [
    "C19_numbering",
    "C19_totalNumCells",
    "C19_tiling",
    "C19_centroid",
    "C19_from_box"
   ],
   "note": "Every dimension; exact real arithmetic, int32 indices with overflow as UB."
  },
  {
   "property": "C20",
   "status": "proved",
   "theorems": [
    "C20_containing",
    "C20_containing_box",
    "C20_intersecting",
    "C20_far_point_refuted"
   ],
   "note": "Every dimension, exact real arithmetic. Refuted corner: a point more than 2^31 cells away makes the float-to-Int cast undefined."
  },
  {
   "property": "C21",
   "status": "partial",
   "theorems": [
    "C21_numbering",
    "C21_tiling",
    "C21_from_box",
    "C21_from_boxes",
    "C21_from_lattice",
    "C21_lattice_layout",
    "C21_flat_index_refuted"
   ],
   "note": "Numbering, tiling, construction from boxes and from a lattice proved. The clause that an index outside the grid is never mapped onto another cell is false (refuted theorem: the assertion compares with the number of divisions)."
  },
  {
   "property": "C22",
   "status": "proved",
   "theorems": [
    "C22_from_lattice",
    "C22_regular"
   ],
   "note": "Rectilinear partition from a lattice of ids (2D) and regular partitions of every dimension."
  },
  {
   "property": "C23",
   "status": "proved",
   "theorems": [
    "C23_join",
    "C23_laws",
    "C23_add_point",
    "C23_boundingBox",
    "C23_contains",
    "C23_intersects",
    "C23_empty",
    "C23_empty_far_refuted",
    "C23_scale",
    "C23_measures"
   ],
   "note": "for every type whose operator< is a total order; neutrality of the empty box holds within infDistance of the origin and is refuted beyond"
  },
  {
   "property": "C24",
   "status": "partial",
   "theorems": [
    "C24_intersect_partial",
    "C24_min_face_refuted",
    "C24_max_face_refuted",
    "C24_far_refuted"
   ],
   "note": "exact for all directions except rays lying in the plane of a face, where the code is wrong (refuted), and parameters up to infDistance (refuted beyond)"
  },
  {
   "property": "C25",
   "status": "proved",
   "theorems": [
    "C25_intersect",
    "C25_isLeft"
   ],
   "note": "in exact arithmetic extended with infinities and NaN; the buffer is also written on a miss (see C46)"
  },
  {
   "property": "C26",
   "status": "proved",
   "theorems": [
    "C26_closest",
    "C26_rotation"
   ],
   "note": "exact arithmetic, any dimension"
  },
  {
   "property": "C27",
   "status": "partial",
   "theorems": [
    "C27_triangle",
    "C27_degenerate_refuted",
    "C27_quadrilateral",
    "C27_triangle_orientation",
    "C27_quadrilateral_orientation",
    "C27_convex",
    "C27_isCCW",
    "C27_quadratic_triangle_flip",
    "C27_quadratic_quadrilateral_flip_refuted"
   ],
   "note": "Containment equals convex hull for triangles of positive area and convex quadrilaterals of positive area; flips proved for linear cells and 6-node triangles. Missing: the 8-node quadrilateral's flip moves mid nodes to other edges (refuted), flat triangles (refuted)."
  },
  {
   "property": "C28",
   "status": "proved",
   "theorems": [
    "C28_edges",
    "C28_area",
    "C28_area_affine",
    "C28_cyclic",
    "C28_reverse",
    "C28_cut",
    "C28_rectangle",
    "C28_centroid",
    "C28_centroid_affine",
    "C28_triangle",
    "C28_quadrilateral",
    "C28_perimeter",
    "C28_perimeter_isometry",
    "C28_meanChordLength"
   ],
   "note": "Any number of vertices; area, centroid, perimeter, mean chord length over exact reals."
  },
  {
   "property": "C29",
   "status": "proved",
   "theorems": [
    "C29_interpolates",
    "C29_forms",
    "C29_jacobian",
    "C29_bounding_box",
    "C29_enclosed_area",
    "C29_enclosed_centroid",
    "C29_curves_left",
    "C29_intersect",
    "C29_hits_distinct_refuted",
    "C29_hits_sorted_refuted"
   ],
   "note": "Exact real arithmetic. Unit ray direction. Tangent hits are reported twice and hits are not ordered along the ray (refuted theorems). Segment/segment intersection not modelled."
  },
  {
   "property": "C30",
   "status": "proved",
   "theorems": [
    "C30_area",
    "C30_area_straight",
    "C30_straight",
    "C30_perimeter",
    "C30_centroid",
    "C30_contains",
    "C30_boundingBox",
    "C30_intersect",
    "C30_flip_triangle",
    "C30_flip_quadrilateral_refuted"
   ],
   "note": "area, perimeter, centroid, mean chord length, bounding box, containment and ray hits of quadratic polygons in exact real arithmetic; C30_flip_quadrilateral_refuted records that flipping a quadratic quadrilateral does not negate its area. Self-intersection repair is not modelled."
  },
  {
   "property": "C31",
   "status": "proved",
   "theorems": [
    "C31_total",
    "C31_vertices",
    "C31_affine",
    "C31_polynomials",
    "C31_linear_edges",
    "C31_quadratic_edges",
    "C31_jacobian",
    "C31_segment",
    "C31_segment_affine"
   ],
   "note": "exact real arithmetic; vertices, affine invariance, edges and jacobian of Triangle, Quadrilateral, QuadraticTriangle, QuadraticQuadrilateral and LineSegment in any dimension (quadratic segments are in C29)"
  },
  {
   "property": "C32",
   "status": "proved",
   "theorems": [
    "C32_parameters",
    "C32_origins",
    "C32_spacing",
    "C32_modular",
    "C32_cyclic"
   ],
   "note": "exact real arithmetic; the number of rays must fit an Int. At exactly pi/2 real arithmetic gives no y rays (the code then divides by zero); rounding of pi/2 hides this in floating point."
  },
  {
   "property": "C33",
   "status": "proved",
   "theorems": [
    "C33_history",
    "C33_getters",
    "C33_undisturbed",
    "C33_returned_ids"
   ],
   "note": "any history of additions, translations and reservations; sizes are unbounded naturals (Int overflow of sizes is covered for Vector in C01)"
  },
  {
   "property": "C34",
   "status": "proved",
   "theorems": [
    "C34_rejected",
    "C34_accepted",
    "C34_names_unique"
   ],
   "note": "every state reached by a history and every call; duplicate names, empty id lists and misfitting data leave the soup unchanged"
  },
  {
   "property": "C35",
   "status": "partial",
   "theorems": [
    "C35_sortElsets",
    "C35_empty_refuted"
   ],
   "note": "proved for every well-formed soup with at least one elset; a soup without elsets is undefined behaviour (C35_empty_refuted)"
  },
  {
   "property": "C36",
   "status": "partial",
   "theorems": [
    "C36_append",
    "C36_well_formed",
    "C36_empty_refuted",
    "C36_self_refuted",
    "C36_mixed_data_refuted"
   ],
   "note": "proved when the appended soup is another one and has elements; without elements it is undefined behaviour (C36_empty_refuted), as is a += a (C36_self_refuted), and mixed data break well-formedness (C36_mixed_data_refuted)"
  },
  {
   "property": "C37",
   "status": "proved",
   "theorems": [
    "C37_getSubset",
    "C37_unknown",
    "C37_unsorted"
   ],
   "note": "for an initially empty subset and elsets with strictly ascending ids, as the code requires; unknown names and unsorted ids are errors without effect"
  },
  {
   "property": "C38",
   "status": "proved",
   "theorems": [
    "C38_compare",
    "C38_zero"
   ],
   "note": "for every pair of soups and every tolerance predicate"
  },
  {
   "property": "C39",
   "status": "proved",
   "theorems": [
    "C39_roundtrip",
    "C39_append",
    "C39_kept_unique",
    "C39_edges_refuted",
    "C39_names_refuted",
    "C39_z_refuted",
    "C39_append_refuted",
    "C39_length_refuted"
   ],
   "note": "Proved for every soup whose elements have as many vertices as their type says, whose elements are not all edges, lines or vertices, and whose element set names are names of data sets that do not collide. The refuted theorems show what happens otherwise: quadratic edges are written but not readable, colliding names stop the writer, heights within the tolerance are lost, reading into a non empty soup does not renumber."
  },
  {
   "property": "C40",
   "status": "proved",
   "theorems": [
    "C40_read",
    "C40_append",
    "C40_repeated",
    "C40_comment_refuted",
    "C40_comma_refuted",
    "C40_long_refuted",
    "C40_blank_refuted",
    "C40_case_refuted",
    "C40_ids_refuted",
    "C40_rejects"
   ],
   "note": "Abaqus. Comments inside a section, a last id without comma, lines of 1024 characters or more, blank lines among nodes, lower case keywords and node ids other than the positions are refuted (C40_*_refuted). VTK files are C68."
  },
  {
   "property": "C41",
   "status": "proved",
   "theorems": [
    "C41_vtk_xdmf",
    "C41_codes_injective",
    "C41_vertices",
    "C41_infer",
    "C41_infer_refuted",
    "C41_getElemTypes",
    "C41_meshType",
    "C41_meshType_order"
   ],
   "note": "All tables and all lists of types. The comment in element_types.hpp that the vertex count identifies the type is refuted for QuadraticEdge."
  },
  {
   "property": "C42",
   "status": "proved",
   "theorems": [
    "C42_round_trip",
    "C42_to_soup",
    "C42_from_soup",
    "C42_rejected",
    "C42_nonplanar_refuted"
   ],
   "note": "mesh to soup and back, element type refusal; non-planar soups lose vertices (refuted)"
  },
  {
   "property": "C43",
   "status": "proved",
   "theorems": [
    "C43_populateVF",
    "C43_incident_faces",
    "C43_incident_count",
    "C43_incident_ascending",
    "C43_bad_id_ub",
    "C43_never_stale"
   ],
   "note": "exact compressed incidence lists; never stale over any history of modifiers"
  },
  {
   "property": "C44",
   "status": "proved",
   "theorems": [
    "C44_mortonSort",
    "C44_mortonSortVertices",
    "C44_mortonSortFaces",
    "C44_triangles",
    "C44_code_unique",
    "C44_translated_refuted"
   ],
   "note": "for every std::sort and every defined code; triangle meshes at the origin are sorted by the cells of their bounding box, translated ones are undefined (refuted)"
  },
  {
   "property": "C45",
   "status": "partial",
   "theorems": [
    "C45_flipFace_partial",
    "C45_quad8_refuted",
    "C45_edges"
   ],
   "note": "quadratic quads: mid-edge vertices 5 and 6 are not exchanged (refuted), proved for the other kinds"
  },
  {
   "property": "C46",
   "status": "proved",
   "theorems": [
    "C46_faceContaining",
    "C46_intersect",
    "C46_intersect_offsets",
    "C46_polygons",
    "C46_exact_buffer_refuted"
   ],
   "note": "edge intersections are a parameter; the buffer needs one slot more than hits (refuted otherwise)"
  },
  {
   "property": "C47",
   "status": "proved",
   "theorems": [
    "C47_sortRayMeshIntersections",
    "C47_traversed_in_order",
    "C47_by_entry_refuted"
   ],
   "note": "exact rearrangement, order by first segment, traversal order for non-overlapping segments; general order by entry coordinate refuted"
  },
  {
   "property": "C48",
   "status": "partial",
   "theorems": [
    "C48_check_partial",
    "C48_orientation_refuted",
    "C48_bounds_refuted"
   ],
   "note": "exact acceptance criterion and bounds proved; that the two uses of an edge have opposite orientation, and absence of out-of-bounds reads for closed or empty meshes, are refuted"
  },
  {
   "property": "C49",
   "status": "proved",
   "theorems": [
    "C49_table",
    "C49_zaid",
    "C49_no_mass",
    "C49_unknown",
    "C49_distinct",
    "C49_distinct_refuted"
   ],
   "note": "table, 1000Z+A with separators and trailing text, unknown symbols rejected, distinct below mass number 1000 (above: refuted)"
  },
  {
   "property": "C50",
   "status": "proved",
   "theorems": [
    "C50_table",
    "C50_addNuclide",
    "C50_addNuclide_refuses",
    "C50_weight",
    "C50_weight_refuses",
    "C50_weights",
    "C50_weights_order",
    "C50_atoms",
    "C50_atoms_zero",
    "C50_history",
    "C50_setUO2",
    "C50_setUO2_refuses",
    "C50_symbol"
   ],
   "note": "exact arithmetic; setUO2's masses differ slightly from the table's, so its mass is stated with its own; setUO2 refuses w = 0, an enrichment without U238 and pure Gd2O3 although its assertions allow them (C50_setUO2_refuses)"
  },
  {
   "property": "C51",
   "status": "proved",
   "theorems": [
    "C51_validated",
    "C51_tabulated",
    "C51_below",
    "C51_above",
    "C51_between",
    "C51_monotone_between",
    "C51_monotone",
    "C51_range",
    "C51_consistent",
    "C51_fissile",
    "C51_fissile_refuted"
   ],
   "note": "exact arithmetic; the fissile flag is preserved only when the table entries agree on it, and C51_fissile_refuted shows it is lost otherwise; interpXS on an empty table is out of bounds, excluded by table"
  },
  {
   "property": "C52",
   "status": "proved",
   "theorems": [
    "C52_sum",
    "C52_order",
    "C52_linear",
    "C52_consistent",
    "C52_validates",
    "C52_rejects",
    "C52_in_library"
   ],
   "note": "exact arithmetic; the warnings of validate are counted, the result always passes validation and raises no warning for physical data"
  },
  {
   "property": "C53",
   "status": "proved",
   "theorems": [
    "C53_mean",
    "C53_range",
    "C53_uniform",
    "C53_consistent",
    "C53_order",
    "C53_collapse",
    "C53_collapse_range"
   ],
   "note": "exact arithmetic; face areas are an argument of the model (the area functions are C28, C30); a zero total area divides by zero and is excluded by cell_ok"
  },
  {
   "property": "C54",
   "status": "proved",
   "theorems": [
    "C54_average",
    "C54_balance",
    "C54_nonsingular",
    "C54_single_refuted",
    "C54_attenuation_unit",
    "C54_attenuation_refuted",
    "C54_quadrature",
    "C54_amplification",
    "C54_rows",
    "C54_flat",
    "C54_spectral",
    "C54_repeatable"
   ],
   "note": "p >= 2; p = 1 is refuted (diagonal overwritten by the corner entry). linearSolve and eigvals are LAPACK: solver is a hypothesis (gives an inverse when there is one; nonsingularity is proved), eigvals an arbitrary function."
  },
  {
   "property": "C55",
   "status": "proved",
   "theorems": [
    "C55_history",
    "C55_append_only",
    "C55_rejected",
    "C55_material",
    "C55_meshes",
    "C55_cell",
    "C55_rtm_missing",
    "C55_rtm",
    "C55_rtm_fits",
    "C55_row_heights_refuted",
    "C55_release_mismatch_refuted",
    "C55_release_ragged_refuted",
    "C55_lattice_missing",
    "C55_lattice_ragged",
    "C55_lattice",
    "C55_assembly",
    "C55_core_again",
    "C55_core_missing",
    "C55_core",
    "C55_empty_undefined",
    "C55_totals",
    "C55_pin_cell",
    "C55_material_wrap_refuted",
    "C55_pin_mesh_left_refuted",
    "C55_pin_without_mesh_refuted",
    "C55_rect_pin"
   ],
   "note": "Every history of the building calls (with and without assertions and exit_on_error) keeps all ids valid and the parts consistent; calls only append; acceptance of each call characterised. Refuted parts of the English statement: row heights are never checked (C55_row_heights_refuted); without assertions no extents are (C55_release_mismatch_refuted, C55_release_ragged_refuted); material ids beyond 127 wrap (C55_material_wrap_refuted); a refused pin cell leaves its mesh (C55_pin_mesh_left_refuted)."
  },
  {
   "property": "C56",
   "status": "proved",
   "theorems": [
    "C56_rtm_core_layout",
    "C56_lattice_layout",
    "C56_flat_index",
    "C56_ragged",
    "C56_coarse_grid",
    "C56_coarse_grid_refused",
    "C56_coarse_grid_again"
   ],
   "note": "flattenLattice/mapFlatIndexToLattice2D inverse, layout for RTM, core and lattice, addCoarseGrid's whole result. stringToLattice is C08."
  },
  {
   "property": "C57",
   "status": "proved",
   "theorems": [
    "C57_grid",
    "C57_rejected",
    "C57_rejected_unchanged_refuted",
    "C57_overflow"
   ],
   "note": "Exact geometry and connectivity, tiling, equal areas and watertightness for all counts and extents; rejection ends the program; with exit_on_error off an empty mesh is left behind (refuted)."
  },
  {
   "property": "C58",
   "status": "partial",
   "theorems": [
    "C58_linear",
    "C58_quadratic_partial",
    "C58_rejected",
    "C58_rejected_linear",
    "C58_rejected_quadratic",
    "C58_empty_undefined"
   ],
   "note": "Linear and quadratic pin meshes: exact ring areas, total area, positive face areas, vertices inside the square, edge-to-edge connectivity and watertightness, all rejections (and the rejected call changes nothing). For order 2 the self-intersection check of the mesh constructor is a parameter, hence _partial. Rings must stay clear of the border by the snapping tolerance. Found: empty lists are not rejected and read out of bounds."
  },
  {
   "property": "C59",
   "status": "proved",
   "theorems": [
    "C59_regions",
    "C59_sound",
    "C59_total",
    "C59_rejected",
    "C59_rejected_types",
    "C59_tiny_refuted"
   ],
   "note": "every mesh of one supported element type, any std::sort meeting its contract, exact reals. The chain condition is exact when touching faces share a vertex or are wider than 1e-3; without it C59_sound; C59_tiny_refuted shows faces far below the 1e-5 tolerance are not grouped."
  },
  {
   "property": "C60",
   "status": "proved",
   "theorems": [
    "C60_get",
    "C60_distinct",
    "C60_increment",
    "C60_history",
    "C60_spill",
    "C60_overflow_refuted"
   ],
   "note": "Counters within the field; what happens beyond it is proved separately (C60_spill, C60_overflow_refuted)."
  },
  {
   "property": "C61",
   "status": "proved",
   "theorems": [
    "C61_lattice_heights",
    "C61_rtm_heights",
    "C61_cell_heights",
    "C61_determined",
    "C61_returned",
    "C61_order_refuted",
    "C61_assembly_heights"
   ],
   "note": "For all models built by the modelled functions. The transitivity condition is necessary: C61_order_refuted builds a model whose heights admit no consistent order, so std::sort gets an invalid comparator."
  },
  {
   "property": "C62",
   "status": "proved",
   "theorems": [
    "C62_printed",
    "C62_line_unique",
    "C62_kinds",
    "C62_too_long_refused",
    "C62_release_refuted",
    "C62_bool_refuted",
    "C62_reset_refuted",
    "C62_hours_refuted",
    "C62_clock_refuted",
    "C62_days_refuted"
   ],
   "note": "Proved for messages shorter than the 256 byte buffer during the first 100 hours, for every setting, kind and argument list. Outside of that range the refuted theorems show what happens: buffer overrun without assertions, overrun by a bool or the color reset even with assertions, wrong digits after 100 hours or with a clock set back, and signed overflow after 24.8 days."
  },
  {
   "property": "C63",
   "status": "proved",
   "theorems": [
    "C63_equality",
    "C63_integral",
    "C63_opaque",
    "C63_floating",
    "C63_monotone",
    "C63_value",
    "C63_fractions",
    "C63_out_of_range"
   ],
   "note": "Float components for any monotone rounding; the fractions k/255 bit-exactly in binary64 and binary32."
  },
  {
   "property": "C64",
   "status": "partial",
   "theorems": [
    "C64_orients_faces",
    "C64_validate",
    "C64_no_clockwise_partial",
    "C64_triangles",
    "C64_concave_refuted"
   ],
   "note": "the self-intersection fixing of quadratic meshes is a parameter; that no face is clockwise afterwards is proved for triangles, and for quadrilaterals where turning round a face makes it counter-clockwise; it is refuted for concave quadrilaterals"
  },
  {
   "property": "C65",
   "status": "partial",
   "theorems": [
    "C65_isStraight",
    "C65_length",
    "C65_length_straight",
    "C65_length_refuted",
    "C65_length_nan_refuted",
    "C65_closest",
    "C65_closest_centred",
    "C65_closest_refuted",
    "C65_distance"
   ],
   "note": "Exact real arithmetic. Length: all non-collinear segments, and chords with the mid node in the middle half; refuted for straight segments with the mid node elsewhere. Closest point: all curved segments, when the Newton iteration of solveCubic ends; refuted for straight segments with an off-centre mid node."
  },
  {
   "property": "C66",
   "status": "proved",
   "theorems": [
    "C66_isLeft",
    "C66_isLeft_straight"
   ],
   "note": "Exact real arithmetic; points on the curve excluded (the code is inconsistent there)."
  },
  {
   "property": "C67",
   "status": "proved",
   "theorems": [
    "C67_materials",
    "C67_intersect",
    "C67_face_data",
    "C67_face_containing",
    "C67_no_type",
    "C67_no_mesh_refuted"
   ],
   "note": "Relative to the contract of std::sort and to what an edge's intersect reports (C25, C29). C67_no_mesh_refuted: a cell accepted with a face type and mesh id -1 makes the queries read index -1."
  },
  {
   "property": "C68",
   "status": "proved",
   "theorems": [
    "C68_read",
    "C68_repeated",
    "C68_rejects",
    "C68_large",
    "C68_scalars_refuted",
    "C68_types_refuted",
    "C68_points_refuted",
    "C68_append_refuted",
    "C68_extra_refuted",
    "C68_blank_refuted"
   ],
   "note": "Reading into an empty soup; parsing is on real numbers. The conversion of text to the nearest float is not modelled."
  },
  {
   "property": "C69",
   "status": "partial",
   "theorems": [
    "C69_pure",
    "C69_room",
    "C69_self",
    "C69_self_room",
    "C69_fix",
    "C69_hits",
    "C69_turn",
    "C69_check",
    "C69_check_clean",
    "C69_validate",
    "C69_sound",
    "C69_search_partial",
    "C69_straight",
    "C69_self_sound",
    "C69_self_straight",
    "C69_fix_moves",
    "C69_bowtie_refuted",
    "C69_assert_refuted",
    "C69_missed_refuted",
    "C69_contact_refuted",
    "C69_false_hit_refuted",
    "C69_overflow_refuted"
   ],
   "note": "Soundness, distinctness, independence of the buffer, room needed, agreement of the two queries, the exact criterion for self-intersections, the effect of a repair and of the mesh check: proved, mostly for every arithmetic. Completeness: no common point is cut off by the boxes and straight segments are exact; convergence of the Newton iteration is missing because it is false. Found, in doubles: the buffer of checkSelfIntersections overflows, the assertion on two points fails for three genuine ones, crossings are missed, segments 19 epsDistance apart are reported to meet twice, opposite edges that cross once are not noticed."
  },
  {
   "property": "C70",
   "status": "proved",
   "theorems": [
    "C70_export",
    "C70_incomplete",
    "C70_chord",
    "C70_chord_curved",
    "C70_places",
    "C70_numbered",
    "C70_object_sets",
    "C70_shared_name_refuted",
    "C70_reachable",
    "C70_meshless_cell_refuted"
   ],
   "note": "Exact arithmetic. Over the models that satisfy the library's id checks (C55) whose cells with a mesh type have a non-empty mesh and whose materials have valid macroscopic cross sections. The two parts that are false are stated as refutations."
  },
  {
   "property": "C71",
   "status": "proved",
   "theorems": [
    "C71_import",
    "C71_stopped",
    "C71_complete",
    "C71_ids",
    "C71_failed_refuted",
    "C71_many_materials_refuted",
    "C71_validation",
    "C71_selfcheck"
   ],
   "note": "exact arithmetic; the soup is given (the readers are modelled in Abaqus_Model, Xdmf_Model, Vtk_Model); two refutations outside the preconditions"
  },
  {
   "property": "C72",
   "status": "partial",
   "theorems": [
    "C72_roundtrip",
    "C72_place",
    "C72_lattices_refuted",
    "C72_heights",
    "C72_heights_refuted",
    "C72_comma_refuted",
    "C72_endless_refuted"
   ],
   "note": "C72_roundtrip holds for models in which each lattice is first used in the assembly of the same number, heights have six decimals, names no commas and there are at most 100000 copies; without these the claim is refuted (C72_lattices_refuted, C72_heights_refuted, C72_comma_refuted, C72_endless_refuted)"
  },
  {
   "property": "C73",
   "status": "proved",
   "theorems": [
    "C73_valid",
    "C73_lattices"
   ],
   "note": "every file content, with and without assertions; errors end the program"
  },
  {
   "property": "C74",
   "status": "proved",
   "theorems": [
    "C74_shown"
   ],
   "note": "over exact real numbers; the grids are read with the model of readXDMFUniformGrid (C68, C69)"
  },
  {
   "property": "C75",
   "status": "partial",
   "theorems": [
    "C75_file",
    "C75_total",
    "C75_conserved",
    "C75_unused_refuted"
   ],
   "note": "C75_file, C75_total and C75_conserved hold over exact real numbers if every material is used in the core; a material that is not makes writing the file undefined behaviour (C75_unused_refuted)"
  },
  {
   "property": "C76",
   "status": "partial",
   "theorems": [
    "C76_lengths",
    "C76_skipped",
    "C76_linear",
    "C76_curved",
    "C76_rays",
    "C76_empty_refuted"
   ],
   "note": "over exact real numbers for cores with at least one face, each cell of which has a mesh; a core without faces is undefined behaviour (C76_empty_refuted)"
  },
  {
   "property": "C77",
   "status": "partial",
   "theorems": [
    "C77_input",
    "C77_nuclides_refuted",
    "C77_xs",
    "C77_write"
   ],
   "note": "C77_input holds if every material has a nuclide; without, the claim is refuted (C77_nuclides_refuted). How numbers are printed is a parameter"
  },
  {
   "property": "C78",
   "status": "partial",
   "theorems": [
    "C78_written",
    "C78_incomplete",
    "C78_unused_refuted",
    "C78_meshless_refuted"
   ],
   "note": "proved for every model whose cells are all in the core and have a mesh; refuted for cells that are not in the core and for cells without mesh"
  },
  {
   "property": "C79",
   "status": "partial",
   "theorems": [
    "C79_reads",
    "C79_extra_refuted",
    "C79_endless_refuted",
    "C79_any",
    "C79_blanks_refuted"
   ],
   "note": "Proved for every well-formed library text and, for what is returned, for every text. Refuted as a claim of safety: more nuclides than announced, a missing end line, and two blanks at the end of a line of group bounds. The prefix strto checks that can never fail are not modelled; lines of 1024 characters or more are outside the theorem."
  },
  {
   "property": "C80",
   "status": "partial",
   "theorems": [
    "C80_preserved",
    "C80_one_material",
    "C80_cut",
    "C80_rejects",
    "C80_no_groups_refuted",
    "C80_same_name_refuted",
    "C80_twice_refuted"
   ],
   "note": "Groups_Props: proved for models in which names of groups of the dimension differ, hierarchies without repetitions and operations that leave something in a group; the claim without these is refuted by C80_no_groups_refuted, C80_same_name_refuted and C80_twice_refuted. gmsh is a state of groups and geometry, the boolean operation a parameter."
  },
  {
   "property": "C81",
   "status": "partial",
   "theorems": [
    "C81_add",
    "C81_materials",
    "C81_name_refuted"
   ],
   "note": "Groups_Props: proved for all models, except that getMaterials throws for a group named Material (C81_name_refuted)."
  },
  {
   "property": "C82",
   "status": "partial",
   "theorems": [
    "C82_pin",
    "C82_pin_rejects",
    "C82_lattice",
    "C82_parts",
    "C82_lattice_rejects",
    "C82_equal_radii_refuted",
    "C82_radii_refuted",
    "C82_materials_refuted",
    "C82_no_rows_refuted"
   ],
   "note": "Proved for the single pin and for every lattice whose kinds of pins have enough materials. The parts of the claim that the code does not keep are refuted: equal radii, unchecked radii and materials in a lattice, a lattice without rows."
  },
  {
   "property": "C83",
   "status": "proved",
   "theorems": [
    "C83_places",
    "C83_occurs",
    "C83_no_core"
   ],
   "note": "For models with a nonempty core, nonempty lattices and lists of children that an Int can count. The places are proved for exact numbers."
  },
  {
   "property": "C84",
   "status": "proved",
   "theorems": [
    "C84_gridded",
    "C84_order",
    "C84_order_refuted",
    "C84_absent",
    "C84_surfaces",
    "C84_volumes",
    "C84_apart_refuted"
   ],
   "note": "For models of surfaces (C84_surfaces) and of volumes (C84_volumes). If no surface lies in a rectangle the code reads the end of an empty list (C84_apart_refuted). The order of the materials other than the fill material is not kept (C84_order_refuted)."
  },
  {
   "property": "C85",
   "status": "proved",
   "theorems": [
    "C85_round_trip",
    "C85_numbers",
    "C85_any_text",
    "C85_foreign",
    "C85_write_total",
    "C85_info_name",
    "C85_info_name_plain",
    "C85_info_name_refuted",
    "C85_group_tags_refuted",
    "C85_quote_refuted",
    "C85_points_refuted",
    "C85_line_colours_refuted",
    "C85_short_line_refuted",
    "C85_negative_refuted"
   ],
   "note": "all models in the stated class and all texts; what does not survive (group tags, quotation marks, groups of points with assertions, colours of lines) is refuted beside it. What gmsh itself does with the geometry file is a hypothesis of the round trip (the relation reopened)"
  },
  {
   "property": "C86",
   "status": "proved",
   "theorems": [
    "C86_size",
    "C86_covered",
    "C86_accepts",
    "C86_duplicates_refuted",
    "C86_many_refuted"
   ],
   "note": "C86_size is the whole claim, with gmsh's documented evaluation of fields as the specification; C86_covered and C86_accepts the rest. C86_duplicates_refuted and C86_many_refuted show that distinct names and at most 10000 materials are needed."
  },
  {
   "property": "C87",
   "status": "proved",
   "theorems": [
    "C87_source",
    "C87_extract",
    "C87_in_use",
    "C87_spectrum",
    "C87_rejects",
    "C87_missing_refuted",
    "C87_order_refuted"
   ],
   "note": "Over exact real numbers. If the flux of a group is missing the flux of the group before is used without an error (C87_missing_refuted); element sets that list the faces in another order give faces the flux of others (C87_order_refuted). The program ends with an error if one of its element sets is there already (C87_in_use)."
  },
  {
   "property": "C88",
   "status": "proved",
   "theorems": [
    "C88_chords",
    "C88_same",
    "C88_edges",
    "C88_meshless_refuted",
    "C88_groups",
    "C88_written",
    "C88_stale_refuted",
    "C88_endless_refuted"
   ],
   "note": "curved edges: where the formula of QuadraticSegment::length is exact (C65). Refuted: cells without a mesh outside of the core end the program; missing ratios and radii are replaced by stale data; 100000 groups never end"
  },
  {
   "property": "C89",
   "status": "proved",
   "theorems": [
    "C89_products",
    "C89_same_in_both_builds_refuted",
    "C89_empty_refuted",
    "C89_solve",
    "C89_singular_refuted",
    "C89_eigvals",
    "C89_cmfd"
   ],
   "note": "BLAS: its reference routines are modelled; LAPACK's gesv and geev are arguments with contracts, shown to be satisfiable. Multiplicities of eigenvalues are not stated. Refuted: matmul differs between builds (C = A B with BLAS, C += A B without); A * x without columns is never written, without rows refused; a singular system returns B silently in a release build"
  },
  {
   "property": "C90",
   "status": "proved",
   "theorems": [
    "C90_first",
    "C90_history",
    "C90_triangles_refuted",
    "C90_invalid",
    "C90_size"
   ],
   "note": "gmsh is modelled by its options and the record of the calls; what the options ask for is taken from gmsh's manual. Refuted: triangles asked for after quadrangles come out as quadrangles"
  },
  {
   "property": "C91",
   "status": "proved",
   "theorems": [
    "C91_table",
    "C91_refused",
    "C91_kinds",
    "C91_ids_refuted"
   ],
   "note": "for outputs whose touching faces share a vertex exactly or are wider than 1e-3 (see C59); numbers are exact reals; the ids of the powers are not used (C91_ids_refuted)"
  },
  {
   "property": "C92",
   "status": "proved",
   "theorems": [
    "C92_inp",
    "C92_vtk",
    "C92_xdmf",
    "C92_other",
    "C92_missing",
    "C92_source",
    "C92_powers",
    "C92_in_use"
   ],
   "note": "composes C39, C40, C68, C87 and C91; vertices are those of the output up to the zeroing of tiny coordinates by the XDMF writer, which a second write does not change; the file system never fails"
  },
  {
   "property": "C93",
   "status": "proved",
   "theorems": [
    "C93_materials",
    "C93_only",
    "C93_determined"
   ],
   "note": "composes C79, C50, C51 and C52; for files whose announced number of nuclides is at least the number there (C79_extra_refuted shows the rest)"
  }
 ]
}