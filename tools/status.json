{
 "C01": [
  "proved",
  "For every history of operations whose lengths stay within the stated limit; C01_overflow_refuted shows the limit is needed because growth doubles a 32-bit capacity."
 ],
 "C02": [
  "partial",
  "Holds when the buffer has spare capacity or T is trivially movable (C02_push_own_partial). C02_push_own_refuted exhibits the failing case: full buffer of a non-trivial T."
 ],
 "C03": [
  "proved",
  "All six comparison operators, for every element order that is a strict total order."
 ],
 "C09": [
  "proved",
  "Exact model over slots with moved-from values; result is the unique stable sorted permutation, no undefined behaviour."
 ],
 "C10": [
  "proved",
  "sort3 and sort4 for every strict weak order."
 ],
 "C11": [
  "proved",
  "sortPermutation is relative to std::sort's contract (a parameter of the model, with a witness that the contract is satisfiable)."
 ],
 "C12": [
  "proved",
  "All four width/dimension instances, all in-range coordinates and all codes."
 ],
 "C13": [
  "proved",
  "BMI2 and portable branches agree on every input encoding can produce; they differ on unused high bits (refuted theorem). Float versions for every monotone rounding exact on 0 and the scale."
 ],
 "C04": [
  "proved",
  "Every history within the int32 size limit, with ownership and no-leak. Two refuted corners: String(double) of a number printing more than 32 chars reads past its buffer; assigning an overlapping part of itself is a memcpy overlap."
 ],
 "C05": [
  "proved",
  "StringView and String operators, starts_with, ends_with; views need not be terminated."
 ],
 "C06": [
  "proved",
  "All searches, substr, removeLeadingSpaces."
 ],
 "C07": [
  "proved",
  "Per call and for the whole token loop; the run decomposition is unique."
 ],
 "C08": [
  "partial",
  "Round trip for all printed int32 tables. The claim about malformed text is false of the code (refuted theorem): blank lines and fields cut the table, non-numbers read as 0."
 ],
 "C19": [
  "proved",
  "Every dimension; exact real arithmetic, int32 indices with overflow as UB."
 ],
 "C20": [
  "proved",
  "Every dimension, exact real arithmetic. Refuted corner: a point more than 2^31 cells away makes the float-to-Int cast undefined."
 ],
 "C21": [
  "partial",
  "Numbering, tiling, construction from boxes and from a lattice proved. The clause that an index outside the grid is never mapped onto another cell is false (refuted theorem: the assertion compares with the number of divisions)."
 ],
 "C22": [
  "proved",
  "Rectilinear partition from a lattice of ids (2D) and regular partitions of every dimension."
 ],
 "C14": [
  "proved",
  "Exact real arithmetic; rounding not modelled."
 ],
 "C41": [
  "proved",
  "All tables and all lists of types. The comment in element_types.hpp that the vertex count identifies the type is refuted for QuadraticEdge."
 ],
 "C63": [
  "proved",
  "Float components for any monotone rounding; the fractions k/255 bit-exactly in binary64 and binary32."
 ],
 "C15": [
  "partial",
  "All operators hold for every element arithmetic; the Mat*Mat product is proved for square right operands (P = N) and refuted otherwise (C15_mat_mat_refuted): the loop runs to N instead of P."
 ],
 "C16": [
  "partial",
  "Everything holds except matmul(C, A, B) = A * B: the code adds to C (C16_matmul_partial, C16_matmul_refuted)."
 ],
 "C17": [
  "proved",
  "Exact real arithmetic; all coefficient triples."
 ],
 "C18": [
  "proved",
  "Exact real arithmetic, with the program's float and double constants. Stronger than the property: the Newton loop is shown to end only at an exact root, so the deflation root is exact whenever the function returns; the loop need not terminate in exact arithmetic."
 ],
 "C33": [
  "proved",
  "any history of additions, translations and reservations; sizes are unbounded naturals (Int overflow of sizes is covered for Vector in C01)"
 ],
 "C34": [
  "proved",
  "every state reached by a history and every call; duplicate names, empty id lists and misfitting data leave the soup unchanged"
 ],
 "C35": [
  "partial",
  "proved for every well-formed soup with at least one elset; a soup without elsets is undefined behaviour (C35_empty_refuted)"
 ],
 "C36": [
  "partial",
  "proved when the appended soup is another one and has elements; without elements it is undefined behaviour (C36_empty_refuted), as is a += a (C36_self_refuted), and mixed data break well-formedness (C36_mixed_data_refuted)"
 ],
 "C37": [
  "proved",
  "for an initially empty subset and elsets with strictly ascending ids, as the code requires; unknown names and unsorted ids are errors without effect"
 ],
 "C38": [
  "proved",
  "for every pair of soups and every tolerance predicate"
 ],
 "C42": [
  "proved",
  "mesh to soup and back, element type refusal; non-planar soups lose vertices (refuted)"
 ],
 "C43": [
  "proved",
  "exact compressed incidence lists; never stale over any history of modifiers"
 ],
 "C44": [
  "proved",
  "for every std::sort and every defined code; triangle meshes at the origin are sorted by the cells of their bounding box, translated ones are undefined (refuted)"
 ],
 "C45": [
  "partial",
  "quadratic quads: mid-edge vertices 5 and 6 are not exchanged (refuted), proved for the other kinds"
 ],
 "C46": [
  "proved",
  "edge intersections are a parameter; the buffer needs one slot more than hits (refuted otherwise)"
 ],
 "C47": [
  "proved",
  "exact rearrangement, order by first segment, traversal order for non-overlapping segments; general order by entry coordinate refuted"
 ],
 "C48": [
  "partial",
  "exact acceptance criterion and bounds proved; that the two uses of an edge have opposite orientation, and absence of out-of-bounds reads for closed or empty meshes, are refuted"
 ],
 "C64": [
  "partial",
  "the self-intersection fixing of quadratic meshes is a parameter; that no face is clockwise afterwards is proved for triangles, and for quadrilaterals where turning round a face makes it counter-clockwise; it is refuted for concave quadrilaterals"
 ],
 "C23": [
  "proved",
  "for every type whose operator< is a total order; neutrality of the empty box holds within infDistance of the origin and is refuted beyond"
 ],
 "C24": [
  "partial",
  "exact for all directions except rays lying in the plane of a face, where the code is wrong (refuted), and parameters up to infDistance (refuted beyond)"
 ],
 "C25": [
  "proved",
  "in exact arithmetic extended with infinities and NaN; the buffer is also written on a miss (see C46)"
 ],
 "C26": [
  "proved",
  "exact arithmetic, any dimension"
 ],
 "C27": [
  "partial",
  "Containment equals convex hull for triangles of positive area and convex quadrilaterals of positive area; flips proved for linear cells and 6-node triangles. Missing: the 8-node quadrilateral's flip moves mid nodes to other edges (refuted), flat triangles (refuted)."
 ],
 "C28": [
  "proved",
  "Any number of vertices; area, centroid, perimeter, mean chord length over exact reals."
 ],
 "C29": [
  "proved",
  "Exact real arithmetic. Unit ray direction. Tangent hits are reported twice and hits are not ordered along the ray (refuted theorems). Segment/segment intersection not modelled."
 ],
 "C65": [
  "partial",
  "Exact real arithmetic. Length: all non-collinear segments, and chords with the mid node in the middle half; refuted for straight segments with the mid node elsewhere. Closest point: all curved segments, when the Newton iteration of solveCubic ends; refuted for straight segments with an off-centre mid node."
 ],
 "C66": [
  "proved",
  "Exact real arithmetic; points on the curve excluded (the code is inconsistent there)."
 ],
 "C30": [
  "proved",
  "area, perimeter, centroid, mean chord length, bounding box, containment and ray hits of quadratic polygons in exact real arithmetic; C30_flip_quadrilateral_refuted records that flipping a quadratic quadrilateral does not negate its area. Self-intersection repair is not modelled."
 ],
 "C31": [
  "proved",
  "exact real arithmetic; vertices, affine invariance, edges and jacobian of Triangle, Quadrilateral, QuadraticTriangle, QuadraticQuadrilateral and LineSegment in any dimension (quadratic segments are in C29)"
 ],
 "C32": [
  "proved",
  "exact real arithmetic; the number of rays must fit an Int. At exactly pi/2 real arithmetic gives no y rays (the code then divides by zero); rounding of pi/2 hides this in floating point."
 ],
 "C49": [
  "proved",
  "table, 1000Z+A with separators and trailing text, unknown symbols rejected, distinct below mass number 1000 (above: refuted)"
 ],
 "C51": [
  "proved",
  "exact arithmetic; the fissile flag is preserved only when the table entries agree on it, and C51_fissile_refuted shows it is lost otherwise; interpXS on an empty table is out of bounds, excluded by table"
 ],
 "C52": [
  "proved",
  "exact arithmetic; the warnings of validate are counted, the result always passes validation and raises no warning for physical data"
 ],
 "C53": [
  "proved",
  "exact arithmetic; face areas are an argument of the model (the area functions are C28, C30); a zero total area divides by zero and is excluded by cell_ok"
 ],
 "C50": [
  "proved",
  "exact arithmetic; setUO2's masses differ slightly from the table's, so its mass is stated with its own; setUO2 refuses w = 0, an enrichment without U238 and pure Gd2O3 although its assertions allow them (C50_setUO2_refuses)"
 ],
 "C54": [
  "proved",
  "p >= 2; p = 1 is refuted (diagonal overwritten by the corner entry). linearSolve and eigvals are LAPACK: solver is a hypothesis (gives an inverse when there is one; nonsingularity is proved), eigvals an arbitrary function."
 ],
 "C60": [
  "proved",
  "Counters within the field; what happens beyond it is proved separately (C60_spill, C60_overflow_refuted)."
 ],
 "C59": [
  "proved",
  "every mesh of one supported element type, any std::sort meeting its contract, exact reals. The chain condition is exact when touching faces share a vertex or are wider than 1e-3; without it C59_sound; C59_tiny_refuted shows faces far below the 1e-5 tolerance are not grouped."
 ],
 "C57": [
  "proved",
  "Exact geometry and connectivity, tiling, equal areas and watertightness for all counts and extents; rejection ends the program; with exit_on_error off an empty mesh is left behind (refuted)."
 ],
 "C58": [
  "partial",
  "Linear and quadratic pin meshes: exact ring areas, total area, positive face areas, vertices inside the square, edge-to-edge connectivity and watertightness, all rejections (and the rejected call changes nothing). For order 2 the self-intersection check of the mesh constructor is a parameter, hence _partial. Rings must stay clear of the border by the snapping tolerance. Found: empty lists are not rejected and read out of bounds."
 ],
 "C55": [
  "proved",
  "Every history of the building calls (with and without assertions and exit_on_error) keeps all ids valid and the parts consistent; calls only append; acceptance of each call characterised. Refuted parts of the English statement: row heights are never checked (C55_row_heights_refuted); without assertions no extents are (C55_release_mismatch_refuted, C55_release_ragged_refuted); material ids beyond 127 wrap (C55_material_wrap_refuted); a refused pin cell leaves its mesh (C55_pin_mesh_left_refuted)."
 ],
 "C56": [
  "proved",
  "flattenLattice/mapFlatIndexToLattice2D inverse, layout for RTM, core and lattice, addCoarseGrid's whole result. stringToLattice is C08."
 ],
 "C61": [
  "proved",
  "For all models built by the modelled functions. The transitivity condition is necessary: C61_order_refuted builds a model whose heights admit no consistent order, so std::sort gets an invalid comparator."
 ],
 "C67": [
  "proved",
  "Relative to the contract of std::sort and to what an edge's intersect reports (C25, C29). C67_no_mesh_refuted: a cell accepted with a face type and mesh id -1 makes the queries read index -1."
 ],
 "C62": [
  "proved",
  "Proved for messages shorter than the 256 byte buffer during the first 100 hours, for every setting, kind and argument list. Outside of that range the refuted theorems show what happens: buffer overrun without assertions, overrun by a bool or the color reset even with assertions, wrong digits after 100 hours or with a clock set back, and signed overflow after 24.8 days."
 ],
 "C39": [
  "proved",
  "Proved for every soup whose elements have as many vertices as their type says, whose elements are not all edges, lines or vertices, and whose element set names are names of data sets that do not collide. The refuted theorems show what happens otherwise: quadratic edges are written but not readable, colliding names stop the writer, heights within the tolerance are lost, reading into a non empty soup does not renumber."
 ],
 "C40": [
  "proved",
  "Abaqus. Comments inside a section, a last id without comma, lines of 1024 characters or more, blank lines among nodes, lower case keywords and node ids other than the positions are refuted (C40_*_refuted). VTK files are C68."
 ],
 "C68": [
  "proved",
  "Reading into an empty soup; parsing is on real numbers. The conversion of text to the nearest float is not modelled."
 ],
 "C69": [
  "partial",
  "Soundness, distinctness, independence of the buffer, room needed, agreement of the two queries, the exact criterion for self-intersections, the effect of a repair and of the mesh check: proved, mostly for every arithmetic. Completeness: no common point is cut off by the boxes and straight segments are exact; convergence of the Newton iteration is missing because it is false. Found, in doubles: the buffer of checkSelfIntersections overflows, the assertion on two points fails for three genuine ones, crossings are missed, segments 19 epsDistance apart are reported to meet twice, opposite edges that cross once are not noticed."
 ],
 "C70": [
  "proved",
  "Exact arithmetic. Over the models that satisfy the library's id checks (C55) whose cells with a mesh type have a non-empty mesh and whose materials have valid macroscopic cross sections. The two parts that are false are stated as refutations."
 ],
 "C71": [
  "proved",
  "exact arithmetic; the soup is given (the readers are modelled in Abaqus_Model, Xdmf_Model, Vtk_Model); two refutations outside the preconditions"
 ],
 "C72": [
  "partial",
  "C72_roundtrip holds for models in which each lattice is first used in the assembly of the same number, heights have six decimals, names no commas and there are at most 100000 copies; without these the claim is refuted (C72_lattices_refuted, C72_heights_refuted, C72_comma_refuted, C72_endless_refuted)"
 ],
 "C73": [
  "proved",
  "every file content, with and without assertions; errors end the program"
 ],
 "C74": [
  "proved",
  "over exact real numbers; the grids are read with the model of readXDMFUniformGrid (C68, C69)"
 ],
 "C75": [
  "partial",
  "C75_file, C75_total and C75_conserved hold over exact real numbers if every material is used in the core; a material that is not makes writing the file undefined behaviour (C75_unused_refuted)"
 ],
 "C76": [
  "partial",
  "over exact real numbers for cores with at least one face, each cell of which has a mesh; a core without faces is undefined behaviour (C76_empty_refuted)"
 ],
 "C77": [
  "partial",
  "C77_input holds if every material has a nuclide; without, the claim is refuted (C77_nuclides_refuted). How numbers are printed is a parameter"
 ],
 "C78": [
  "partial",
  "proved for every model whose cells are all in the core and have a mesh; refuted for cells that are not in the core and for cells without mesh"
 ],
 "C79": [
  "partial",
  "Proved for every well-formed library text and, for what is returned, for every text. Refuted as a claim of safety: more nuclides than announced, a missing end line, and two blanks at the end of a line of group bounds. The prefix strto checks that can never fail are not modelled; lines of 1024 characters or more are outside the theorem."
 ],
 "C80": [
  "partial",
  "Groups_Props: proved for models in which names of groups of the dimension differ, hierarchies without repetitions and operations that leave something in a group; the claim without these is refuted by C80_no_groups_refuted, C80_same_name_refuted and C80_twice_refuted. gmsh is a state of groups and geometry, the boolean operation a parameter."
 ],
 "C81": [
  "partial",
  "Groups_Props: proved for all models, except that getMaterials throws for a group named Material (C81_name_refuted)."
 ],
 "C82": [
  "partial",
  "Proved for the single pin and for every lattice whose kinds of pins have enough materials. The parts of the claim that the code does not keep are refuted: equal radii, unchecked radii and materials in a lattice, a lattice without rows."
 ],
 "C83": [
  "proved",
  "For models with a nonempty core, nonempty lattices and lists of children that an Int can count. The places are proved for exact numbers."
 ],
 "C84": [
  "proved",
  "For models of surfaces (C84_surfaces) and of volumes (C84_volumes). If no surface lies in a rectangle the code reads the end of an empty list (C84_apart_refuted). The order of the materials other than the fill material is not kept (C84_order_refuted)."
 ],
 "C85": [
  "proved",
  "all models in the stated class and all texts; what does not survive (group tags, quotation marks, groups of points with assertions, colours of lines) is refuted beside it. What gmsh itself does with the geometry file is a hypothesis of the round trip (the relation reopened)"
 ],
 "C86": [
  "proved",
  "C86_size is the whole claim, with gmsh's documented evaluation of fields as the specification; C86_covered and C86_accepts the rest. C86_duplicates_refuted and C86_many_refuted show that distinct names and at most 10000 materials are needed."
 ],
 "C87": [
  "proved",
  "Over exact real numbers. If the flux of a group is missing the flux of the group before is used without an error (C87_missing_refuted); element sets that list the faces in another order give faces the flux of others (C87_order_refuted). The program ends with an error if one of its element sets is there already (C87_in_use)."
 ],
 "C88": [
  "proved",
  "curved edges: where the formula of QuadraticSegment::length is exact (C65). Refuted: cells without a mesh outside of the core end the program; missing ratios and radii are replaced by stale data; 100000 groups never end"
 ],
 "C89": [
  "proved",
  "BLAS: its reference routines are modelled; LAPACK's gesv and geev are arguments with contracts, shown to be satisfiable. Multiplicities of eigenvalues are not stated. Refuted: matmul differs between builds (C = A B with BLAS, C += A B without); A * x without columns is never written, without rows refused; a singular system returns B silently in a release build"
 ],
 "C90": [
  "proved",
  "gmsh is modelled by its options and the record of the calls; what the options ask for is taken from gmsh's manual. Refuted: triangles asked for after quadrangles come out as quadrangles"
 ],
 "C91": [
  "proved",
  "for outputs whose touching faces share a vertex exactly or are wider than 1e-3 (see C59); numbers are exact reals; the ids of the powers are not used (C91_ids_refuted)"
 ],
 "C92": [
  "proved",
  "composes C39, C40, C68, C87 and C91; vertices are those of the output up to the zeroing of tiny coordinates by the XDMF writer, which a second write does not change; the file system never fails"
 ],
 "C93": [
  "proved",
  "composes C79, C50, C51 and C52; for files whose announced number of nuclides is at least the number there (C79_extra_refuted shows the rest)"
 ]
}