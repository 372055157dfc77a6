{"id": "C01", "title": "Vector behaves as a mathematical sequence", "statement": "After any history of Vector operations (construct, copy, move, assign, push_back, emplace_back, pop_back, resize, reserve, clear, element write) the observable content (size, operator[]) is the one the same history produces on an abstract sequence; size <= capacity always holds; reserve never changes content nor shrinks capacity; no operation reads or writes outside the allocated buffer or reads an uninitialised or destroyed slot, provided operator[]/pop_back preconditions hold.", "quantifier": "every element type value, every initial vector and every finite history of operations of any length", "why_tests_cant": "the content depends on the whole history (each reallocation moves the buffer); tests only exercise a few short histories.", "anchors": ["include/um2/stdlib/vector.hpp: Vector, pushBackSlowPath, emplaceBackSlowPath, recommend, swapBuffers, append, resize, reserve, assign"]}
{"id": "C02", "title": "push_back of a vector's own element", "statement": "v.push_back(v[i]) (and emplace_back(v[i])) appends the value v[i] had before the call, whether or not the call reallocates, and leaves all the other elements as they were.", "quantifier": "every vector content, every index i < size, every capacity (full or not), trivially copyable and non-trivially movable element types", "why_tests_cant": "the failing case needs a full buffer and a non-trivially movable element type; no finite set of sizes covers every capacity.", "anchors": ["include/um2/stdlib/vector.hpp: push_back, pushBackSlowPath, swapBuffers"]}
{"id": "C03", "title": "Vector equality and ordering", "statement": "operator== holds exactly when sizes and all elements agree; operator< is the lexicographic order: irreflexive, transitive, total up to equality when the element order is; !=, >, <=, >= are the matching derived relations.", "quantifier": "every pair/triple of vectors of any length over any totally ordered element type", "why_tests_cant": "laws over all pairs and triples.", "anchors": ["include/um2/stdlib/vector.hpp: operator==, operator<", "include/um2/stdlib/algorithm/lexicographical_compare.hpp", "include/um2/stdlib/algorithm/equal.hpp"]}
{"id": "C04", "title": "String content is independent of its representation", "statement": "For any history of String operations (construct from chars / C string / StringView, copy, move, assign, +=, append) size(), data() and operator[] present exactly the concatenated/assigned characters, a NUL byte sits at data()[size()], and size() < the allocated buffer; whether the string is stored inline (<= 22 characters) or on the heap is never observable through them.", "quantifier": "every NUL-free byte content, every size up to the Int limit and every finite history of operations", "why_tests_cant": "the representation switches at a size threshold and the growth policy depends on the history of capacities; all (old size, old capacity, added length) combinations matter.", "anchors": ["include/um2/stdlib/string.hpp: String, assignShort, assignLong, init, growByAndReplace, append, operator+="]}
{"id": "C05", "title": "String and StringView comparison is a total order", "statement": "compare() returns negative/zero/positive consistently: zero exactly for equal contents, antisymmetric, transitive, and a proper prefix is smaller; ==, <, >, <=, >= agree with it; starts_with/ends_with hold exactly for prefixes/suffixes.", "quantifier": "every pair/triple of byte strings of any length", "why_tests_cant": "laws over all pairs and triples of strings.", "anchors": ["include/um2/stdlib/string_view.hpp: compare, starts_with, ends_with", "include/um2/stdlib/string.hpp: compare, starts_with, ends_with, operator<", "include/um2/stdlib/cstring.hpp memcmp"]}
{"id": "C06", "title": "StringView searches return the first/last match or npos", "statement": "find_first_of(c), find_first_not_of(c), find_last_of(c), find_first_of(substring) return the least/greatest index at which the searched character (non-character, substring) occurs, and npos exactly when there is none; String::find_last_of agrees; substr(pos,len) is the corresponding slice; removeLeadingSpaces drops exactly the leading spaces.", "quantifier": "every string, character, substring and start position", "why_tests_cant": "claims about all positions in all strings.", "anchors": ["include/um2/stdlib/string_view.hpp: find_first_of, find_first_not_of, find_last_of, substr, removeLeadingSpaces"]}
{"id": "C07", "title": "Tokenising a line with getTokenAndShrink loses nothing", "statement": "Repeatedly calling getTokenAndShrink(delim) on a view returns, in order, exactly the maximal delimiter-free runs of the original text, each non-empty; every call that finds a token strictly shrinks the view; the call returns an empty token exactly when only delimiters (or nothing) remain.", "quantifier": "every string, every delimiter, every number of calls", "why_tests_cant": "tokenisation is a loop over an arbitrary text; runs of delimiters and trailing delimiters are the corner cases.", "anchors": ["include/um2/stdlib/string_view.hpp: getTokenAndShrink"]}
{"id": "C08", "title": "stringToLattice reads back every well-formed lattice", "statement": "For every rectangular table of non-negative integers printed one row per line with blanks between numbers, stringToLattice returns exactly that table; malformed text (ragged rows, non numbers) does not silently yield a shorter table.", "quantifier": "every table of any number of rows and columns with values in the target type's range, any amount of leading/separating blanks", "why_tests_cant": "parser round trip over all inputs.", "anchors": ["include/um2/common/string_to_lattice.hpp: stringToLattice", "include/um2/common/strto.hpp"]}
{"id": "C09", "title": "insertionSort sorts", "statement": "insertionSort leaves the range ordered, containing the same values with the same multiplicities, keeps equal elements in their original order, and touches nothing outside the range.", "quantifier": "every range of any length, over every element type with a total preorder operator<", "why_tests_cant": "all lengths and all orderings.", "anchors": ["include/um2/common/insertion_sort.hpp: insertionSort"]}
{"id": "C10", "title": "sort3 and sort4 sort", "statement": "sort3 and sort4 order their 3 (4) elements ascending and permute the input values.", "quantifier": "every triple/quadruple of values of a totally ordered type", "why_tests_cant": "branch-free code with subtle swaps; unbounded values.", "anchors": ["include/um2/common/branchless_sort.hpp: sort3, sort4"]}
{"id": "C11", "title": "Permutation utilities", "statement": "sortPermutation yields a permutation perm of 0..n-1 such that reading the data through perm is ordered; applyPermutation(perm) in place turns data into data[perm[0]], data[perm[1]], ... ; invertPermutation yields the inverse (perm[inv[i]] = i = inv[perm[i]]) and is an involution; applying a permutation and then its inverse restores the data.", "quantifier": "every data of any length and every permutation of its indices", "why_tests_cant": "the in-place cycle-following algorithm must be right for every cycle structure.", "anchors": ["include/um2/common/permutation.hpp: sortPermutation, applyPermutation, invertPermutation"]}
{"id": "C12", "title": "Morton encoding round trips", "statement": "mortonDecode(mortonEncode(x,y[,z])) gives back the coordinates for all coordinates up to max_2d/max_3d, mortonEncode(mortonDecode(m)) = m for all codes below 2^(2k) / 2^(3k), and distinct coordinates have distinct codes; both 32- and 64-bit, 2D and 3D.", "quantifier": "every coordinate tuple in range (up to 2^64 pairs) and every code", "why_tests_cant": "the 64-bit domain has 2^64 points; bit-spreading masks must be right for every bit combination.", "anchors": ["include/um2/math/morton.hpp: mortonEncode, mortonDecode, pdep/pext emulation"]}
{"id": "C13", "title": "Morton hardware and portable code agree; Morton codes respect dominance", "statement": "The BMI2 and the portable implementations return the same code for every in-range input and the same coordinates for every valid code; if every coordinate of p is <= that of q then code(p) <= code(q), so a Morton sort never puts a dominated cell later; the float versions map [0,1] into range.", "quantifier": "every pair of in-range coordinate tuples; every code", "why_tests_cant": "two implementations over 2^64 inputs; pairs of points square that.", "anchors": ["include/um2/math/morton.hpp: pdep, pext, part1By1, part1By2, mortonEncode(float)", "include/um2/geometry/morton_sort_points.hpp: mortonLess"]}
{"id": "C14", "title": "Statistics", "statement": "Over exact arithmetic: sum equals the arithmetic sum for every length (naive and pairwise agree), mean is sum/n and lies between min and max, median splits a sorted range, the one-pass variance equals the textbook sum of squared deviations over n-1, is non-negative, and is zero exactly for constant data.", "quantifier": "every data set of any length over the reals", "why_tests_cant": "Welford's recurrence versus definition is an induction on length.", "anchors": ["include/um2/math/stats.hpp: sum, mean, median, variance, stdDev"]}
{"id": "C15", "title": "Fixed-size vectors and matrices obey linear algebra", "statement": "Over exact arithmetic: matrix*vector and matrix*matrix are the textbook products for every shape the type system accepts and (A*B)*v = A*(B*v); inv(A) is a two-sided inverse whenever det(A) != 0; makeRotationMatrix is orthogonal with determinant 1; the compensated determinant equals x1*y2 - x2*y1; cross products are antisymmetric and orthogonal to their arguments.", "quantifier": "every matrix entry/angle and every shape (M,N)x(N,P)", "why_tests_cant": "identities over all reals and all shapes.", "anchors": ["include/um2/math/mat.hpp: operator*, inv, makeRotationMatrix", "include/um2/math/vec.hpp: det2x2, cross, dot"]}
{"id": "C16", "title": "Dynamic Matrix arithmetic", "statement": "operator()(i,j) addresses distinct storage for distinct (i,j) and covers all of it; transpose(A)(j,i)=A(i,j) and is an involution; identity is neutral; A*x and A*B are the textbook sums for every conformable size; +,- act entrywise; matmul(C,A,B) stores A*B in C.", "quantifier": "every size and every entry", "why_tests_cant": "index arithmetic over all sizes.", "anchors": ["include/um2/math/matrix.hpp: Matrix, operator*, matmul, transpose"]}
{"id": "C17", "title": "solveQuadratic returns exactly the real roots", "statement": "Over exact arithmetic: every finite value returned is a root of a x^2 + b x + c, every real root is returned, roots come in ascending order, and the 'no root' marker appears exactly for the missing ones; a = 0 falls back to the linear equation.", "quantifier": "every real coefficient triple", "why_tests_cant": "case analysis over all coefficient sign patterns.", "anchors": ["include/um2/math/quadratic_equation.hpp: solveQuadratic"]}
{"id": "C18", "title": "solveCubic returns real roots", "statement": "Over exact arithmetic: when the real root it deflates with is exact, the remaining roots returned are exactly the real roots of the deflated quadratic and hence of the cubic, and results are ordered.", "quantifier": "every real coefficient quadruple and every exact real root", "why_tests_cant": "algebraic identities over all reals.", "anchors": ["include/um2/math/cubic_equation.hpp: solveCubic"]}
{"id": "C19", "title": "RegularGrid cells are in bijection with 0..n-1 and tile the grid", "statement": "getFlatIndex is a bijection between cell indices and 0..numCells-1; the cell boxes have pairwise disjoint interiors, their union is the bounding box, neighbouring boxes share exactly their face, and each centroid lies inside its own box.", "quantifier": "every dimension 1..3 grid with any positive number of cells and any positive spacing", "why_tests_cant": "all grid sizes.", "anchors": ["include/um2/mesh/regular_grid.hpp: getFlatIndex, getBox, getCellCentroid, boundingBox"]}
{"id": "C20", "title": "RegularGrid point and box location", "statement": "getCellIndexContaining(p) returns the cell whose (half-open) box contains p, and the 'outside' marker exactly when p is outside the grid; getCellIndicesIntersecting(box) returns an index range that covers every cell the box meets, clamped to the grid.", "quantifier": "every grid and every point/box", "why_tests_cant": "real-valued input space.", "anchors": ["include/um2/mesh/regular_grid.hpp: getCellIndexContaining, getCellIndicesIntersecting"]}
{"id": "C21", "title": "RectilinearGrid", "statement": "A grid built from cell widths and a lattice of ids places row 0 at the top; boxes tile the bounding box; flat indices are a bijection for valid cell indices and an index outside the grid is never mapped onto another cell; a grid built from a set of boxes has exactly their edges as divisions; a grid built from one box has one cell and the box as bounding box.", "quantifier": "every list of positive widths / every set of boxes / every index", "why_tests_cant": "all sizes and all inputs.", "anchors": ["include/um2/mesh/rectilinear_grid.hpp: RectilinearGrid, getFlatIndex, getBox"]}
{"id": "C22", "title": "Partitions keep the lattice layout", "statement": "A rectilinear/regular partition constructed from rows of ids stores ids such that getChild(i,j) is the id in column i of the j-th row counted from the bottom; no id is lost or duplicated.", "quantifier": "every rectangular lattice of ids", "why_tests_cant": "all lattice shapes.", "anchors": ["include/um2/mesh/rectilinear_partition.hpp", "include/um2/mesh/regular_partition.hpp"]}
{"id": "C23", "title": "Axis-aligned boxes form a join semilattice", "statement": "box + box is the smallest box containing both (commutative, associative, idempotent), box += point contains the point and everything it contained, boundingBox of a point set is the least box containing all of them, the empty box is neutral and contains nothing, contains/intersects agree with point-set membership.", "quantifier": "every box, point and point set of any size", "why_tests_cant": "laws over all reals and all list lengths.", "anchors": ["include/um2/geometry/axis_aligned_box.hpp: operator+=, operator+, boundingBox, contains, intersects, empty"]}
{"id": "C24", "title": "Ray/box intersection", "statement": "intersect(ray, box) reports a hit with [tmin,tmax] exactly when the set of t >= 0 with ray(t) in the box is that interval, and (-1,-1) exactly when no such t exists - including rays parallel to an axis.", "quantifier": "every ray and every box", "why_tests_cant": "relies on inf/NaN propagation through min/max for zero direction components.", "anchors": ["include/um2/geometry/axis_aligned_box.hpp: intersect", "include/um2/geometry/ray.hpp"]}
{"id": "C25", "title": "Ray/segment intersection", "statement": "LineSegment::intersect(ray) returns r >= 0 exactly when ray(r) lies on the segment (for non parallel ray and segment), r is unique, and a miss is reported otherwise.", "quantifier": "every segment and non-parallel ray in the plane", "why_tests_cant": "real input space.", "anchors": ["include/um2/geometry/line_segment.hpp: intersect, isLeft"]}
{"id": "C26", "title": "Closest point and distance to a segment", "statement": "pointClosestTo(p) returns a parameter in [0,1] whose point minimises the distance to p over the whole segment; distanceTo is that minimum, zero exactly on the segment; rotating by getRotation maps the segment onto the positive x axis preserving lengths.", "quantifier": "every non-degenerate segment and point", "why_tests_cant": "optimality quantifies over all points of the segment.", "anchors": ["include/um2/geometry/line_segment.hpp: pointClosestTo, squaredDistanceTo, getRotation"]}
{"id": "C27", "title": "Polygon containment and orientation", "statement": "A counter-clockwise triangle contains p exactly when p is a convex combination of its vertices; the same for convex CCW quadrilaterals; flip() reverses the orientation sign and is an involution, keeps the vertex set, and keeps each edge attached to the same curve for quadratic cells.", "quantifier": "every vertex tuple and point", "why_tests_cant": "real input space.", "anchors": ["include/um2/geometry/triangle.hpp", "include/um2/geometry/quadrilateral.hpp", "include/um2/geometry/quadratic_triangle.hpp", "include/um2/geometry/quadratic_quadrilateral.hpp"]}
{"id": "C28", "title": "Polygon area and centroid", "statement": "area() is the signed area: invariant under translation, rotation and cyclic relabelling, negated by reversal, additive when a polygon is cut along a diagonal, equal to base*height on rectangles; the centroid is the area-weighted mean, is translation-equivariant and lies inside triangles.", "quantifier": "every polygon with any number of vertices and any coordinates", "why_tests_cant": "an induction on the number of vertices.", "anchors": ["include/um2/geometry/polygon.hpp: area, centroid", "include/um2/geometry/quadrilateral.hpp: area, centroid", "include/um2/geometry/triangle.hpp: area, centroid"]}
{"id": "C29", "title": "Quadratic segment geometry", "statement": "A QuadraticSegment passes through its three vertices at r = 0, 1, 1/2; the polynomial coefficients, the Lagrange form and the Bezier form describe the same curve and jacobian is its derivative; the bounding box contains every point of the curve and touches it on every side; enclosedArea is the area between curve and chord and enclosedCentroid its centroid; every ray intersection reported lies on curve and ray and none is missed, except that nothing is reported for collinear vertices parallel to the ray.", "quantifier": "every three vertices, every parameter in [0,1], every ray", "why_tests_cant": "a continuum of parameters.", "anchors": ["include/um2/geometry/quadratic_segment.hpp"]}
{"id": "C30", "title": "Quadratic polygon area", "statement": "The area of a quadratic polygon equals its linear polygon's area plus the signed areas enclosed by its edges and equals the boundary integral of (x dy - y dx)/2; straight edges reduce it to the linear area; a linear and a quadratic mesh of the same straight cell have equal area, perimeter and mean chord length.", "quantifier": "every vertex tuple", "why_tests_cant": "real input space and an integral.", "anchors": ["include/um2/geometry/polygon.hpp: area (quadratic), meanChordLength", "include/um2/geometry/quadratic_segment.hpp: enclosedArea"]}
{"id": "C31", "title": "Shape functions", "statement": "For every element type the interpolation reproduces each vertex at its parametric location, its weights sum to 1 (so affine maps commute with it), edges of the element are traced by the edge element, and jacobian is the exact derivative of the interpolation.", "quantifier": "every vertex tuple and all parametric coordinates", "why_tests_cant": "identities over all reals.", "anchors": ["include/um2/geometry/triangle.hpp", "include/um2/geometry/quadrilateral.hpp", "include/um2/geometry/quadratic_triangle.hpp", "include/um2/geometry/quadratic_quadrilateral.hpp", "include/um2/geometry/line_segment.hpp", "include/um2/geometry/quadratic_segment.hpp"]}
{"id": "C32", "title": "Modular rays", "statement": "For every angle strictly between 0 and pi (other than pi/2) and every positive spacing, the ray origins lie on the box boundary, the direction is a unit vector pointing into the box, neighbouring tracks are equally spaced with spacing not larger than requested, there are exactly nx+ny rays and the rays of an angle and its complement link up at the box boundary (cyclic tracking).", "quantifier": "every box, angle and spacing", "why_tests_cant": "a continuum of angles.", "anchors": ["include/um2/geometry/modular_rays.hpp: ModularRayParams, getRay"]}
{"id": "C33", "title": "PolytopeSoup stays well formed under any building history", "statement": "After any sequence of addVertex, addElement, addElset and translate: getElement(i) returns the type and connectivity passed to the i-th addElement, getVertex(i) the point passed to the i-th addVertex, getElset(i) the name/ids/data of the i-th accepted addElset; earlier elements, vertices and elsets are not disturbed by later additions.", "quantifier": "every finite history of additions", "why_tests_cant": "compressed offset arrays; all histories.", "anchors": ["include/um2/mesh/polytope_soup.hpp", "src/mesh/polytope_soup.cpp: addVertex, addElement, addElset, getElement, getElset"]}
{"id": "C34", "title": "Rejected addElset changes nothing", "statement": "addElset with a duplicate name, an empty id list or a data list of the wrong length reports an error and leaves the soup unchanged; otherwise names stay unique.", "quantifier": "every soup state and every call", "why_tests_cant": "all states.", "anchors": ["src/mesh/polytope_soup.cpp: addElset"]}
{"id": "C35", "title": "sortElsets only reorders", "statement": "sortElsets leaves the elsets in ascending name order, each with its own ids and data, and changes nothing else.", "quantifier": "every soup", "why_tests_cant": "must hold for every permutation of sets with different sizes.", "anchors": ["src/mesh/polytope_soup.cpp: sortElsets"]}
{"id": "C36", "title": "Merging soups", "statement": "a += b yields a's vertices/elements followed by b's with connectivity and element ids shifted, elsets with the same name concatenated, others appended; nothing of a is lost; the result is well formed.", "quantifier": "every pair of soups, including empty ones", "why_tests_cant": "all pairs of states.", "anchors": ["src/mesh/polytope_soup.cpp: operator+="]}
{"id": "C37", "title": "getSubset extracts the elset", "statement": "getSubset(name) yields a well-formed soup whose elements are, in order, the elements of the elset with the same vertex coordinates, containing exactly the vertices they use, and every other elset restricted to these elements (with its data); an unknown name is an error that changes nothing.", "quantifier": "every well-formed soup and every elset", "why_tests_cant": "renumbering has to be right for every sharing pattern.", "anchors": ["src/mesh/polytope_soup.cpp: getSubset"]}
{"id": "C38", "title": "compare() of soups is sound", "statement": "compare returns 0 exactly when both soups agree in vertices (up to tolerance), element types, connectivity and elsets, and its non-zero code names the first difference.", "quantifier": "every pair of soups", "why_tests_cant": "all pairs.", "anchors": ["src/mesh/polytope_soup.cpp: compare"]}
{"id": "C39", "title": "XDMF round trip", "statement": "Writing a polytope soup to an XDMF file and reading that file into an empty soup gives the same vertices (without z if every |z| is within the distance tolerance), the same elements with type and connectivity, and the same element sets with ids and data, all in the same order, in single and double precision and with or without assertions; only the .xdmf file and the .h5 file next to it are written. Reading into a non empty soup appends the content without renumbering. The soup's elements must have as many vertices as their type says, elements of a single type must be faces, and element set names must be valid, non colliding data set names (each condition shown necessary by a counterexample).", "quantifier": "every soup content (any number of vertices, elements of any mixture of types, element sets with or without data), path, and previous content of the disk", "why_tests_cant": "mixed encodings must be uniquely decodable for all element sequences.", "anchors": ["src/mesh/polytope_soup.cpp: writeXDMFTopology, addElementsToSoup, getElset/ addElsetToSoup"]}
{"id": "C40", "title": "Abaqus files are read completely and in order", "statement": "Reading an Abaqus file made of node sections, CPS3/CPS4/CPS6/CPS8 element sections, element sets and comments between sections appends exactly the nodes (x, y, z of each line as the decimal number it shows), the elements (type from the header, 1-based vertex numbers made 0-based) and the element sets (each id made 0-based, across any number of lines) of the file, in its order, then sorts the element sets by name with ascending ids; a repeated set name, an unsupported element type or a missing file ends the program. The newline at the end of the file may be missing, and lines have at most 1023 characters.", "quantifier": "every file of that form: any number and order of sections, lines and numbers, any spelling of the numbers, with and without assertions, empty and non-empty soups", "why_tests_cant": "all files.", "anchors": ["src/mesh/polytope_soup.cpp: readAbaqusFile, parseNodes, parseElements, parseElsets"]}
{"id": "C41", "title": "Element and mesh type tables", "statement": "The conversions between VTK and XDMF element type codes are mutually inverse on supported types; the number of vertices is consistent between the tables and with inference from connectivity size; getMeshType depends only on the set of element types.", "quantifier": "every element type and every list of element types", "why_tests_cant": "consistency of several independent tables, all lists.", "anchors": ["include/um2/mesh/element_types.hpp"]}
{"id": "C42", "title": "Mesh/soup conversion round trip", "statement": "Converting a FaceVertexMesh to a PolytopeSoup and back gives the same vertices and faces; converting a planar soup of the right type gives a mesh with the soup's vertices and connectivity.", "quantifier": "every mesh", "why_tests_cant": "all meshes.", "anchors": ["src/mesh/face_vertex_mesh.cpp: FaceVertexMesh(PolytopeSoup), operator PolytopeSoup"]}
{"id": "C43", "title": "Vertex-face incidence", "statement": "After populateVF, the faces listed for vertex v are exactly those whose connectivity contains v, each listed once per occurrence, in ascending face order; offsets are monotone and end at the total connectivity length.", "quantifier": "every mesh", "why_tests_cant": "compressed incidence over all meshes.", "anchors": ["src/mesh/face_vertex_mesh.cpp: populateVF"]}
{"id": "C44", "title": "Morton sorting a mesh preserves its geometry", "statement": "mortonSort() renumbers vertices and faces by permutations: the multiset of faces, each as a tuple of vertex coordinates, is unchanged, and every index stays valid; vertices, and faces by their centroids, come out in the order of the Morton codes of their cells of the bounding box.", "quantifier": "every mesh", "why_tests_cant": "all permutations.", "anchors": ["src/mesh/face_vertex_mesh.cpp: mortonSort, mortonSortFaces, mortonSortVertices"]}
{"id": "C45", "title": "flipFace", "statement": "flipFace reverses the face's orientation: it keeps the vertex set, keeps each mid-edge vertex attached to the same edge, is an involution and touches no other face.", "quantifier": "every mesh and face", "why_tests_cant": "all meshes and element types.", "anchors": ["include/um2/mesh/face_vertex_mesh.hpp: flipFace"]}
{"id": "C46", "title": "Point and ray queries on a mesh", "statement": "faceContaining returns the first face containing the point, or -1 exactly when none does; intersect(ray) returns exactly the union of the per-face edge intersections, and the offsets variant attributes each one to its face.", "quantifier": "every mesh, point and ray", "why_tests_cant": "all meshes.", "anchors": ["include/um2/mesh/face_vertex_mesh.hpp: faceContaining, intersect"]}
{"id": "C47", "title": "Sorted ray-mesh intersections", "statement": "sortRayMeshIntersections orders the face segments along the ray by entry coordinate, each face keeping its own intersections, so consecutive segments are traversed in order.", "quantifier": "every intersection record", "why_tests_cant": "all interleavings.", "anchors": ["src/mesh/face_vertex_mesh.cpp: sortRayMeshIntersections"]}
{"id": "C48", "title": "Manifold / watertight check", "statement": "checkManifoldWatertight accepts a mesh only if every interior edge is shared by exactly two faces with opposite orientation and the boundary edges form one closed loop; it terminates and never reads out of bounds.", "quantifier": "every mesh", "why_tests_cant": "global topological property over all meshes.", "anchors": ["src/mesh/face_vertex_mesh.cpp: checkManifoldWatertight"]}
{"id": "C49", "title": "toZAID", "statement": "toZAID of an element symbol followed by a mass number is 1000*Z + A for every element 1..118 and mass number; distinct nuclides have distinct ZAIDs; unknown symbols are rejected.", "quantifier": "every element and every mass number", "why_tests_cant": "table times unbounded mass numbers.", "anchors": ["src/physics/nuclide.cpp: toZAID"]}
{"id": "C50", "title": "Material densities conserve mass", "statement": "Whatever nuclides are added, by weight fraction, by atom percent or through setUO2, number densities satisfy sum N_i*M_i = (sum of weight fractions)*density*N_A with the requested proportions; setUO2 gives O/U = 2 and the requested enrichment.", "quantifier": "every density, fraction, composition list of any length and order of additions", "why_tests_cant": "real input space and arbitrary lists.", "anchors": ["src/physics/material.cpp: addNuclideWt, addNuclidesAtomPercent, setUO2"]}
{"id": "C51", "title": "Cross-section temperature interpolation", "statement": "interpXS returns the library value at tabulated temperatures, clamps outside the table, interpolates linearly in sqrt(T) between the neighbouring tabulated temperatures, is monotone between them and never leaves their range; the fissile flag is preserved when the entries of the table agree on it (it is taken from the cooler entry otherwise).", "quantifier": "every table of increasing temperatures of any length and every T", "why_tests_cant": "real input and table length.", "anchors": ["src/physics/nuclide.cpp: interpXS"]}
{"id": "C52", "title": "Macroscopic cross sections", "statement": "populateXSec computes sum N_i*sigma_i per group, independent of the order in which nuclides were added and linear in the densities; scattering totals stay equal to the column sums of the scattering matrix; the result passes validation when the microscopic ones do.", "quantifier": "every nuclide list and group count", "why_tests_cant": "all lists.", "anchors": ["src/physics/material.cpp: populateXSec", "include/um2/physics/cross_section.hpp", "src/physics/cross_section.cpp: validate"]}
{"id": "C53", "title": "Homogenised and collapsed cross sections", "statement": "Homogenisation over a cell is the area-weighted mean of the face materials' cross sections, hence lies between the minimum and maximum, equals the material's when uniform, and preserves column-sum consistency; collapsing to one group preserves it too.", "quantifier": "every cell, areas and materials; every group count", "why_tests_cant": "all cells.", "anchors": ["src/mpact/model.cpp: computeCellHomogenizedXSec, getCoarseCellHomogenizedXSec", "src/physics/cross_section.cpp: collapseTo1GroupAvg"]}
{"id": "C54", "title": "CMFD amplification operator", "statement": "For every number p >= 2 of fine cells per coarse cell and every frequency, the transport matrices of the spectral-radius model have the diagonal and the neighbour coupling of every row and the phase-shifted periodic coupling of the last row, and nothing else; the balance system of every direction has exactly one solution; the amplification matrix is the 32-direction sweep followed by the coarse correction, whatever the previous frequency left in the working matrices; in the homogeneous limit every row of the sweep sums to the scattering ratio and the correction removes the flat mode; the result is an eigenvalue of largest modulus over all frequencies. For p = 1 the diagonal coupling is lost (refuted), and the attenuation over a fine cell is exp(-Sigma_t h/mu) only when Sigma_t = 1 (refuted otherwise).", "quantifier": "every p and every frequency", "why_tests_cant": "all p; the smallest p is the corner case.", "anchors": ["src/physics/cmfd.cpp: beta_n, set_An, set_Bn, set_U, getF, set_omega, spectral_radius", "include/um2/physics/cmfd.hpp: CMFDCellParams"]}
{"id": "C55", "title": "Every id in an MPACT model is valid", "statement": "After any history of add* calls, every id stored anywhere (core -> assembly -> lattice -> ray tracing module -> coarse cell -> mesh, and face materials) refers to an object that exists; what an id refers to never changes until clear(); each call is accepted exactly when its arguments fit (with assertions enabled the widths of the cells of an RTM are those of its columns), and, apart from the pin functions, a rejected call changes nothing. The heights of the cells in a row of an RTM match: this part is false (see C55_row_heights_refuted).", "quantifier": "every finite history of model-building calls", "why_tests_cant": "hierarchy of five levels, any history.", "anchors": ["src/mpact/model.cpp: addMaterial, addCoarseCell, addRTM, addLattice, addAssembly, addCore", "include/um2/mpact/model.hpp"]}
{"id": "C56", "title": "Lattice layout in the model", "statement": "flattenLattice and mapFlatIndexToLattice2D are inverse; the id at row r (from the top), column c ends up at cell (c, rows-1-r) of the grid; addCoarseGrid produces the core it describes.", "quantifier": "every lattice shape", "why_tests_cant": "all shapes.", "anchors": ["src/mpact/model.cpp: flattenLattice, mapFlatIndexToLattice2D, addCoarseGrid, stringToLattice"]}
{"id": "C57", "title": "Rectangular pin meshes", "statement": "addRectangularPinMesh(size, nx, ny) yields (nx+1)(ny+1) vertices and nx*ny CCW quadrilaterals that tile [0,w]x[0,h] with equal areas, sharing edges exactly; invalid arguments are refused (with exit_on_error off an empty mesh is left behind, see C57_rejected).", "quantifier": "every size and every positive nx, ny", "why_tests_cant": "all sizes.", "anchors": ["src/mpact/model.cpp: addRectangularPinMesh"]}
{"id": "C58", "title": "Cylindrical pin meshes conserve area", "statement": "addCylindricalPinMesh yields faces whose total area is the pitch squared and whose rings have the exact area of the requested annuli (equal split among the requested rings), with valid connectivity; invalid radii are rejected.", "quantifier": "every pitch, radius list, ring counts and azimuthal count (power of two >= 8)", "why_tests_cant": "all parameters.", "anchors": ["src/mpact/model.cpp: addCylindricalPinMesh"]}
{"id": "C59", "title": "Power regions are connected components", "statement": "getPowers groups faces with non-zero power into subsets such that two faces end up together exactly when linked by a chain of touching faces; every such face is in exactly one subset; the total power is conserved; the merge loop terminates.", "quantifier": "every mesh, power distribution and touching relation", "why_tests_cant": "graph connectivity over all graphs.", "anchors": ["src/mpact/powers.cpp: getPowers"]}
{"id": "C60", "title": "Numbered names", "statement": "getASCIINumber/incrementASCIINumber: starting from 00000 the n-th increment gives the decimal digits of n, for every n the field can hold, so generated names are distinct.", "quantifier": "every counter value", "why_tests_cant": "carries at every position.", "anchors": ["include/um2/mpact/model.hpp: incrementASCIINumber, getASCIINumber"]}
{"id": "C61", "title": "C API sorted heights", "statement": "The (id, height) lists returned by the C API contain every (id, height) pair occurring in the model exactly once up to the tolerance 1e-4, ordered by height and, among equal heights, by id, and depend only on what occurs, not on the order of the assemblies - provided that equality up to the tolerance is transitive among the occurring heights; otherwise no consistent order exists and the call is undefined (C61_order_refuted). The heights of one assembly add up to its height.", "quantifier": "every model", "why_tests_cant": "order laws over all triples of heights.", "anchors": ["src/um2c.cpp: um2MPACTCoarseCellHeights, um2MPACTRTMHeights, um2MPACTLatticeHeights"]}
{"id": "C62", "title": "Logger", "statement": "A message is printed exactly when the number of its kind does not exceed the configured level, on stderr exactly for errors, and only an error with exit_on_error set ends the program. The printed line is, in this order, the color of its kind, the time stamp [HH:MM:SS.mmm] of the elapsed time, the title of the kind, the arguments as text in their order, and the color reset, for every line shorter than 256 characters and elapsed time below 100 hours. With assertions, a longer message is refused before anything outside of the buffer is written (false in release builds, for bool arguments and for the color reset).", "quantifier": "every level, elapsed time and message", "why_tests_cant": "all times and message lengths.", "anchors": ["src/common/logger.cpp", "include/um2/common/logger.hpp"]}
{"id": "C63", "title": "Colors", "statement": "Two colours are equal exactly when all four components are equal; integral components in 0..255 are stored exactly; float components in [0,1] are always convertible, map monotonically into 0..255 with 0 -> 0 and 1 -> 255, and every fraction k/255 maps back to k in float and in double; a colour given by three components is opaque, the default colour is opaque black.", "quantifier": "every component value", "why_tests_cant": "all component tuples.", "anchors": ["include/um2/common/color.hpp"]}
{"id": "C64", "title": "Validation orients faces", "statement": "validate keeps every vertex and every counter-clockwise face and reverses every other face; it returns on a linear mesh exactly if the resulting mesh is watertight; it never leaves a face's ids out of range; no face of a validated mesh is clockwise.", "quantifier": "every valid mesh and every orientation predicate", "why_tests_cant": "over all meshes and mixtures of orientations.", "anchors": ["src/mesh/face_vertex_mesh.cpp: checkCCWFaces, validate"]}
{"id": "C65", "title": "Quadratic segment length and closest point", "statement": "length() of a curved QuadraticSegment is its arc length, and for a straight one with its mid node in the middle half of the chord it is the chord length, which is the arc length; pointClosestTo returns a parameter in [0,1] at which the distance to the point is least over the whole segment, and distanceTo is that distance.", "quantifier": "every three vertices, every point, every parameter", "why_tests_cant": "arc length is an integral and the minimum ranges over a continuum of parameters.", "anchors": ["include/um2/geometry/quadratic_segment.hpp: length, pointClosestTo, squaredDistanceTo, distanceTo"]}
{"id": "C66", "title": "Quadratic segment isLeft", "statement": "isLeft(p) of a curved segment is true iff p is left of the chord, where the points between chord and curve change sides: removed when the curve bulges to the left, added when it bulges to the right. For a straight segment it is true iff p is left of the chord.", "quantifier": "every three vertices, every point off the curve", "why_tests_cant": "a plane of points; triangle, bounding box and root cases must agree along their borders.", "anchors": ["include/um2/geometry/quadratic_segment.hpp: isLeft, isStraight", "include/um2/geometry/polygon.hpp: contains (quadratic)"]}
{"id": "C67", "title": "C API queries of a coarse cell", "statement": "For every coarse cell with a mesh, the C API returns the vertices and the face-vertex connectivity of that mesh in the documented flat layout, the material of every face, and all intersections of a ray with the edges in ascending order; cells of a type without faces are reported and leave the buffers alone; a mesh-less cell with a face type reads out of bounds (C67_no_mesh_refuted).", "quantifier": "every model, cell, ray and sufficiently large buffer", "why_tests_cant": "all meshes and rays.", "anchors": ["src/um2c.cpp: um2MPACTIntersectCoarseCell, um2MPACTCoarseCellFaceData, um2MPACTCoarseCellMaterialIDs, um2MPACTCoarseCellFaceContaining"]}
{"id": "C68", "title": "VTK files are read completely and in order", "statement": "Reading a legacy ASCII VTK file of an unstructured grid into an empty soup gives exactly its points (three decimal numbers of a line, empty lines allowed), its cells (type from the number of vertices, connectivity as written) and one element set of all the cells for each section of cell data (float, double or int values over any number of lines), the sets sorted by name; a repeated name, an integer that cannot be stored without loss, a wrong header or a missing file ends the program. A second SCALARS in a section is dropped, cell types are ignored, several points on a line lose all but the first, ids are not shifted for a non-empty soup, and extra values are written out of bounds (the C68 refutations).", "quantifier": "every file of that form: any number of points, cells, sections, values and blanks, any spelling of the numbers, with and without assertions", "why_tests_cant": "the files are unbounded and the tests read one file.", "anchors": ["src/mesh/polytope_soup.cpp: vtkParseUnstructuredGrid, vtkParseCellData, readVTKFile, PolytopeSoup::read"]}
{"id": "C69", "title": "Intersections of quadratic segments and self-intersection checks report what is there and change only what they may", "statement": "The points two quadratic segments are said to have in common lie on the first, within the documented tolerance of the second, and at least epsDistance apart; what is reported does not depend on the buffer, on the place in it or on the build, nothing else in the buffer is touched, and the yes/no query agrees. A common point is never lost by the bounding boxes, and for straight segments the answer is exact. A polygon is said to cross itself iff two points are reported for a pair of its edges; a repair moves exactly one mid node, the one nearer to its chord; checking a mesh changes nothing but mid nodes, keeps the bounding box and leaves no face that is said to cross itself; validation of a quadratic mesh does this after orienting the faces. Not true: that crossings are always found, that none is found between segments that do not meet, that the documented buffer is large enough, that three common points are handled, that opposite edges crossing once are noticed (the C69 refutations).", "quantifier": "every two quadratic segments, polygon, mesh and buffer; the parts that do not depend on numbers for every arithmetic, in particular IEEE floats", "why_tests_cant": "the recursion visits up to 1024 pairs of pieces, and tests try a few curves with an ample buffer.", "anchors": ["include/um2/geometry/quadratic_segment.hpp: intersect, intersects (two segments)", "include/um2/geometry/polygon.hpp: hasSelfIntersection, fixSelfIntersection", "src/mesh/face_vertex_mesh.cpp: checkSelfIntersections, validate"]}
{"id": "C70", "title": "A model exported to a soup is the whole core, every face in its place and in its sets", "statement": "Converting a reactor model to a polytope soup gives the faces of every coarse cell of every RTM of every lattice of every assembly of the core, in that order, moved by the corners of the assembly, RTM and cell and to the middle of the lattice's heights, with the vertices of their meshes; each face is in the element set named after its cell, its RTM, its lattice and its assembly (id and copy number) and has as data its material, the one-group total cross section of that material, its mean chord length (pi times area by perimeter) and the inverse of their product; there are no other sets. Copies are numbered 0, 1, ... in order, so with at most 100000 objects and copies each set is exactly one object. If something is missing the program ends, or the assemblies before are given. Not true: that different copies always have different sets (past 100000), that a cell that addCoarseCell accepted can be exported (a mesh type without a mesh).", "quantifier": "every model (any number of materials, meshes, cells, modules, lattices, assemblies and copies), every cross section, with and without assertions and ending on errors", "why_tests_cant": "the hierarchy is unbounded and tests export one small core.", "anchors": ["src/mpact/model.cpp: Model::operator PolytopeSoup, getASCIINumber", "include/um2/geometry/polygon.hpp: meanChordLength", "src/mesh/polytope_soup.cpp: operator+=, addElset, sortElsets, translate"]}
{"id": "C71", "title": "Importing cell meshes gives every cell its own set of the file, at the origin, with the named materials, or stops", "statement": "importCoarseCellMeshes takes for coarse cell i the elements of the set Coarse_Cell_i: they must be of one of the four element types, accepted by the mesh validation (clockwise faces turned, watertight), and every element must lie in a set Material_X where X names a material of the model (the first of that name; the last such set counts). Then the cell refers to a new mesh that is these elements moved so that the lower corner of their box (curved edges included) is the origin, and has the material of each face; extents, other cells, older meshes and the rest of the hierarchy are unchanged. It returns exactly if that is so for every cell; if errors do not end the program it stops at the first other cell, and the cells before and after are as expected. All ids remain valid if errors end the program. Not true: that ids remain valid if errors do not end it, or with more than 128 materials.", "quantifier": "every model with fewer than 100000 cells and at most 128 materials, every planar soup with sorted sets, any order of sets, with and without assertions and ending on errors", "why_tests_cant": "the number of cells, elements and sets and the geometry are unbounded; tests import one or two example files.", "anchors": ["src/mpact/model.cpp: Model::importCoarseCellMeshes", "src/mesh/polytope_soup.cpp: getSubset, getElset", "src/mesh/face_vertex_mesh.cpp: FaceVertexMesh(PolytopeSoup const &), validate", "include/um2/mpact/model.hpp: incrementASCIINumber"]}
{"id": "C72", "title": "A reactor model written to an XDMF file is the same model when it is read back", "statement": "Writing a model to an XDMF file (with or without Knudsen numbers and cross section data) succeeds, changes no file but the document and the HDF5 file beside it, and reading it into an empty model gives the same core, assemblies with their heights, lattices, RTMs, coarse cells with extents, mesh type, vertices, faces and materials of the faces, and the same material names, although cells that occur many times are stored once per copy at their places in the core. Not true in general: an assembly with a lattice of another number is not read back, heights are rounded to six decimals (an error of at most half a millionth), a comma in the name of a material gives two materials or an endless loop.", "quantifier": "every model (any hierarchy, sizes, meshes, numbers of copies up to 100000), single and double precision files, with and without assertions, every path and every earlier content of the disk", "why_tests_cant": "the hierarchy, the meshes and the numbers are unbounded; the tests write one core whose numbers of lattices and assemblies agree.", "anchors": ["src/mpact/model.cpp: writeXDMFFile, readXDMFFile, getNXbyNY, mapFlatIndexToLattice2D, Model::write, Model::read", "src/mesh/polytope_soup.cpp: writeXDMFUniformGrid, readXDMFUniformGrid", "include/um2/stdlib/string.hpp: String(Float)"]}
{"id": "C73", "title": "Whatever file is read, the model that results is valid", "statement": "If reading an XDMF file into a valid model returns, every id in the resulting model refers to an existing object, RTMs, lattices, assemblies and the core fit together, and all objects that were in the model before are still there with their ids, whatever the document and the data sets contain. The number of new lattices is never greater than the number of new assemblies.", "quantifier": "every document, every HDF5 content, every valid earlier model, with and without assertions", "why_tests_cant": "file contents are unbounded; tests read only files the program has written.", "anchors": ["src/mpact/model.cpp: readXDMFFile, addCoarseCell, addRTM, addLattice, addAssembly, addCore"]}
{"id": "C74", "title": "The XDMF file of a reactor model shows every coarse cell at its place with its data", "statement": "Writing a model to an XDMF file gives a document with exactly one grid for each copy of each coarse cell in the core, in the order of the core (rows from the bottom, lattices from below), inside grids for the copy of the RTM, the lattice and the assembly it is in, each named after its id and copy number. Reading one of these grids gives the vertices of the cell's mesh moved to the cell's place (at the middle height of its lattice; heights within the point tolerance of zero are zero), its faces, and the sets sorted by name: the material ids, and on request the one-group averages, the total cross sections of each group, the mean chord lengths and the Knudsen numbers, one value for each face. Only the two files change.", "quantifier": "every model that can be written (any numbers of assemblies, lattices, RTMs, cells, faces and materials, up to 100000 copies of each), every choice of the optional data, both precisions, every path, every disk", "why_tests_cant": "The place of a cell is a sum over four levels of the hierarchy and the copy numbers depend on everything visited before; a test sees one core.", "anchors": ["src/mpact/model.cpp:1528-1950 Model::writeXDMF", "src/mesh/polytope_soup.cpp writeXDMFUniformGrid, readXDMFUniformGrid"]}
{"id": "C75", "title": "The reported volumes of the materials are those of their faces and add up to the core", "statement": "Writing a model writes a .volumes file with exactly one line per material, in the order of the materials: its name, a blank and its volume, which is the sum over all copies in the core of the areas of its faces (exact for curved faces) times the height of the lattice they are in. The volumes of all materials together are the volume of all faces, and for a core without gaps this is width times depth times height of the core: nothing is counted twice and nothing is left out. A material that no face of the core uses makes the summation read an empty range.", "quantifier": "every model whose ids exist and whose grids have as many children as places (any numbers of assemblies, lattices, RTMs, cells, faces and materials, any of the four mesh types), every sorting function that sorts, every file name, every way of printing numbers", "why_tests_cant": "The volume is a sum over four levels of the hierarchy in which each object can occur any number of times; a test compares one core.", "anchors": ["src/mpact/model.cpp:2048-2166 writeMaterialVolumes", "src/mpact/model.cpp:2214-2233 Model::write", "include/um2/stdlib/algorithm sum"]}
{"id": "C76", "title": "Mean chord lengths of a core and the ray spacing chosen from them", "statement": "getMeanChordLengths gives the mean chord length (pi times area over perimeter) of every face of every copy of every cell in the core, in the order of the core; each entry is written exactly once. The ray spacing in the input file is a quarter of one of these lengths, chosen so that at most a tenth of the faces have a smaller length and at least a tenth a length that is not larger. A core without faces reads out of bounds; cells without a mesh but with materials leave zeros at the end of the list if errors do not end the program.", "quantifier": "every model whose ids exist and whose cells have meshes, every face with straight edges, and every face with curved edges whose mid nodes are on the middle half of straight edges or not nearly collinear", "why_tests_cant": "The position at which a length is written depends on the number of faces of all cells visited before; tests use cores of a few cells.", "anchors": ["src/mpact/model.cpp:3176-3244 Model::getMeanChordLengths", "src/mpact/model.cpp:2020-2028 writeInputFile", "include/um2/geometry/polygon.hpp meanChordLength"]}
{"id": "C77", "title": "Writing a model writes five files with the right content and touches nothing else", "statement": "Model::write with the name of an .xdmf file writes that file, its HDF5 file and three text files with the same base name and the endings .input, .volumes and .xs; all other files stay as they are. Line by line, the input file has the name of the case, for every material a comment with its name and a card with number, density, temperature and all nuclides with their number densities below each other, the name of the XDMF file and the ray spacing; the cross section file has the numbers of materials and groups and for every material its name and one row per group with absorption, fission, nu-fission, transport and scattering. A material without nuclides leaves its line open, so that a following keyword GEOM is not on a line of its own.", "quantifier": "every model that can be written, any numbers of materials, nuclides and groups, every file name with any directories and any number of periods, every contents of the disk, every way of printing numbers without blanks", "why_tests_cant": "The text depends on all materials and their nuclides; tests compare at most one file.", "anchors": ["src/mpact/model.cpp:1951-2046 writeInputFile", "src/mpact/model.cpp:2168-2210 writeCrossSections", "src/mpact/model.cpp:2214-2233 Model::write"]}
{"id": "C78", "title": "The CMFD file of a core shows every cell at its place with its homogenised data", "statement": "writeCMFDInfo writes one XDMF file and its HDF5 file and changes no other file. Reading it back gives a rectangle for every cell of the core, at the place of the cell and as large as it, in the order of the core; for every kind of cell that is in the core a set with exactly its rectangles; and for every energy group three sets over all rectangles with the total cross section of the cell, its scattering ratio (both homogenised by the areas of its faces) and the real part of the spectral radius of a slab of that material with four fine cells over the mean side length, or -1 if the ratio is above 1. The radius of a cell does not depend on the cells computed before it. If a part of the core is empty, this is reported and no file is written. A cell of the model that is not in the core ends the program, and cells without a mesh end it or read out of bounds.", "quantifier": "every model whose ids exist, with any number of assemblies, lattices, RTMs and cells up to the limits of the names, any meshes of the cells, any macroscopic cross sections with absorption, any file name and contents of the disk, either precision, with and without assertions, any solver and eigenvalue routine that meets the contract of LAPACK", "why_tests_cant": "The vertices, ids and data are collected in nested loops over a hierarchy whose parts are shared; matrices are reused between the cells, so the result of one could depend on the order of the others; no test calls it.", "anchors": ["src/mpact/model.cpp:3247-3517 Model::writeCMFDInfo", "src/physics/cmfd.cpp spectralRadius", "src/mesh/polytope_soup.cpp addElset, write"]}
{"id": "C79", "title": "A cross section library in MPACT's format is read with every value at its place", "statement": "Reading a library file gives the bounds of its energy groups, its fission spectrum and its nuclides in the order of the file, each with its id, mass, temperatures, fissile flags, and at every temperature the absorption, fission, nu-fission, transport and scattering values of every group and the scattering matrix with zeros outside the columns that are given, whatever other sections there are. If the file announces more nuclides than it has, the rest are empty. Whatever the file contains, a library that is returned has a spectrum entry for every group, and every nuclide in it is empty or has a positive id and mass and cross sections for all groups at increasing positive temperatures. A file with more nuclides than announced, or with another line at its end, writes behind the end of the vector of nuclides, and two blanks at the end of a line of group bounds give wrong bounds without assertions.", "quantifier": "every library text: any number of groups, nuclides, temperatures and lines, any decimal or exponent form of the numbers, any blanks between words and any split of group data over lines, any lines between the sections, any contents of the line buffer before, with and without assertions; for the second part every text at all", "why_tests_cant": "The tests read one library. The reader keeps views into a line buffer while the next line is read into it, skips lines by prefix, and indexes nuclides by a counter that the file controls.", "anchors": ["src/physics/cross_section_library.cpp:20-455 readMPACTLibrary", "include/um2/physics/cross_section_library.hpp:24-60 XSLibrary", "src/physics/nuclide.cpp Nuclide::validate", "include/um2/stdlib/string_view.hpp:471-502 getTokenAndShrink"]}
{"id": "C80", "title": "Fragment, intersect and cut of a gmsh model keep its physical groups", "statement": "After groupPreservingFragment or groupPreservingIntersect of surfaces with surfaces or volumes with volumes, every physical group of that dimension has its tag and name and consists exactly of the pieces of its entities and of those of its entities that took no part; a piece that several materials of the hierarchy would get belongs to the first of them alone, so that no piece has two materials of the hierarchy and none that came from one is left without. Groups left without entities and groups of other dimensions are gone. Every entity of a material, and everything in its boundary, has the colour of the first material of the hierarchy that touches it, and nothing else changes colour. groupPreservingCut does the same without a hierarchy. Any other input is reported and changes nothing. With a hierarchy the call is undefined if no group of the dimension has entities afterwards; two groups of the same name can leave a piece with two materials; a material listed twice in the hierarchy loses everything.", "quantifier": "every model with any number of groups and entities, any objects and tools, any hierarchy of materials, any geometry that the kernel makes of the operation with any pieces", "why_tests_cant": "The tests fragment two disks. The new groups are found by walking two sorted lists of tags beside the sorted entities of each group, and the hierarchy subtracts sets pairwise in place; a wrong bound or order shows up only for particular tags, pieces and overlaps.", "anchors": ["src/gmsh/model.cpp: groupPreservingFragment, groupPreservingIntersect, groupPreservingCut, getNewPhysicalGroups, processMaterialHierarchy, colorMaterialPhysicalGroupEntities, groupPreservingInputChecking, getPhysicalGroupInfo"]}
{"id": "C81", "title": "Entities are added to physical groups by name, and materials are found by their groups", "statement": "addToPhysicalGroup adds exactly the given entities to a group of that dimension and name, which keeps its tag and its entities; if there is none, it makes one with the requested tag, or with one that no group of the dimension has. No other group changes. getMaterials appends every material that a group is named after once, unless the list had it, with the colour of the first entity of the first such group, and leaves the list as it is otherwise. A group named just Material makes it throw.", "quantifier": "every model with any number of groups and entities, any ascending list of entities, any tag and name, any list of materials", "why_tests_cant": "A group is removed and made again from a merged list; that nothing else changes is a statement about all groups of all models.", "anchors": ["src/gmsh/model.cpp: addToPhysicalGroup, getMaterials"]}
{"id": "C82", "title": "Pins and lattices of pins are added to a gmsh model where and as described", "statement": "addCylindricalPin2D adds a disk of the first radius and one annulus between each two consecutive radii, all around the given centre. addCylindricalPinLattice2D adds, for every entry of the lattice, the disk and annuli of that kind of pin around the middle of its cell, moved by the offset, with the first row of the lattice on top; the cell is given by the widths of the columns and the heights of the rows. Both return the new surfaces in order: by kind of pin, by row from the bottom, by column, and from the inside out. Each new surface is in the group of the material of its ring and has its colour; no existing surface, group membership or colour of an existing surface or circle changes. No radii, counts that differ, rows of different lengths, unknown pins and, for a single pin, radii that are not positive or decrease are errors. Equal radii are accepted though the message asks for strictly increasing ones; a lattice does not check the radii or the number of materials of a pin, and a lattice without rows is undefined.", "quantifier": "every model with any surfaces and groups, any centre, any number of radii and materials, any lattice of any size with any extents and offset", "why_tests_cant": "The tests add one pin and a 2 x 2 lattice and look at counts. That every ring of every pin is in the right place with the right hole and material is a statement about all lattices; a swapped row, an inner loop that is not advanced or a group that loses its earlier entities shows only for particular layouts.", "anchors": ["src/gmsh/model.cpp: addCylindricalPin2D, addCylindricalPinLattice2D"]}
{"id": "C83", "title": "Every coarse cell of an MPACT model is laid over a gmsh model where it first occurs in the core", "statement": "overlayCoarseGrid looks up a place for each coarse cell: the place of its first occurrence when the core is swept assembly by assembly (rows from the bottom), layer by layer upwards, RTM by RTM and cell by cell. The lower left corner is the sum of the corners of the assembly in the core, of the RTM in its lattice and of the cell in its RTM; the extents are those of the cell; the height is the middle of the layer and the depth half of its thickness. The shortcuts that skip assemblies, lattices and RTMs already seen do not change this. A cell that does not occur gets no place. A core without assemblies is reported.", "quantifier": "every model that the model's own operations can build, of any size", "why_tests_cant": "cells, RTMs, lattices and assemblies can be shared in any pattern; the skipping is only right if everything below a skipped part has its place, in every such pattern.", "anchors": ["src/gmsh/model.cpp: overlayCoarseGrid (lines 1114-1204)"]}
{"id": "C84", "title": "A coarse grid cuts a gmsh model into cells that keep groups, materials and colours", "statement": "After overlayCoarseGrid, for whatever the geometry kernel makes of the rectangles (boxes) and of their fragments with the model: what is left are exactly the pieces of the coarse cells with what bounds them. Cell i has a group Coarse_Cell_ with its five digit number that holds exactly the pieces of its shape. Every other group keeps its tag and name and exactly its pieces inside the grid. Every piece has exactly one material: one of those it had before, and the fill material only if it had no other. Its colour is that of the material, where a fill material that the model has already takes the colour found there. The fill material comes last in the hierarchy. A model of volumes then becomes one of surfaces: its surfaces are intersected with the rectangles of the cells, what is left are exactly the pieces of rectangles with what bounds them and no volumes, every group (coarse cells among them) becomes one group of its name with exactly the pieces left of the surfaces that bound its volumes, and a surface has exactly one of the materials of the volumes that it bounds, the fill material only if there is no other, with the colour of that material. A cell that does not occur in the core makes a kernel refuse the grid.", "quantifier": "every gmsh model of surfaces or of volumes with groups of distinct names and no grid yet, every MPACT model whose cells all occur in the core (up to 100000), every fill material, every geometry kernel that makes one entity per shape and no empty fragments, whose fragments have their boundaries; for volumes, at least one surface that bounds a volume of a group lies in a rectangle", "why_tests_cant": "the pieces depend on the geometry kernel and on how the shapes overlap; the combination of groups, materials, fill and names has to be right for all of them.", "anchors": ["src/gmsh/model.cpp: overlayCoarseGrid (lines 1088-1412)"]}
{"id": "C85", "title": "Writing a gmsh model with its info file and opening it again restores groups and colours", "statement": "If a gmsh model is written with extra_info and opened again, and the geometry file brings back the same entities numbered 1, 2, ... per dimension in the order of their tags, then the model has the same physical groups in the same order, with the same dimension, name and entities (under their new numbers), and every surface and volume has its colour. Group tags are renumbered 1, 2, ... per dimension, and points and lines are unpainted. Opening any text at all ends with a result or an error; it never changes the entities and never removes a group, and a text that does not begin like an info file is an error that adds no group. The info file is named after the model file with its last ending replaced.", "quantifier": "every gmsh model with dimensions 0 to 3, groups of existing entities with names without quotation marks and newlines (no groups of points if assertions are enabled), any colours, up to 2^31-1 entities and groups; every text; every file name", "why_tests_cant": "lines hold eight entries and every remainder, number of digits, gap in the tags and mixture of colours is a different path; arbitrary texts cannot be enumerated.", "anchors": ["src/gmsh/io.cpp: write, open, addPhysicalGroups (lines 12-370)"]}
{"id": "C86", "title": "Mesh sizes from a Knudsen number are those the materials ask for", "statement": "After setMeshFieldFromKnudsenNumber returns, gmsh takes its sizes from one new field and from nothing else, no earlier field is changed, and at every place the size is the least of the sizes asked for by the materials there. A material asks for the side of the equilateral triangle whose mean chord length makes the mean free path over it the Knudsen number. If a fuel threshold is given, materials that are neither fuel nor absorbers ask for a size that grows linearly with the distance from the fuel once that exceeds the threshold in mean free paths; if an absorber threshold is given, absorbers do so with the distance from their own boundary. Scale and offset are as printed with six decimals. A result is only given if there are as many materials as groups of materials, each has its group, the Knudsen number is positive, the cross sections are macroscopic and valid, and there is fuel if a fuel threshold is given. With different names no group of a material is left without size.", "quantifier": "every gmsh model with its groups and boundaries, every list of up to 10000 materials, every dimension, Knudsen number, threshold and scale, every place, any distances, any fields there before", "why_tests_cant": "the field is a composition of fields that refer to each other by number; which growth applies depends on real thresholds, and every mixture of materials and shared boundaries is a different set of fields.", "anchors": ["src/gmsh/mesh.cpp: setMeshFieldFromKnudsenNumber (lines 158-513)"]}
{"id": "C87", "title": "Sources and spectra from an FSR output", "statement": "For an FSR output on faces of one kind, getSource returns for each face two numbers: the sum over the energy groups of its flux times the scattering cross section of its material, and the same with the nu-fission cross section; the groups are the element sets flux_001, flux_002, ... and the materials the element set material, counted from 1. The program that extracts sources adds them (the fission source divided by k, and their sum) as three element sets to the output and changes nothing else. The spectrum has one value per group: the sum over all faces of flux times area. Outputs without faces, of several kinds of faces or of another kind are refused.", "quantifier": "every output of up to 999 groups (998 for the spectrum) whose element sets list the faces in order, any number of faces of any of the four kinds, any materials with as many groups, any k", "why_tests_cant": "sums over arbitrary numbers of faces (blocks of 128) and groups, names counted up with carries, any assignment of materials.", "anchors": ["src/mpact/source.cpp: getSource", "post-process/extract_spectrum.cpp: getSpectrum", "models/c5g7/2d/c5g7_extract_source.cpp: main"]}
{"id": "C88", "title": "Text files of the extraction programs", "statement": "For a reactor model whose coarse cells all have meshes, the program for mean chord lengths writes one line for each face of the core, cell by cell in the order of the core and face by face, with pi times the area of the face over its perimeter; these are the numbers of getMeanChordLengths. The program for edge lengths writes one line for each edge of each of these faces, in the order of its vertices, with its length (arc length for curved edges). The program for CMFD data writes three files with the values of the element sets of total cross sections, scattering ratios and spectral radii, group after group; on the file that writeCMFDInfo wrote for a model these are the homogenised data of the cells of the core.", "quantifier": "every reactor model with valid ids and meshes on all its cells whose faces (times four for the edges) can be counted with 32 bits, meshes of the four kinds mixed in any way; every soup with sets for fewer than 100000 groups; every way to print a number on one line", "why_tests_cant": "any nesting of assemblies, lattices, RTMs and cells with repeated cells of different numbers of faces, and any number of groups.", "anchors": ["post-process/extract_meanchordlength.cpp: main", "post-process/extract_edge_length.cpp: main", "post-process/extract_cmfd_info.cpp: main"]}
{"id": "C89", "title": "Products, linear systems and eigenvalues with BLAS and LAPACK", "statement": "In a build with BLAS and LAPACK: A * x, A * B and matmul(C, A, B) of non-empty matrices are the textbook products, every element is written and nothing of the former contents of the target is left, and they are equal to those of the build without BLAS. linearSolve(A, B) leaves A and B as they are and returns X with A X = B unless A is singular; linearSolve(A, B, ipiv) leaves X in B; with assertions a singular A stops the program. eigvals(A) returns n values, exactly the eigenvalues of A, whenever LAPACK's iteration converges. The CMFD program gets from linearSolve and matmul what C54 assumes.", "quantifier": "all matrix sizes and contents, all arithmetics where 1 x = x and the product commutes; for systems any field and any routine with LAPACK's contract; builds with and without assertions", "why_tests_cant": "all sizes and leading dimensions; singular matrices; all former contents of the target", "anchors": ["src/math/matrix.cpp: operator*, matmul, linearSolve, eigvals", "include/um2/math/matrix.hpp"]}
{"id": "C90", "title": "Meshes asked for by generateMesh", "statement": "After gmsh is initialised, generateMesh(type, n) asks gmsh for a mesh with faces of the given type only (triangles or quadrangles, straight or quadratic without nodes inside the faces, quadratic ones untangled), smoothed n times. After any calls before, order and smoothing are those asked for, and the faces are quadrangles exactly if this call or one before asked for quadrangles. Any other type is an error and makes no mesh. setGlobalMeshSize gives the size to every point of the model and changes nothing else.", "quantifier": "every mesh type, number of smoothing steps, model, and history of earlier calls", "why_tests_cant": "gmsh's options live as long as the program: the mesh depends on the whole history of calls", "anchors": ["src/gmsh/mesh.cpp: setGlobalMeshSize, generateMesh"]}
{"id": "C91", "title": "The table of powers", "statement": "For an FSR output on faces of one kind with powers, extract_powers writes a file with a line of titles and one line with power, x and y for each region of touching faces with power: the sum of power density times area over the region, and its centroid. After that it reports an error exactly if the powers of all regions do not add up to 1 within 1e-3. Outputs without powers, with powers that do not cover the faces or are never positive, and outputs without faces, of several kinds of faces or of another kind are refused without a file.", "quantifier": "every output on any number of faces of any of the four kinds, every distribution of powers, every way to print a number on one line", "why_tests_cant": "any number of regions of any shape, any order of the faces, and sums of arbitrarily many powers.", "anchors": ["post-process/extract_powers.cpp: main", "src/mpact/powers.cpp: getPowers, getPowerData"]}
{"id": "C92", "title": "Files of soups, and the programs from file to file", "statement": "A soup is read from a file as its ending says: .inp as Abaqus, .vtk as VTK and .xdmf as XDMF, with exactly the contents of the file; it is written only to .xdmf, where it can be read again, and no other file changes; any other ending is an error that leaves the soup and the files as they are, and a file that does not exist is an error. From an FSR output in a .xdmf file the program for sources leaves source.xdmf with the output and its scattering, fission and total source and does not change the output; it ends with an error if one of these element sets is there already. The program for powers leaves the table of powers in power_centroid.txt and no other change.", "quantifier": "every file name, every contents of the disk, every soup and FSR output with any number of faces and groups, both float sizes, every sort that sorts", "why_tests_cant": "any file name and contents, any number of faces, groups and element sets, and the whole chain from one file to the next.", "anchors": ["src/mesh/polytope_soup.cpp: PolytopeSoup::read, PolytopeSoup::write", "models/c5g7/2d/c5g7_extract_source.cpp: main", "post-process/extract_powers.cpp: main"]}
{"id": "C93", "title": "Materials from a library file", "statement": "A program that reads a cross section library file and orders materials, each with a name, temperature, density and composition (weight fractions of nuclides, or fuel by enrichment and gadolinia), gets every material in order, with the number densities the composition means and, for every reaction and group, the sum over its nuclides of number density times the cross section that the file gives at the material's temperature: the first or last entry of the table outside its temperatures, on the line in the square root of the temperature between them. It is marked as fissile only if one of its nuclides is. Materials that come out have no nuclide that is not in the file.", "quantifier": "every library and every file that lays it out, with or without assertions; every list of orders with nuclides of the library", "why_tests_cant": "any library, number of groups, nuclides and temperatures, any layout of the file, any composition and temperature, and the whole chain from the text of the file to the cross section of the material.", "anchors": ["src/physics/cross_section_library.cpp: XSLibrary::XSLibrary, XSLibrary::getNuclide", "include/um2/physics/cross_section_library.hpp: numGroups", "src/physics/material.cpp: Material::addNuclideWt, Material::setUO2, Material::populateXSec", "models/nuscale/nuscale_2d.cpp: main, Materials"]}
