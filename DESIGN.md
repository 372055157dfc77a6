# Formal model of UM2 in Rocq (Coq 8.16.1): design

## 1. Shape of the development

Everything lives in `rocq/theories/` under the logical name `Verif`.  For each
domain `X` there are four files:

| file | content |
|------|---------|
| `X_Model.v`  | the code, function by function, each definition citing the file and lines of `/repo` it models. No proofs. |
| `X_Spec.v`   | a small independent vocabulary: what the English property means, without using the model's helpers. |
| `X_Proofs.v` | lemmas and proofs. |
| `X_Props.v`  | only the property theorems (closed by `exact lemma`), `Example`s showing that their hypotheses are met by concrete non-trivial cases, and `Print Assumptions`. |

`Base.v` holds the outcome type used by every model of code that can go wrong:

* `Ret x` - the call returned `x`;
* `Ub`    - the call reached undefined behaviour (out-of-bounds access, read of an
            uninitialised/destroyed object, signed overflow, violated `ASSUME`);
* `Fail`  - the call reported an error through the logger and stopped (`LOG_ERROR`
            calls `exit(1)` under the default settings).

Undefined behaviour is therefore never assumed away: theorems say that a call
returns `Ret`, which includes that it never reaches `Ub`.

### Numbers

* `Int` (`int32_t`) is modelled by `nat` for lengths/indices and by `Z` where sign or
  overflow matters; overflow is checked explicitly where the code can reach it.
* Morton codes and characters are `N`/`Z` with explicit bit widths.
* `Float` is modelled in three ways, chosen per property and stated in each file:
  exact reals `R` (theorems about what the algorithm computes in exact arithmetic),
  extended reals with infinities and NaN (where the code relies on IEEE
  special values), and `Coq.Floats.SpecFloat` binary64 (bit-exact, used for
  refutations and for facts that must hold after rounding).
  What rounding does to the exact-arithmetic theorems is *not* proved, and this
  is part of the trusted base.

### Findings

When the property is false of the code, the model stays faithful and the file
contains a theorem `..._refuted : exists ..., ...` with a concrete witness, next to
the strongest restriction we can prove (named `..._partial` when something of the
English property is missing).

## 2. Plan per property

| id | what is modelled | how it is proved |
|----|------------------|------------------|
| C01 | `Vector` as buffer of slots (raw / live / moved-from) + begin/end/end_cap, all mutating members | simulation with lists, induction over histories of operations |
| C02 | `push_back` with a reference that aliases the buffer, trivial and non-trivial element types | case analysis on realloc; refuted for non-trivial types on a full buffer |
| C03 | `operator==`, `operator<` loops | equivalence with list equality / lexicographic order, then order laws by induction |
| C04 | short/long representation, capacities, `growByAndReplace`, `append` with buffers of bytes | representation invariant, simulation with lists of bytes, induction over histories |
| C05 | `memcmp` loop and `compare` | induction on strings |
| C06 | the search loops | induction: least/greatest index characterisation |
| C07 | `getTokenAndShrink` | equality with a specification splitter; induction on length |
| C08 | `stringToLattice` on bytes, `strto` for decimal digits | print/parse round trip by induction; refutations for blank lines and trailing blanks |
| C09 | `insertionSort` on an array with the shifting loop | sorted + permutation + stability by loop invariants |
| C10 | `sort3`, `sort4` as written | case analysis |
| C11 | the three functions on arrays | loop invariants on cycle following |
| C12 | 32/64 bit magic-mask spreading, encode/decode | bit-level specification `Z.testbit`/`N.testbit`, proof by bit reasoning for all inputs |
| C13 | `pdep`/`pext` per Intel's definition, the masks in the code, float versions | equality with the bit-level specification; monotonicity from bit interleaving |
| C14 | `naiveSum`, `pairwiseSum`, `mean`, `median`, Welford | induction over lists of reals |
| C15 | `Mat` as arrays with the loops of the code; `det2x2`, `inv`, rotation | ring/field, trig identity; refutation for non square shapes |
| C16 | `Matrix` column-major storage, loops | index arithmetic + sums by induction; `matmul` accumulation refuted |
| C17 | `solveQuadratic` over R | field/nra, case analysis |
| C18 | `solveCubic` deflation over R | algebra |
| C19-C20 | `RegularGrid` over R, dims 1-3 | Euclidean division, order reasoning, floor |
| C21 | `RectilinearGrid` divisions as lists | induction; index collision refuted |
| C22 | partition constructors | index arithmetic |
| C23 | boxes over R | lattice laws, induction over point sets |
| C24 | slab test over extended reals with NaN | case analysis on zero components; NaN counterexample refuted, exact condition proved |
| C25-C26 | `LineSegment` over R | algebra + quadratic minimisation |
| C27-C28 | polygons over R | algebra, induction on vertex lists |
| C29-C30 | quadratic segment / polygon | polynomial identities, derivative and integral via antiderivatives |
| C31 | interpolation / jacobian | ring + derivable_pt_lim |
| C32 | `ModularRayParams` over R | trigonometry (atan), ceiling |
| C33-C38 | `PolytopeSoup` as the code stores it (flat arrays + offsets) | invariants and refinement to an abstract soup (list of elements, list of elsets) |
| C39 | the XDMF writer and reader on an XML tree and a list of HDF5 data sets | writer then reader gives the soup back, by induction over elements and sets; refutations for the soups that are not given back |
| C40 | the Abaqus reader on the characters of a file (getline with its buffer, strtod, strtol) | every file of a grammar gives the content the grammar assigns to it; refutations for what is silently lost |
| C41 | tables | finite case analysis, induction over lists |
| C42-C48 | `FaceVertexMesh` as arrays | induction; refutations where found |
| C49 | `toZAID` on bytes and the symbol table | computation over the 118 symbols + induction on digits |
| C50-C53 | materials and cross sections over R | sums, field |
| C54 | `set_An`/`set_Bn` over a ring with phase factors | index reasoning; refuted for p = 1 |
| C55-C58 | model building functions | invariants over histories, geometry sums |
| C59 | merge loop of `getPowers` | connected components by invariant |
| C60 | digit increment on bytes | carry lemma |
| C61 | the tolerance comparator | refutation of transitivity |
| C62-C63 | logger arithmetic, `Color` | arithmetic |
| C64 | `validate` of a mesh, faces oriented counter-clockwise | loop invariant; orientation of flipped faces; the criterion of C48 on the result; concave quadrilaterals refute that no face is clockwise |
| C65-C66 | quadratic segment: length, closest point, `isLeft` | integrals, case analysis over the parabola; refutations |
| C67 | the C interface to a coarse cell | equality of the filled buffers with the mesh, by induction |
| C68 | the VTK reader on the characters of a file | as C40 |
| C69 | intersection of quadratic segments and the self-intersection checks, over any arithmetic, IEEE included | induction over the bisection; exact arithmetic for soundness; computed doubles for refutations |
| C70 | `Model::operator PolytopeSoup`: the four nested levels, counters, names, offsets, per-face data | induction over each level against the hierarchy written out; injectivity of the names |
| C71 | `Model::importCoarseCellMeshes`: the subset of each cell, material sets, the mesh constructor with validation, the move to the origin | induction over the cells; the subset, the box and the material of each face are unique, so the run and the specification agree |
| C72 | `Model::write` and `Model::read` for XDMF: the soups of the cells, the four nested levels with their groups, names and counters, heights as text, and the reader that collects ids and rebuilds the model | the writer appends nodes of known shape; the reader's state after each node is described by invariants (ids seen, rows filled); the rebuilt objects are accepted as in C55 and C56 |
| C73 | the same reader on any document | each step of the reader is a step of C55; the ids of lattices are ids of assemblies |
| C74 | the same writer | the traversal runs along the list of placed cells of C70 (same numbering of the copies); each grid is written to a fresh group, so it can be read whatever is written later |
| C75 | `writeMaterialVolumes` on the model of C55 | the nested loops append to the list of a material in the order of the core, so each list is a filter of one list of (material, volume); sorting keeps sums; areas by C28 and C30; for a core without gaps each level of the hierarchy multiplies out |
| C76 | `getMeanChordLengths`, the choice of the ray spacing | the second loop writes behind what it has written; counting below and above an element of a sorted list |
| C77 | `writeInputFile`, `writeCrossSections`, `Model::write` | the text is a list of lines with their ends; cutting it at the line ends gives the lines back if none of them contains one |
| C78 | `writeCMFDInfo`; LAPACK's solver and eigenvalues are parameters with contracts | the soup is built by loops over the hierarchy; loop invariants give its content, C39's round trip the file; the radius does not depend on the matrices left by the cell before (`C54_repeatable`) |
| C79 | the reader of MPACT libraries, with its shared line buffer | the file is a list of lines fed one by one; per line the words are read off a view; loop invariants for the values that were filled so far; for arbitrary files an invariant of everything the reader stores |
| C80 | the group preserving operations of gmsh/model.cpp; gmsh is a state of groups, boundaries and colours, the boolean operation a parameter | invariant of the walk over the sorted tags; invariant of the pairwise subtraction (what is taken off so far is everything of the earlier materials); the colours by induction over the hierarchy |
| C81 | `addToPhysicalGroup`, `getMaterials` | membership in the merged list; induction over the groups with the materials found so far |
| C82 | `addCylindricalPin2D`, `addCylindricalPinLattice2D`; the kernel makes circles, loops and surfaces with fresh tags; radii are reals | one invariant for the surfaces made so far, carried from ring to pin, row, kind of pin and lattice; groups and colours by induction over the materials |
| C83 | the part of `overlayCoarseGrid` that finds the places of coarse cells, on the MPACT model of C54-C56; flags are lists of booleans | the occurrences in the core as one list; each loop stores what is in its part of the list unless there is something already; skipping is right because everything below a flagged part is stored |
| C84 | the rest of `overlayCoarseGrid`; making shapes, fragments and intersection are parameters with what is asked of them stated | names as text by the lemmas of C60/C62; groups before the operation as one membership statement; C80 and C81 for the operation; then the set difference; for volumes the groups of surfaces as one membership statement and C80 again for the intersection |
| C85 | `gmsh::write` and `gmsh::open` with `extra_info`: the info file as text, both ways; gmsh as in C79, the geometry file is a renumbering of the entities | writer as concatenated lines; reader line by line by induction over full lines and the remainder, `std::map` order and colours by membership; totality for any text by a safety predicate over the reader |
| C86 | `setMeshFieldFromKnudsenNumber`: groups and materials matched, 1-group averages, fields added to gmsh, the field in use and the options; gmsh's evaluation of fields is the inductive `size_at` of the specification; the printing of numbers by `std::to_string` is a parameter within half a millionth | every added field gets a value by induction over the fields (values are kept when fields are added and are unique); the least over the materials by induction over the rows |
| C87 | `getSource`, `getSpectrum` and the program that extracts sources, on the soup of C33 and the meshes of C42 | invariant of the loops over faces and groups; the names by C60 and evaluation of all 999 increments; the soup's contents by C33 |
| C88 | the programs that extract mean chord lengths, edge lengths and CMFD data, on the reactor model of C55 and the soup of C33 | invariants of the loops that fill the table of the cells and the global vector; the lengths by C65 and C76; induction on the groups, and the file of C78 |
| C89 | `src/math/matrix.cpp` over the reference routines of BLAS on flat arrays; LAPACK's gesv and geev are parameters with contracts | invariants of the column loops; a column of the target is a segment of the array; existence of a routine with the contract of gesv by elimination over any field |
| C90 | generateMesh, setGlobalMeshSize on gmsh's table of options and a record of the calls that make meshes | induction over the history of calls: what the options hold is a function of whether quadrangles were asked for |
| C91 | extract_powers from the soup that was read to the text of power_centroid.txt | composition of C59 with the conversion of the soup to faces and of the text printed to its lines |
| C92 | the soup's files by ending, and the programs for sources and powers from the file they read to the file they leave | composition of C39, C40, C68 with C87 and C91; coordinates that were cleaned once stay as they are when cleaned again |
| C93 | a program's materials from the text of a library file, by weights or enrichment, to cross sections | composition of C79, C50, C51 and C52; the specification looks up the library, the masses and the tables by itself |

Nothing in the list is outside what a model can express; Section 4 says what is modelled and what is not.

## 3. Trusted base

* Coq 8.16.1 kernel (and `vm_compute`).
* Axioms reported by `Print Assumptions`: theorems over `R` rely on the axioms of the
  standard library's real numbers (`ClassicalDedekindReals.sig_forall_dec`,
  `ClassicalDedekindReals.sig_not_dec`, `FunctionalExtensionality.functional_extensionality_dep`,
  and `Classical_Prop.classic` where `Rbar`/integrals are used). All the other theorems are axiom-free.
  Section 5 lists them per theorem.
* The correspondence between `X_Model.v` and the C++ text, which was established by reading.

## 4. What is modelled and what is not

Every definition of a `X_Model.v` cites its lines in `/repo`; the head of the file says what is simplified.

| part of the code | model | not modelled |
|------------------|-------|--------------|
| `stdlib/vector.hpp`, `stdlib/string.hpp`, `stdlib/string_view.hpp` | `Vector_Model`, `String_Model`, `StringView_Model`: explicit heap, buffers of slots, short and long strings | allocation failure; `reverse_iterator`s |
| `stdlib/algorithm`, `numeric`, `utility` | where the modelled code uses them | `std::sort` is a parameter with the contract of the standard (permutation, sorted, only for strict weak orders) |
| `stdlib/math` | the functions of the real numbers | rounding |
| `common/insertion_sort`, `branchless_sort`, `permutation`, `string_to_lattice`, `strto`, `color`, `logger` | `Sort_Model`, `StringView_Model`, `TextIo_Model`, `Color_Model`, `Logger_Model` | terminal output, `cast_if_not`, memory usage; `settings` are parameters |
| `math/vec`, `mat`, `matrix`, `stats`, `morton`, `quadratic_equation`, `cubic_equation` | `Vec_Model`, `Matrix_Model`, `Stats_Model`, `Morton_Model`, `Roots_Model` | BLAS/LAPACK calls (`src/math/matrix.cpp`: see `Blas_Model`), SIMD instructions (lane-wise equal by reading) |
| `geometry/*` | `Box_Model`, `Seg_Model`, `Poly_Model`, `QSeg_Model`, `QPoly_Model`, `QInt_Model`, `Shape_Model`, `Rays_Model`, `Morton_Model` | rounding, except where extended reals or SpecFloat are used |
| `mesh/regular_grid`, `rectilinear_grid`, the partitions | `Grid_Model`, any dimension | |
| `mesh/element_types`, `polytope_soup` | `Elem_Model`, `Soup_Model`, `Xdmf_Model`, `TextIo_Model`, `Abaqus_Model`, `Vtk_Model` | what pugixml and HDF5 do with bytes: the document is a tree, the HDF5 file a list of data sets |
| `mesh/face_vertex_mesh` | `Fvm_Model`, `FvmMorton_Model`, `Manifold_Model`, `RayMesh_Model`, `QInt_Model` | OpenMP scheduling |
| `physics/*` | `Zaid_Model`, `Density_Model`, `XSec_Model`, `Cmfd_Model`, `Library_Model` | the C5G7 data; eigenvalues are a parameter |
| `mpact/model` | `Mpact_Model`, `PinRect_Model`, `PinCyl_Model`, `XSec_Model`, `Ascii_Model`, `Export_Model`, `Import_Model`, `ModelIo_Model`, `Outputs_Model`, `CmfdInfo_Model` | - |
| `mpact/powers`, `um2c` | `Powers_Model`, `CApi_Model` | file names |
| `mpact/source`, `post-process/extract_spectrum.cpp`, `models/c5g7/2d/c5g7_extract_source.cpp` | `Source_Model` (C87) | the command line; reading and writing the file is C39 |
| `post-process/extract_meanchordlength.cpp`, `extract_edge_length.cpp`, `extract_cmfd_info.cpp` | `Extract_Model` (C88) | the command line; how a number is printed is a parameter; failures to open, write or close a file |
| `src/math/matrix.cpp` | `Blas_Model` (C89) | BLAS is its reference implementation with beta = 0; LAPACK is a parameter; the float, double and complex specialisations differ in the arithmetic only |
| `src/gmsh/mesh.cpp`: setGlobalMeshSize, generateMesh | `Meshing_Model` (C90) | gmsh itself: the meaning of its options is taken from its manual (`Meshing_Spec`) |
| `post-process/extract_powers.cpp`: main | `PowerFile_Model` (C91) | failures to open, write or close the file; how numbers are printed is a parameter |
| `src/mesh/polytope_soup.cpp`: constructor from a file, read, write; the mains of `c5g7_extract_source` and `extract_powers` | `Files_Model` (C92) | the command line; failures of the file system; an error in a reader ends the program, whatever exit_on_error |
| the materials part of `models/nuscale/nuscale_2d.cpp` (and of the other models in the same form) | `LibMat_Model` (C93) | names but for their length, colours; the assertions of the setters, which populateXSec repeats |
| `gmsh/model.cpp` | `addToPhysicalGroup`, `getMaterials`, `colorMaterialPhysicalGroupEntities`, the group preserving operations, `addCylindricalPin2D`, `addCylindricalPinLattice2D`, `overlayCoarseGrid` (`Coarse_Model`, `Overlay_Model`, `Slice_Model`) | gmsh itself (a state and a parameter) |
| `gmsh/io.cpp` | `write` and `open` with their info files (C85) | `gmsh::write` and `gmsh::open` on the geometry itself, opening files, removing meshes from names |
| `gmsh/mesh.cpp` | `setMeshFieldFromKnudsenNumber` (C86) | `setGlobalMeshSize`, `generateMesh`: see the row of `Meshing_Model` (C90) |
| `gmsh/base_gmsh_api.cpp` | nothing | calls into the gmsh library |
| CUDA/OpenMP, MPI | nothing | the code is sequential in every model |

## 5. Axioms per theorem

What `Print Assumptions` lists, produced by `tools/gen_axioms.py` after a build. All of them are axioms of the standard library:
E = `FunctionalExtensionality.functional_extensionality_dep`, F = `ClassicalDedekindReals.sig_forall_dec`,
N = `ClassicalDedekindReals.sig_not_dec`, C = `Classical_Prop.classic`. `none` = closed under the global context.
One `Example` also uses `IndefiniteDescription.constructive_indefinite_description`.

<!-- axioms: begin -->
| file | axioms | theorems |
|------|--------|----------|
| `Abaqus_Props` | EF | C40_read, C40_append, C40_repeated, C40_comment_refuted, C40_comma_refuted, C40_long_refuted, C40_blank_refuted, C40_case_refuted, C40_ids_refuted, C40_rejects |
| `Ascii_Props` | none | C60_get, C60_distinct, C60_increment, C60_history, C60_spill, C60_overflow_refuted |
| `Blas_Props` | none | C89_products, C89_same_in_both_builds_refuted, C89_empty_refuted, C89_solve |
| `Blas_Props` | CDEFN | C89_singular_refuted |
| `Blas_Props` | EFN | C89_eigvals |
| `Blas_Props` | EF | C89_cmfd |
| `Box_Props` | none | C23_join, C23_laws, C23_add_point, C23_boundingBox, C23_contains, C23_intersects, C23_empty |
| `Box_Props` | EFN | C23_empty_far_refuted, C23_scale, C23_measures, C24_intersect_partial, C24_min_face_refuted, C24_max_face_refuted, C24_far_refuted |
| `CApi_Props` | EF | C61_lattice_heights, C61_rtm_heights, C61_cell_heights, C61_determined, C61_returned, C61_assembly_heights, C67_intersect, C67_no_type |
| `CApi_Props` | EFN | C61_order_refuted, C67_no_mesh_refuted |
| `CApi_Props` | none | C67_materials, C67_face_data, C67_face_containing |
| `CmfdInfo_Props` | CEFN | C78_written, C78_incomplete, C78_unused_refuted |
| `CmfdInfo_Props` | EFN | C78_meshless_refuted |
| `Cmfd_Props` | CEFN | C54_average, C54_nonsingular, C54_single_refuted, C54_attenuation_unit, C54_attenuation_refuted, C54_amplification, C54_rows, C54_flat, C54_spectral, C54_repeatable |
| `Cmfd_Props` | EFN | C54_balance |
| `Cmfd_Props` | EF | C54_quadrature |
| `Coarse_Props` | EF | C83_places, C83_occurs, C83_no_core |
| `Color_Props` | none | C63_equality, C63_integral, C63_fractions |
| `Color_Props` | EF | C63_opaque, C63_floating, C63_monotone, C63_value, C63_out_of_range |
| `Density_Props` | EF | C50_table, C50_addNuclide, C50_addNuclide_refuses, C50_weight, C50_weight_refuses, C50_weights, C50_weights_order, C50_atoms, C50_atoms_zero, C50_history, C50_setUO2, C50_setUO2_refuses, C50_symbol |
| `Elem_Props` | none | C41_vtk_xdmf, C41_codes_injective, C41_vertices, C41_infer, C41_infer_refuted, C41_getElemTypes, C41_meshType, C41_meshType_order |
| `Export_Props` | CEFN | C70_export, C70_incomplete, C70_chord, C70_chord_curved, C70_object_sets, C70_shared_name_refuted, C70_meshless_cell_refuted |
| `Export_Props` | EF | C70_places |
| `Export_Props` | F | C70_numbered |
| `Export_Props` | EFN | C70_reachable |
| `Extract_Props` | CEFN | C88_chords, C88_same, C88_edges, C88_meshless_refuted, C88_written |
| `Extract_Props` | none | C88_groups, C88_stale_refuted, C88_endless_refuted |
| `Files_Props` | EF | C92_inp, C92_vtk, C92_xdmf, C92_other, C92_missing, C92_source, C92_in_use |
| `Files_Props` | EFN | C92_powers |
| `Fvm_Props` | none | C42_round_trip, C42_to_soup, C42_from_soup, C42_rejected, C42_nonplanar_refuted, C43_populateVF, C43_incident_faces, C43_incident_count, C43_incident_ascending, C43_bad_id_ub, C43_never_stale, C44_mortonSort, C44_mortonSortVertices, C44_mortonSortFaces, C45_flipFace_partial, C45_quad8_refuted, C45_edges, C46_faceContaining, C46_intersect, C46_intersect_offsets, C46_polygons, C46_exact_buffer_refuted |
| `Fvm_Props` | EF | C44_triangles, C44_code_unique, C44_translated_refuted |
| `GmshIo_Props` | none | C85_round_trip, C85_numbers, C85_any_text, C85_foreign, C85_write_total, C85_info_name, C85_info_name_plain, C85_info_name_refuted, C85_group_tags_refuted, C85_quote_refuted, C85_points_refuted, C85_line_colours_refuted, C85_short_line_refuted, C85_negative_refuted |
| `Grid_Props` | F | C19_numbering, C19_totalNumCells, C21_numbering, C21_from_box, C22_regular |
| `Grid_Props` | EF | C19_tiling, C19_centroid, C19_from_box, C20_containing, C20_containing_box, C20_intersecting, C20_far_point_refuted, C21_tiling, C21_from_boxes, C21_from_lattice, C21_lattice_layout, C21_flat_index_refuted, C22_from_lattice |
| `Groups_Props` | none | C80_preserved, C80_one_material, C80_cut, C80_rejects, C80_no_groups_refuted, C80_same_name_refuted, C80_twice_refuted, C81_add, C81_materials, C81_name_refuted |
| `Import_Props` | EFN | C71_import, C71_stopped, C71_complete, C71_ids, C71_failed_refuted, C71_many_materials_refuted, C71_validation, C71_selfcheck |
| `Knudsen_Props` | EFN | C86_size, C86_accepts, C86_duplicates_refuted, C86_many_refuted |
| `Knudsen_Props` | EF | C86_covered |
| `LibMat_Props` | EFN | C93_materials, C93_only, C93_determined |
| `Library_Props` | EFN | C79_reads, C79_extra_refuted, C79_endless_refuted, C79_any |
| `Library_Props` | EF | C79_blanks_refuted |
| `Logger_Props` | none | C62_printed, C62_line_unique, C62_kinds, C62_too_long_refused, C62_release_refuted, C62_bool_refuted, C62_reset_refuted, C62_hours_refuted, C62_clock_refuted, C62_days_refuted |
| `Manifold_Props` | none | C48_check_partial, C48_orientation_refuted, C48_bounds_refuted, C64_orients_faces, C64_validate, C64_no_clockwise_partial |
| `Manifold_Props` | EFN | C64_triangles, C64_concave_refuted |
| `Matrix_Props` | none | C16_addressing, C16_transpose, C16_transpose_involution, C16_mat_vec, C16_mat_mat, C16_entrywise, C16_matmul_refuted |
| `Matrix_Props` | EFN | C16_identity, C16_matmul_partial |
| `Meshing_Props` | none | C90_first, C90_history, C90_triangles_refuted, C90_invalid, C90_size |
| `ModelIo_Props` | CEFN | C72_roundtrip, C72_lattices_refuted, C74_shown |
| `ModelIo_Props` | EF | C72_place, C72_heights, C72_heights_refuted |
| `ModelIo_Props` | none | C72_comma_refuted, C72_endless_refuted |
| `ModelIo_Props` | EFN | C73_valid, C73_lattices |
| `Morton_Props` | none | C12_roundtrip2_32, C12_roundtrip2_64, C12_roundtrip3_32, C12_roundtrip3_64, C12_limits, C12_codes2_32, C12_codes2_64, C12_codes3_32, C12_codes3_64, C13_bmi_encode, C13_bmi_decode, C13_bmi_decode3_unused_bits_refuted, C13_dominance2_32, C13_dominance2_64, C13_dominance3_32, C13_dominance3_64 |
| `Morton_Props` | EF | C13_float2_32, C13_float2_64, C13_float3_32, C13_float_cells, C13_mortonLess, C13_float_roundtrip |
| `Mpact_Props` | EFN | C55_history, C55_append_only, C55_rejected, C55_row_heights_refuted, C55_release_mismatch_refuted, C55_release_ragged_refuted, C55_pin_without_mesh_refuted, C55_rect_pin |
| `Mpact_Props` | none | C55_material, C55_meshes, C56_flat_index, C56_ragged |
| `Mpact_Props` | EF | C55_cell, C55_rtm_missing, C55_rtm, C55_rtm_fits, C55_lattice_missing, C55_lattice_ragged, C55_lattice, C55_assembly, C55_core_again, C55_core_missing, C55_core, C55_empty_undefined, C56_coarse_grid, C56_coarse_grid_refused, C56_coarse_grid_again |
| `Mpact_Props` | F | C55_totals, C56_rtm_core_layout, C56_lattice_layout |
| `Mpact_Props` | CEFN | C55_pin_cell, C55_material_wrap_refuted, C55_pin_mesh_left_refuted |
| `Outputs_Props` | CEFN | C75_file, C75_unused_refuted, C76_lengths, C76_skipped, C76_linear, C76_curved, C76_rays, C76_empty_refuted, C77_input, C77_nuclides_refuted, C77_write |
| `Outputs_Props` | EF | C75_total, C75_conserved |
| `Outputs_Props` | F | C77_xs |
| `Overlay_Props` | EF | C84_gridded, C84_absent |
| `Overlay_Props` | none | C84_order, C84_order_refuted |
| `PinCyl_Props` | CEFN | C58_linear, C58_quadratic_partial |
| `PinCyl_Props` | EFN | C58_rejected, C58_rejected_linear, C58_rejected_quadratic, C58_empty_undefined |
| `PinRect_Props` | EFN | C57_grid, C57_rejected, C57_rejected_unchanged_refuted, C57_overflow |
| `Pins_Props` | EF | C82_pin, C82_pin_rejects, C82_lattice, C82_lattice_rejects, C82_equal_radii_refuted, C82_radii_refuted, C82_materials_refuted, C82_no_rows_refuted |
| `Pins_Props` | none | C82_parts |
| `Poly_Props` | EFN | C27_triangle, C27_degenerate_refuted, C27_quadrilateral, C27_triangle_orientation, C27_quadrilateral_orientation, C27_convex, C27_isCCW, C28_area, C28_area_affine, C28_cyclic, C28_reverse, C28_cut, C28_rectangle, C28_centroid, C28_centroid_affine, C28_triangle, C28_quadrilateral, C28_perimeter, C28_perimeter_isometry, C28_meanChordLength |
| `Poly_Props` | none | C27_quadratic_triangle_flip, C27_quadratic_quadrilateral_flip_refuted, C28_edges |
| `PowerFile_Props` | EFN | C91_table, C91_refused, C91_kinds, C91_ids_refuted |
| `Powers_Props` | EFN | C59_regions, C59_sound, C59_total, C59_rejected, C59_rejected_types, C59_tiny_refuted |
| `QInt_Props` | none | C69_pure, C69_room, C69_self, C69_self_room, C69_fix, C69_hits, C69_turn, C69_check, C69_check_clean, C69_validate, C69_overflow_refuted |
| `QInt_Props` | EFN | C69_sound, C69_search_partial, C69_straight, C69_self_sound, C69_self_straight, C69_fix_moves, C69_bowtie_refuted |
| `QInt_Props` | EF | C69_assert_refuted, C69_missed_refuted, C69_contact_refuted, C69_false_hit_refuted |
| `QPoly_Props` | CEFN | C30_area, C30_straight, C30_perimeter, C30_centroid |
| `QPoly_Props` | EFN | C30_area_straight, C30_contains, C30_boundingBox, C30_intersect, C30_flip_triangle, C30_flip_quadrilateral_refuted |
| `QSeg_Props` | EFN | C29_interpolates, C29_forms, C29_bounding_box, C29_curves_left, C29_intersect, C29_hits_distinct_refuted, C29_hits_sorted_refuted, C65_isStraight, C66_isLeft, C66_isLeft_straight |
| `QSeg_Props` | CEFN | C29_jacobian, C29_enclosed_area, C29_enclosed_centroid, C65_length, C65_length_straight, C65_length_refuted, C65_length_nan_refuted, C65_closest, C65_closest_centred, C65_closest_refuted, C65_distance |
| `RayMesh_Props` | none | C47_sortRayMeshIntersections, C47_traversed_in_order, C47_by_entry_refuted |
| `Rays_Props` | CEFN | C32_parameters, C32_origins, C32_spacing, C32_modular, C32_cyclic |
| `Roots_Props` | EFN | C17_solveQuadratic |
| `Roots_Props` | EF | C17_discriminant, C18_constants, C18_deflation |
| `Roots_Props` | CEFN | C18_solveCubic, C18_quadratic |
| `Seg_Props` | EFN | C25_intersect, C25_isLeft, C26_closest, C26_rotation |
| `Shape_Props` | EFN | C31_total, C31_vertices, C31_affine, C31_polynomials, C31_linear_edges, C31_quadratic_edges, C31_segment_affine |
| `Shape_Props` | CEFN | C31_jacobian, C31_segment |
| `Slice_Props` | EF | C84_surfaces, C84_volumes, C84_apart_refuted |
| `Sort_Props` | none | C09_insertionSort, C10_sort3, C10_sort4, C11_sortPermutation, C11_applyPermutation, C11_invertPermutation, C11_invert_involutive, C11_apply_then_inverse |
| `Soup_Props` | none | C33_history, C33_getters, C33_undisturbed, C33_returned_ids, C34_rejected, C34_accepted, C34_names_unique, C35_sortElsets, C35_empty_refuted, C36_append, C36_well_formed, C36_empty_refuted, C36_self_refuted, C36_mixed_data_refuted, C37_getSubset, C37_unknown, C37_unsorted, C38_compare, C38_zero |
| `Source_Props` | EF | C87_source, C87_extract, C87_in_use, C87_missing_refuted, C87_order_refuted |
| `Source_Props` | EFN | C87_spectrum, C87_rejects |
| `Stats_Props` | EF | C14_sum, C14_mean, C14_median, C14_variance |
| `Stats_Props` | EFN | C14_stdDev |
| `StringView_Props` | none | C05_compare, C05_operators, C05_string_operators, C05_total_order, C05_starts_with, C05_ends_with, C05_starts_ends_char, C06_find_first_of, C06_find_first_not_of, C06_find_last_of, C06_string_find_last_of, C06_find_first_of_substring, C06_substr, C06_removeLeadingSpaces, C07_token, C07_tokens, C07_runs_unique, C08_round_trip, C08_malformed_refuted |
| `String_Props` | none | C04_history, C04_no_leak, C04_number_refuted, C04_assign_own_part_refuted |
| `Vec_Props` | none | C15_mat_vec, C15_mat_mat_partial, C15_mat_mat_refuted, C15_mat_entrywise, C15_vec_entrywise, C15_vec_scalar |
| `Vec_Props` | EFN | C15_associative, C15_identity, C15_inv, C15_rotation, C15_rotation_add, C15_det, C15_cross2, C15_cross3, C15_cross3_formula, C15_dot, C15_norm, C15_normalized, C15_distance, C15_compare, C15_order, C15_minmax |
| `Vector_Props` | none | C01_history, C01_no_leak, C01_reserve, C01_overflow_refuted, C02_push_own_partial, C02_push_own_refuted, C03_equality, C03_lexicographic, C03_order, C03_derived |
| `Vtk_Props` | EF | C68_read, C68_repeated, C68_rejects, C68_large, C68_scalars_refuted, C68_types_refuted, C68_points_refuted, C68_append_refuted, C68_extra_refuted, C68_blank_refuted |
| `XSec_Props` | EF | C51_validated |
| `XSec_Props` | EFN | C51_tabulated, C51_below, C51_above, C51_between, C51_monotone_between, C51_monotone, C51_range, C51_consistent, C51_fissile, C51_fissile_refuted, C52_sum, C52_order, C52_linear, C52_consistent, C52_validates, C52_rejects, C52_in_library, C53_mean, C53_range, C53_uniform, C53_consistent, C53_order, C53_collapse, C53_collapse_range |
| `Xdmf_Props` | EF | C39_roundtrip, C39_append, C39_kept_unique, C39_edges_refuted, C39_names_refuted, C39_z_refuted, C39_append_refuted, C39_length_refuted |
| `Zaid_Props` | none | C49_table, C49_zaid, C49_no_mass, C49_unknown, C49_distinct, C49_distinct_refuted |
<!-- axioms: end -->

## 6. Findings

Where the code does not have the property one expects, the model is faithful and a theorem shows it. The ones marked (r) are observations made
while modelling that are stated as hypotheses of the theorems rather than as refutations.

* Vector and String: `push_back` of an own element of a full vector of a non-trivial type reads a moved-from object (`C02_push_own_refuted`);
  sizes beyond 2^31 overflow (`C01_overflow_refuted`); a String assigned a part of itself (`C04_assign_own_part_refuted`); numbers (`C04_number_refuted`).
* `stringToLattice` accepts malformed lattices (`C08_malformed_refuted`).
* `Mat * Mat` is wrong for shapes that are not square (`C15_mat_mat_refuted`); `matmul` accumulates into its target (`C16_matmul_refuted`).
* Morton: the BMI2 decoder keeps unused bits the portable one drops (`C13_bmi_decode3_unused_bits_refuted`).
* Grids: points far outside give cells outside the grid (`C20_far_point_refuted`); the flat index of rectilinear cells collides (`C21_flat_index_refuted`).
* Boxes: the empty box is not neutral beyond 1e8 (`C23_empty_far_refuted`); rays in a face of the box and hits beyond 1e8 (`C24_*_refuted`).
* Polygons: a flat triangle contains points outside of it (`C27_degenerate_refuted`); flipping a quadratic quadrilateral leaves two mid nodes in place
  (`C27_quadratic_quadrilateral_flip_refuted`, `C30_flip_quadrilateral_refuted`, `C45_quad8_refuted`).
* Quadratic segments: hits of a ray are ordered by the parameter of the segment and a tangent hit is reported twice (`C29_hits_*_refuted`); the closest point and the
  length of straight segments with an off-centre mid node are wrong, the length of some is not a number (`C65_*_refuted`); (r) `isLeft` on the curve is inconsistent.
* Modular rays: (r) an angle of exactly pi/2 divides by zero.
* Soup: sorting or adding with zero element sets is undefined (`C35_empty_refuted`, `C36_empty_refuted`); sets with and without data merge to inconsistent data
  (`C36_mixed_data_refuted`); (r) `addElement` does not check the length of the connectivity.
* Soup: `a += a` writes past the ends of the vectors of vertices and types of every soup that is not empty, as the iterators of the other soup are taken after the resizes (`C36_self_refuted`).
* XDMF: soups of quadratic edges cannot be read back, some names cannot be written, small z are dropped, ids are not shifted, long connectivities are cut (`C39_*_refuted`).
* Abaqus: a comment in a section drops the rest of it, the last id of a line without a comma is dropped, a line of 1024 characters ends the reading, an empty line is undefined,
  lower case keywords are skipped, node ids are ignored (`C40_*_refuted`).
* VTK: a second data array is dropped, cell types are ignored, only the first point of a line is read, ids are not shifted, surplus values are written out of bounds (`C68_*_refuted`).
* Intersections of quadratic segments: the buffer `checkSelfIntersections` passes overflows, three common points end a debug build, crossings 1/64 apart and tangential contacts
  are missed, segments 19 epsDistance apart meet twice, a quadrilateral whose opposite edges cross once is not noticed (`C69_*_refuted`).
* Meshes: a soup that is not planar loses its z coordinates (`C42_nonplanar_refuted`); Morton sorting is undefined unless the mesh starts at the origin (`C44_translated_refuted`);
  the buffer for ray intersections needs one slot more than hits (`C46_exact_buffer_refuted`); `sortRayMeshIntersections` orders by entry only (`C47_by_entry_refuted`);
  validation accepts two equal faces, and reads out of bounds for a mesh without boundary (`C48_*_refuted`).
* `validate` takes a counter-clockwise quadrilateral with a corner that turns right for clockwise and turns it round, so that it is clockwise afterwards (`C64_concave_refuted`).
* Physics: `toZAID` collides from mass number 1000 on (`C49_distinct_refuted`); interpolated cross sections take the fissile flag of the lower entry (`C51_fissile_refuted`);
  CMFD with one coarse cell per fine cell overwrites the diagonal, and the attenuation uses the width without the cross section (`C54_*_refuted`);
  (r) homogenisation over zero area divides by zero.
* Models: row heights are never checked, release builds accept mismatched extents and ragged modules, 257 materials wrap around, refused pins leave their mesh behind (`C55_*_refuted`);
  a refused rectangular pin mesh leaves an empty mesh (`C57_rejected_unchanged_refuted`);
  from the 100001st copy of an object on the exported sets share a name, and exporting a cell with a mesh type and no mesh reads out of bounds (`C70_*_refuted`).
* Import of meshes: if errors do not end the program a cell without a set loses its mesh type but keeps the mesh id (`C71_failed_refuted`); with more than 128 materials the
  8-bit material ids of faces become negative and the import still returns (`C71_many_materials_refuted`).
* XDMF files of a model: `readXDMFFile` records a new lattice under the id of the *assembly* (model.cpp:2525-2860), so an assembly whose lattices have other numbers cannot be
  read back (`C72_lattices_refuted`: no model with more lattices than assemblies can); heights are printed with six decimals (`C72_heights_refuted`); names of materials are
  separated by commas that are not escaped, and a name that is a comma makes the reader loop for ever (`C72_comma_refuted`, `C72_endless_refuted`).
* Text files of a model: the volume of a material that is not in the core is the sum of an empty range, which reads its first element (`C75_unused_refuted`); the ray spacing of a
  core without faces reads out of bounds (`C76_empty_refuted`); the card of a material without nuclides has no line end (`C77_nuclides_refuted`); (r) the number of faces to skip is
  computed as (1 - 0.9) n in doubles, which is one less than n / 10 if n is a multiple of ten.
* CMFD data of a model: a cell that is not in the core has an empty set, which is an error that ends the program (`C78_unused_refuted`); a cell without mesh gets cross sections
  without groups, which are read out of bounds (`C78_meshless_refuted`); (r) a cell without absorption divides by zero at frequency 0, and more than 100000 cells repeat names of sets.
* MPACT libraries: the number of nuclides in the file is trusted, so one more nuclide is written behind the vector (`C79_extra_refuted`); without a line that begins with %END the last
  line is read as one more nuclide (`C79_endless_refuted`); after two blanks at the end of a line of group bounds the rest of the old view is read in the new line
  (`C79_blanks_refuted`); (r) fewer nuclides than announced leave empty ones that `Nuclide::validate` refuses.
* gmsh models: a material hierarchy with no group of the dimension left reads the last of no groups (`C80_no_groups_refuted`); of two groups with the name of a material only one takes
  part in the hierarchy (`C80_same_name_refuted`); a material listed twice in the hierarchy loses all of its entities (`C80_twice_refuted`); a group named Material makes `getMaterials` throw
  (`C81_name_refuted`).
* Pins in gmsh: equal radii pass the check that asks for strictly increasing ones and give an annulus without area (`C82_equal_radii_refuted`); the lattice accepts radii that a single pin
  refuses (`C82_radii_refuted`), reads past the end of a pin's materials when there are fewer than radii (`C82_materials_refuted`), and reads the first of no rows (`C82_no_rows_refuted`).
* Sources: if an FSR output lacks the flux of a group, `getSource` uses the flux of the group before and only warns (`C87_missing_refuted`); it relies on element sets listing the faces in order,
  which only an assertion on their number checks (`C87_order_refuted`).
* Extraction of CMFD data: the vectors are cleared only before the first of the three element sets of a group, so a file without scattering ratios gives the total cross sections as ratios and as spectral
  radii (`C88_stale_refuted`); names have five digits, so with 100000 groups the loop starts again with group 0 and never ends (`C88_endless_refuted`).
* Extraction of mean chord lengths and edge lengths: a coarse cell without a mesh ends the program even if it is not in the core (`C88_meshless_refuted`).
* Matrices with BLAS: `matmul` stores A B, in the build without BLAS it adds A B to C (`C89_same_in_both_builds_refuted`); the product of a matrix without columns and the empty vector is returned uninitialised, a matrix without rows has leading dimension 0, which BLAS refuses (`C89_empty_refuted`).
* `linearSolve` checks LAPACK's info only with an assertion: in a release build a singular system returns the right hand side (`C89_singular_refuted`).
* `generateMesh`: nothing resets the options that ask for quadrangles: triangles asked for after quadrangles come out as quadrangles (`C90_triangles_refuted`).
* `extract_powers`: the ids of the powers are only checked to be in order: powers of other faces, even of faces that do not exist, are taken for those of the faces in their places (`C91_ids_refuted`).
* Sources: the program cannot be run on a result of its own, as the names of its element sets are then in use (`C92_in_use`); endings of file names are case sensitive (`C92_other`).
* Coarse grids in gmsh: a coarse cell that does not occur in the core is laid at the origin without extent, which a kernel that asks for extents refuses (`C84_absent`); the last material takes the
  place of the fill material in the hierarchy, so the order of the others is not kept (`C84_order_refuted`);
  in a model of volumes none of whose surfaces lies in a rectangle, the search for materials reads the last of no groups (`C84_apart_refuted`).
* Info files of gmsh models: the tags of groups are not kept (`C85_group_tags_refuted`). A name with a quotation mark is written but cannot be read (`C85_quote_refuted`). Groups of points are
  written but refused when read with assertions enabled (`C85_points_refuted`). Colours of points and lines are lost (`C85_line_colours_refuted`). A line with fewer tags than announced is read
  again from its start, because adding one to `npos` gives 0 (`C85_short_line_refuted`), and negative tags are accepted (`C85_negative_refuted`). Files without an ending in a directory whose name
  has a dot share one info file (`C85_info_name_refuted`).
* Mesh sizes in gmsh: two materials of one name pass the checks and leave another group without size (`C86_duplicates_refuted`); 10000 means that the group was not found, so the
  10001st material is reported as missing (`C86_many_refuted`); (r) scale and offset of the growth are printed with six decimals, and absorbers without boundary read out of bounds, because
  `size() - 1` wraps around.
* Powers: faces far smaller than the tolerance are not grouped (`C59_tiny_refuted`). ASCII counters overflow (`C60_overflow_refuted`).
* C API: heights within the tolerance make the comparator cyclic (`C61_order_refuted`); a cell without mesh is read out of bounds (`C67_no_mesh_refuted`).
* Logger: release builds overrun the message buffer, as do bool and colour at its end with assertions; hours beyond 99, a clock set back and 24.86 days of run time (`C62_*_refuted`).
