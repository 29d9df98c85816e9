# Formal model of meshmode: design

Source: `/repo` (inducer/meshmode, pinned commit), read as text only.
Model and proofs: Rocq/Coq 8.16.1, in `rocq/theories/`, standard library only unless stated.

## Layout

Each modelled area `X` has up to four files:

* `XModel.v`  the model: total computable Gallina functions, no proofs, each definition cites file and lines;
* `XSpec.v`   small independent specification vocabulary (sets of faces, positions, coordinates, ...);
* `XProofs.v` lemmas;
* `XProps.v`  only the property theorems (`exact lemma.`), `Print Assumptions`, and `Example`s showing the hypotheses are met.

`Np.v` holds the list-based rendering of the NumPy primitives the code uses (`arange`, fancy
indexing, `where`, `cumsum`, `searchsorted`, `unique`, `lexsort`, 2D boolean masks ...), `NpFacts.v` the facts about them.

## Conventions

* A 1D NumPy array is a `list`; an index error or another Python exception is a value
  (`None`, or `Err e` of the type `res`) and theorems say exactly when it occurs.
* Integer dtypes are unbounded (`nat`, or `Z` when negative values occur). Integer overflow of
  `int32`/`int8` ids is not modelled.
* Floating point is not modelled: coordinates and DOF values are elements of an arbitrary
  commutative ring/ordered field (section variables, so theorems are quantified over them), `Z`, `Q` or `R`.
* OpenCL/loopy/pytato execution, MPI transport, modepy (unit nodes, bases), gmsh, pyvisfile, firedrake are
  not modelled; what is used of them enters as an argument of the model function (an arbitrary
  function or table), so the theorem is quantified over it.

## Trusted base

* The Coq 8.16.1 kernel (and `vm_compute` for examples and refutation witnesses).
* Axioms: `Print Assumptions` below every theorem in the `*Props.v` files reports
  "Closed under the global context", except where the section "Axioms used" lists otherwise.
* The reading of `/repo`: the model is hand-written, nothing ties it to the Python mechanically.
  Every definition cites the lines it models. The NumPy primitives in `Np.v` are part of this reading.

### Axioms used

Every theorem listed in MANIFEST.json is closed under the global context, except:

* `C41_flat_norm`, `C41_defined`, `C41_norm_unique`, `C41_default_norm`, `C41_frozen_rejected` (norms with roots and real powers) use the
  real numbers of the standard library and hence its axioms `ClassicalDedekindReals.sig_forall_dec`, `ClassicalDedekindReals.sig_not_dec`,
  `FunctionalExtensionality.functional_extensionality_dep` and `Classical_Prop.classic`.
* The theorems `C173_*`, `C174_clamp`, `C175_*` and `C176_*` (curves in the plane) use the first three of these axioms; `C173_wobbly_dumbbell`, `C173_dumbbell`,
  `C176_injective`, `C176_orientation` use all four; `C176_arguments` uses none.
* The theorems `C184_*`, `C185_*`, `C186_range`, `C186_vertices`, `C186_rays`, `C186_directions` and `C187_min_rad_refuted` (surfaces in space) use the first three as well, `C185_equal_radii_refuted` all four; `C186_empty` uses none.
* The examples `C136_example`, `C137_example`, `C137_cube_example`, `C139_example` in `GenExamples.v` (not the theorems) show that the hypotheses hold for the real
  numbers and use the same axioms.

### What is modelled

| File | Modelled code |
|------|---------------|
| `MeshModel.v` | mesh/\_\_init\_\_.py: base_element_nrs, find_group_indices (processing.py), nodal adjacency, face matching, facial adjacency, boundary completion and merging, check_bc_coverage, is_boundary_tag_empty, mesh_has_boundary |
| `MeshStateModel.v` | make_mesh (argument handling), Mesh with its lazily computed adjacency, copy, \_\_eq\_\_, as_python (as the mesh its text produces) |
| `PartModel.v` | processing.py: partition_mesh and all its helpers |
| `ProcModel.v` | processing.py: merge_disjoint_meshes, split_mesh_groups, remove_unused_vertices, flip_element_group, perform_flips, element orientation, find_bounding_box, map_mesh; make_mesh with force_positive_orientation |
| `AffineModel.v` | tools.py: AffineMap, rand_rotation_matrix; processing.py: affine_map, rotation matrices, rotate_mesh_around_axis, make_mesh_grid |
| `PointModel.v` | tools.py: find_point_to_point_mapping, find_point_permutation |
| `GlueModel.v` | processing.py: _get_boundary_face_ids, _get_face_vertex_indices, _match_boundary_faces, glue_mesh_boundaries |
| `RefineModel.v` | refinement/no_adjacency.py: RefinerWithoutAdjacency; refinement/\_\_init\_\_.py: refine_uniformly; refinement/tessellate.py: tessellation info from node tuples; connection/refinement.py |
| `DofModel.v` | dof_array.py: pickling, array_context_for_pickling (programs, threads), container serialisation, rec_map_dof_array_container, flat_norm, check_dofarray_against_discr |
| `ConnModel.v` | discretization/connection: direct.py (evaluation by batches and merged, full matrix), same_mesh.py, chained.py (application, flattening, matrix); ring-valued arrays, resampling matrices and pick lists as arguments |
| `FaceConnModel.v` | discretization/connection/face.py (restriction, embedding), opposite_face.py (except the Gauss-Newton search, an argument), distributed.py make_remote_group_infos; node coordinates, unit nodes and affine maps opaque |
| `DistModel.v` | distributed.py: membership_list_to_map, get_connected_parts, the graph of get_partition_by_pymetis (facial), MPIMeshDistributor.send_mesh_parts, InterRankBoundaryInfo, MPIBoundaryCommSetupHelper (\_\_enter\_\_, complete_some) as a network of ranks; not pickling and the MPI library: a message reaches its destination, messages of one source may but need not arrive in order |
| `BoxModel.v` | generation.py: generate_box_mesh (1D, triangles, X-mesh, quads, tets, hexes, boundary tags, periodic sides), the numbers of points of generate_regular_rect_mesh; not the nodes of elements (an arbitrary function of the vertices) and the consistency check of make_mesh |
| `QcOrd.v` | no code; the rational numbers as an ordered ring, for examples |
| `SurfModel.v` | generation.py: make_curve_mesh, generate_surface_of_revolution, generate_torus_and_cycle_vertices; cos, sin, arctan2, division, the curve, the radius functions and the nodes of an element in the parameter domain are arguments; not the consistency check of make_mesh |
| `VisModel.v` | visualization.py: vtk_submesh_for_hypercube, VTKConnectivity, VTKLagrangeConnectivity, points of write_vtk_file with shrunken elements, local connectivity of write_vtkhdf_file, connectivity of write_xdmf_file; node tuples, submeshes of simplices, permutations and cell types of modepy and pyvisfile are arguments; not the files themselves, not the parallel offsets, not resampling |
| `GmshModel.v` | io.py: GmshMeshReceiver (callbacks and get_mesh with facial adjacency from tags); element types are numbers with functions for their properties, names are numbers; the reader of gmsh_interop, the checks of make_group and make_mesh and mesh_construction_kwargs are not modelled |
| `ModalModel.v` | discretization/__init__.py: discretization_key, is_nodal, is_modal, nodes, num_reference_derivative; poly_element.py: which unit nodes, basis, weights and key a class has; connection/modal.py; connection/projection.py. Memoisation on array contexts is modelled with the keys of the code. Node sets, bases, quadrature rules, differentiation matrices, `numpy.linalg.inv` and determinants are given by a record of functions; freezing, tags and loopy's execution are not modelled |
| `ConsistModel.v` | mesh/\_\_init\_\_.py: check_mesh_consistency, is_mesh_consistent, the node-vertex test, is_affine_simplex_group and the is_affine properties; processing.py: find_volume_mesh_element_orientations with tolerate_unimplemented_checks; make_mesh, perform_flips and affine_map with their checks. A floating point number is an element of an ordered ring or NaN (no rounding, no infinities); resampling matrices, spanning vertices, Vandermonde and differentiation matrices are arguments; warnings are not modelled |
| `FdModel.v` | interop/firedrake/mesh.py: import_firedrake_mesh with _get_firedrake_nodal_info, _get_firedrake_boundary_tags, _get_firedrake_facial_adjacency_groups, _get_firedrake_orientations. The Firedrake mesh is a record of the arrays that the code reads (cell closures, vertex numbering, facets with their markers, coordinate nodes, orientations); normals are an argument, uninitialized memory (np.ndarray) is an argument; MPI, PETSc and the FInAT element are not modelled; the export is not part of this file |
| `FdConnModel.v` | interop/firedrake/mesh.py: export_mesh_to_firedrake; connection.py: _reorder_nodes, FiredrakeConnection (checks of the constructor, from_firedrake, from_meshmode), node mappings of build_connection_from_firedrake and build_connection_to_firedrake; reference_cell.py: get_affine_reference_simplex_mapping. What PETSc and Firedrake make of a list of cells is an argument, so are modepy's resampling matrices, the linear solver and rounding; reference nodes are given by barycentric coordinates; reading FInAT elements, communicators, dtypes and `_get_cells_to_use` are not modelled |
| `GenModel.v` | mesh/generation.py: make_group_from_vertices, generate_icosahedron, generate_cube_surface, generate_sphere, n_gon, WobblyCircle, NArmedStarfish, the map of generate_annular_cylinder_slice_mesh, the radii of the urchin, warp_and_refine_until_resolved; mesh/io.py: from_vertices_and_simplices, to_json. Square roots, reciprocals, sines, solvers, nodes, bases and matrices of modepy are arguments; floats are exact numbers (with infinity and NaN where quotients are compared); loops that may not end have fuel; the consistency check of make_mesh is left out |
| `ROrd.v`, `GenExamples.v` | the real numbers as an ordered ring; examples for C134 to C142 |
| `VisIoModel.v` | both visualization.py: preprocess_fields, _resample_to_numpy, separate_by_real_and_imag, which files are written in which order and what exists (write_vtk_file, write_parallel_vtk_file, write_vtkhdf_file, write_xdmf_file, write_stl_file, write_vertex_vtk_file, write_nodal_adjacency_vtk_file), h5_file_options, the datasets of several ranks, make_visualizer, copy_with_same_connectivity, write_vertex_vtk_file, write_stl_file, mesh_to_tikz, adjacency points and lines. Contents of files are one value per file; the exclusive scan and the sum of MPI are computed from the list of ranks; HDF5 datasets are lists with unwritten entries; resampling is an argument; every group has a discretization_key (in the code, groups with given nodes raise NotImplementedError); not the XML of XDMF, not compression, not matplotlib, mayavi and jupyter |
| `TFlipModel.v` | processing.py:596-614 and 746-780, flip matrix and orientation of tensor product elements; the resampling matrix and np.linalg.norm(...) < 1e-13 are arguments |
| `RGeoModel.v` | refinement/utils.py:86-132, tessellate.py:171-250: unit nodes of children, midpoints, nodes of children; the resampling matrix is an argument |
| `GNModel.v` | opposite_face.py:142-312, the Gauss-Newton search that is an argument of `FaceConnModel.v`; the inverse Vandermonde matrix, division, la.lstsq and the initial guess are arguments |
| `LoopyModel.v` | array_context.py:62-246, which loops of a kernel are split and tagged; kernels are lists of statements with assignees and subscripts, loopy's split_iname and tag_inames act on the list of loops; warnings not modelled |
| `IbopModel.v` | dof_array.py:233-238, 261-280 on a heap of arrays; whether a backend's arrays have in-place operators is a flag of each array |
| `LookupModel.v` | mesh/tools.py:50-67 up to the calls of pytools' SpatialBinaryTreeBucket (the tree itself is outside; its search is an argument of C169) |
| `CheckModel.v` | connection/\_\_init\_\_.py:140-159 check_connection |
| `CurveModel.v` | generation.py: circle, ellipse, cloverleaf, drop, qbx_peanut, dumbbell, wobbly_dumbbell, apple, clamp_piecewise, the arguments and the map of generate_warped_rect_mesh, for real numbers instead of floating-point numbers |
| `QuadModel.v` | poly_element.py:248-255 quadrature_rule of the mass-matrix groups, 560-591 quadrature_rule and unit_nodes_1d of tensor product groups. Of modepy: the mass matrix is the inverse of V Vᵀ, the first axis varies fastest |
| `FactoryModel.v` | poly_element.py:691-1033 element group factories; discretization/\_\_init\_\_.py:387-578 Discretization.\_\_init\_\_, copy, ndofs, is_nodal, is_modal, zeros, zeros_like, quad_weights. Element groups are described by `ModalModel.kind`; tags of axes and deprecated classes are left out |
| `ShapeModel.v` | generation.py:834-1072 torus and cruller as surfaces over the real numbers; 1117-1149 the warp of urchins with its range. The spherical harmonic is an argument |
| `NdgModel.v` | interop/nodal_dg.py:95-182 set_mesh, get_discr, push_dof_array, pull_dof_array. The Octave session is a list of named values; startup scripts and unit nodes are arguments |
| `NadjModel.v` | mesh/refinement/utils.py:135-223 is_symmetric, check_nodal_adj_against_geometry, with rational numbers; lookup tree and least squares are arguments |
| `FdValModel.v` | interop/firedrake/connection.py:239-382, 479-575, 583-609, 686-715: firedrake_fspace, _validate_function, _validate_field, from_meshmode with the order of its checks and assignments, _get_cells_to_use, markers. Families, meshes, dtypes are numbers |
| `FdFactoryModel.v` | interop/firedrake/connection.py:647-718: the checks of build_connection_from_firedrake, with the attribute group_class of the factories in discretization/poly_element.py. Import of the mesh and boundary_nodes are arguments |
| `EqModel.v` | mesh/__init__.py: `__eq__` of element groups, nodal adjacency, the four classes of facial adjacency groups and meshes, with values that are arrays; mesh/tools.py:72-80. No NaN |
| `DrawModel.v` | mesh/visualization.py:51-171: draw_2d_mesh as the list of what is drawn; coordinates are rational numbers, random numbers and the bounding box are arguments; no colors and fonts |
| `GmshRunModel.v` | mesh/io.py:421-507: generate_gmsh, where output is saved (posixpath), units, warnings, number of coordinates. What gmsh makes is an argument |
| `ShowModel.v` | discretization/visualization.py:642-688, 1296-1365: show_scalar_in_mayavi and show_scalar_in_matplotlib_3d as the data handed over to mayavi and matplotlib; matplotlib's Triangulation as far as used |
| `TightProps.v` | no model: further theorems for C11, C32, C37, C40, C43, C51, C85, C109, C111, C114, C117, C192, for behavior that mutation tests showed not to be covered |
| `NodesModel.v` | discretization/poly_element.py:257-260, 287-299, 313-329, 343-359, 390-402, 417-425, 443-458: unit nodes of the element groups of simplices with as many nodes as basis functions, with modepy's and recursivenodes' nodes as arguments; mesh/io.py:514-531: from_meshpy; version.py:6-12: _parse_version with a model of its regular expression |
| `AsPyModel.v` | mesh/__init__.py:371-409: make_group; 551-560, 629-640, 686-694, 778-790, 2016-2111: as_python of arrays, affine maps, adjacency groups and meshes, and the evaluation of the snippet up to the call of make_mesh (the text itself is not modelled, but nested lists, undefined names and constructors are) |
| `MiscModel.v` | mesh/__init__.py:140-166: BTAG_PARTITION as key of dictionaries; 275-280, 1381-1387: base_node_nrs; mesh/visualization.py:178-209, discretization/visualization.py:1426-1446: draw_curve; mesh/visualization.py:349-370: vtk_visualize_mesh; interop/firedrake/reference_cell.py:122-166: unit nodes of FInAT elements | matplotlib's plot of arrays with two axes: a line per column; point evaluators are functions; the file itself is in VisModel.v and VisIoModel.v |
| `GridTightProps.v` | no model: the default offset of make_mesh_grid (C58) |
| `LawsSpec.v`, `LawsProofs.v`, `LawsProps.v` | no model: laws relating several calls of the functions of `ProcModel.v`, `BoxModel.v`, `AffineModel.v` and `RefineModel.v` (C223-C228) |
| `IterProofs.v`, `IterProps.v` | no model: refining several times, with the same or with a new refiner (C229, C230) |
| `OnePartProofs.v`, `OnePartProps.v` | no model: partitioning into one part, partitioning a part again (C231, C232) |
| `ReunionProofs.v`, `ReunionProps.v` | no model: merging the parts of a mesh (C233) |
| `PartLawsProofs.v`, `PartLawsProps.v` | no model: what parts depend on, partitioning mapped meshes (C234, C235) |
| `MergeLawsProps.v` | no model: merging mapped meshes, splitting them, removing their unused vertices (C236, C237) |
| `QueryLawsProps.v` | no model: queries about mapped meshes (C238) |
| `Ord.v` | ordered commutative rings (coordinates that are compared) |
| `Lin.v` | vectors and matrices over an arbitrary commutative ring (used instead of floating point) |

### What is not modelled (in the modelled files)

* dtypes: all integers are unbounded; overflow of `int32`/`int8`/`intp` ids does not occur in the model.
* `np.searchsorted` on an unsorted array (its result is then unspecified); theorems only use sorted arguments.
* The contents of `np.empty` are an argument (`garbage`), so theorems hold for all contents.
* The consistency checks run by `make_mesh` (`check_mesh_consistency`) are modelled on their own (`ConsistModel.v`, C108-C115);
  in the other models the result is the mesh before those checks.
* `affine_map` ends with `mesh.copy`, which runs the consistency checks; `AffineModel.v` stops before them, C115 includes them.
* Refinement: geometry of children and midpoints (modepy interpolation) is an argument of `RefineModel.v`; C27 assumes that elements have straight edges. `RGeoModel.v` has the geometry; there only the
  resampling matrix is an argument (C159-C161).
* Affine maps of adjacency groups are an opaque type `A` in the mesh and partitioning models.

## Findings (properties that are false of the code)

* **F1 (C49)** A boundary face whose tags all derive from BTAG_NO_BOUNDARY is still put into BTAG_ALL
  by `_compute_facial_adjacency_from_vertices` when another face of the group is untagged.
  `C49_…_refuted` in `MeshProps.v`.
* **F2 (C50)** `mesh.copy(groups=…)` carries the cached adjacency of the old groups along: the copy differs
  depending on whether adjacency was queried before. `C50_copy_history_independent_refuted`.
* **F3 (C51)** `as_python` does not reproduce the mesh for every mesh/history. `MeshStateProps.v`.
* **F4 (C15)** BTAG_REALLY_ALL of a part is copied from the unpartitioned mesh and therefore lacks the
  inter-part faces, although documented to include "those from partition boundaries".
  `C15_really_all_of_part_refuted`.
* **F5 (C52)** `element_counts[elements] += 1` counts a repeated index once, so an element listed twice
  in one part passes the check and the part gets two copies. `C52_repeated_element_rejected_refuted`.
* **F6 (C53)** `find_bounding_box` looks at vertices only, so nodes of curved elements may lie outside.
  `C53_bounding_box_contains_nodes_refuted`.
* **F7 (C54)** `make_mesh(force_positive_orientation=True)` replaces the mesh by the result of `perform_flips`, which
  passes neither adjacency nor dtypes on: boundary tags given to `make_mesh` are lost even if nothing is flipped.
  `C54_forced_orientation_keeps_tags_refuted`.
* **F8 (C55)** `merge_disjoint_meshes` declares adjacency unavailable if it had been queried on any input; without the
  query the merged mesh computes it. `C55_merge_history_independent_refuted`.
* **F9 (C20)** `affine_map` keeps the matrix G of an adjacency map instead of A G A^-1, so the map is wrong
  whenever A and G do not commute. `C20_noncommuting_refuted`.
* **F10 (C20)** `affine_map` ignores b for adjacency maps with a matrix but no offset.
  `C20_missing_offset_refuted`. The exact condition is in `C20_affine_map_partial`.
* **F11 (C59)** `make_mesh_grid` starts the sum at `offset[0]`, so every copy, including the first, is
  displaced by an extra `offset[0]`. `C59_grid_origin_refuted`.
* **F12 (C60)** `AffineMap.__eq__` compares an array with None elementwise if just one map has a matrix (offset); it then
  raises ValueError or returns an array. `C60_affine_map_equality_refuted`.
* **F13 (C62)** `find_point_to_point_mapping` with more than 256 points: when all targets fall into one half, the other half has none
  and `argmin` raises ValueError instead of reporting "no match" (`C62_disjoint_sets_refuted`); with more than 256 coincident points the
  recursion never ends (`C62_coincident_points_never_terminate`); in dimension 0 the result has one entry whatever the number of
  sources. (The documented form of a single source point with shape `(dim,)` is rejected too: unpacking the shape fails.)
* **F14 (C63)** Beyond 256 points the match need not be the nearest target: the upper half overwrites. `C63_nearest_refuted`.
* **F15 (C64)** `find_point_permutation` may return the same permutee twice. `C64_permutation_refuted`.
* **F16 (C22)** `glue_mesh_boundaries`: a boundary glued to itself makes each face its own neighbor (`C22_self_gluing_refuted`); with a
  tolerance that lets two vertices match one, faces of the first boundary are glued to each other silently
  (`C22_multiple_match_refuted`); adjacent sides whose common vertex is moved by the map fail an assertion
  (`C22_adjacent_sides_refuted`); groups with different numbers of boundary faces fail in `np.stack` (`C22_several_groups_refuted`).
  (Also, the message of the RuntimeError for at most 10 unmatched vertices is empty, because the conditional expression
  covers the whole concatenation.)
* **F17 (C23)** Glued faces stay in BTAG_ALL and BTAG_REALLY_ALL. `C23_glued_faces_not_boundary_refuted`.
* **F18 (C68)** `RefinerWithoutAdjacency.refine` restarts the numbering of new vertices at the old number of vertices for every group, so
  flagging elements in two groups gives different midpoints the same number (with assertions on, `make_mesh` then raises).
  `C68_two_groups_refuted`.
* **F19 (C66)** The centre of a hexahedron's face is keyed by one diagonal of the face, which depends on the numbering of the
  element; neighbours numbered differently get two vertices at one place although the mesh is declared conforming.
  `C66_face_centres_refuted`.
* **F20 (C70)** `DOFArray.__getstate__` asserts that the array has a context, so a frozen array cannot be pickled although documented.
  `C70_frozen_arrays_refuted`.
* (from C41) `flat_norm(..., inf)` raises TypeError if some nested container is empty, although there are entries elsewhere
  (`C41_empty_part_refuted`).
* **F21 (C75)** `_per_target_group_pick_info` asserts at most 128 different pick lists for a source group (int8), even if the merged evaluation
  is disabled: a valid connection with more cannot be applied (AssertionError). `C29_many_lists_refuted`.
* **F22 (C73)** `flatten_chained_connection`: with two groups the result has four groups and cannot be applied (IndexError)
  (`C32_groups_refuted`); a chain of identities raises IndexError (`C32_identities_refuted`); the composite nodes ignore the intermediate
  discretization, so that an intermediate one of lower order makes the flattened connection differ from the chain (`C32_lossy_refuted`).
* **F23 (C74)** `make_direct_full_resample_matrix` adds up where `__call__` lets the last source of a target in one batch win
  (`C30_duplicate_targets_refuted`); it returns the number 0 if no batch has elements (`C30_empty_refuted`); `make_full_resample_matrix`
  raises TypeError for identity members (`C30_identity_refuted`). Its documentation gives the shape as (from, to), it is (to, from).
* **F24 (C76)** `_get_face_vertices` collects the vertices of all faces of the elements that have a face in the tag, so that the boundary mesh has
  vertices no boundary element uses. `C76_unused_vertices_refuted`.
* **F25 (C77)** `make_face_restriction(per_face_groups=True)` does not keep the order of the volume group, contrary to its documentation: the faces
  are in the order of the adjacency groups. `C77_face_order_refuted`.
* (no theorem) `make_face_restriction` stores new vertex numbers in an array of the dtype of the vertices: with single precision vertices, numbers above
  2^24 are rounded, and the boundary elements get wrong vertices. C33 has exact storage as a hypothesis (`store i = i`).
* **F26 (C78)** `make_opposite_face_connection` raises AssertionError for a restriction to all faces if all elements of a group have an
  interior face with the same number but the adjacency does not list them in ascending order: it takes equal numbers of elements for equal orders.
  The witness is a Moebius band made by `glue_mesh_boundaries`; the interior faces alone work. `C78_all_faces_refuted`.
* **F27 (C81)** `get_partition_by_pymetis` raises ValueError for a mesh without interior adjacency group, for example with one element:
  `np.hstack` of an empty list.
* **F28 (C82)** `MPIMeshDistributor.send_mesh_parts` sends nothing to a rank whose part number does not occur in `part_per_element`, so that
  `receive_mesh_part` blocks there for ever; if the part of the manager rank is missing, None is returned.
* **F29 (C85)** `generate_box_mesh` with a periodic side adds entries `periodic_-x`, `periodic_+x` to the dictionary `boundary_tag_to_face` of
  the caller.  A box that is made later with the same dictionary gets these as ordinary boundary tags.
* **F30 (C45)** `generate_torus_and_cycle_vertices` computes both lists of cycle vertices with the stride of the grid with end points
  (`n_major + 1`), but the vertices of the mesh have stride `n_major`.  Entry j of the minor cycle is the vertex at angle j of *both* circles;
  for `n_minor > n_major` the last entry is not the number of a vertex.
* **F31 (C46)** `generate_surface_of_revolution`, `ensure_radius`: the coordinates are multiplied with `r/(x**2 + y**2)` where
  `r/sqrt(x**2 + y**2)` is meant.  For any radius function all vertices end up at distance 1 from the axis (theorem `C46_distance_is_one`); the only test uses radius 1.
* **F32 (C88)** `generate_surface_of_revolution`: the two triangles of each cell have opposite orientation, so the normals of the surface alternate.
* (from C86) `generate_torus` with `n_major = 2` or `n_minor = 2` yields faces with the same vertices in more than two elements, for which no facial adjacency exists (`torus_two_cells`).
* **F33 (C91)** `Visualizer.write_vtk_file` with `element_shrink_factor != 1` writes the shrunken nodes into the array memoized by
  `_vis_nodes_numpy`.  The k-th file written by the same visualizer is shrunk k times; later files without shrinking, and VTK HDF files, have shrunken elements too.
* **F34 (C93)** `Visualizer.write_vtkhdf_file` finds out whether `connectivity.cells` is a tuple by unpacking it into three variables.  An array with exactly three entries
  (one linear triangle) is unpacked as well, and `IndexError` is raised for the scalar taken for the connectivity.
* **F35 (C94)** A visualization discretization of order zero has no subelements; `np.array([])` has shape (0,) and after broadcasting each element has one subelement without
  points.  The file has a cell type for each element, but no connectivity.
* **F36 (C98)** `GmshMeshReceiver.add_tag` raises `ValueError` for two names with the same number and different dimensions.  Gmsh numbers physical groups of each dimension
  separately, so a file with a named curve 1 and a named surface 1 is legal.
* **F37 (C99)** For the same reason, if only the curve 1 has a name, the elements of the unnamed surface 1 are listed in the map from tags to elements under the name of the curve:
  `get_mesh` ignores the dimension of the tag (`tag, _dim = ...`).
* **F38 (C104)** `NodalToModalDiscretizationConnection` uses the inverse Vandermonde matrix of the nodal group and never compares it with the modal group: for an interpolatory
  group of order 1 and a modal group of order 2 the result has two coefficients per element where the modal discretization has three (no error).
* **F39 (C106)** `L2ProjectionInverseDiscretizationConnection.__call__` reads the data of group `batch.from_group_index` and writes group `igrp`; in the forward connection the roles are the
  other way round.  The indices agree only if every batch of group i comes from group i (or the permutation of groups is an involution with equal groups).
* **F40 (C106)** The same class cannot invert a chain that contains an `IdentityDiscretizationConnection` (which `make_same_mesh_connection` returns): `reversed(connections)` is
  applied to the connection itself, `TypeError`.
* **F41 (C109)** For a volume mesh without vertices, `check_mesh_consistency`, `is_mesh_consistent` and `make_mesh` raise `ValueError` ("must have vertices"), which is not an
  `InconsistentMeshError`, unless `skip_element_orientation_test` is given; the node-vertex test, in contrast, tolerates missing vertices. `C109_no_vertices_refuted`.
* **F42 (C110)** `check_mesh_consistency` looks at no entry of an adjacency array; it does not check the dtype of `elements`, nor neighbors of inter-part groups, and accepts an empty tuple of
  facial adjacency groups for any number of groups. `C110_contents_refuted`, `C110_shapes_refuted`.
* **F43 (C111)** The node-vertex test asks whether the largest error is `>=` the tolerance, which is False for NaN: an element with one NaN passes, wherever its other nodes are. `C111_nan_refuted`.
* **F44 (C112)** `perform_flips` rebuilds the mesh with default dtypes and default tests: `make_mesh(force_positive_orientation=True)` raises `InconsistentArrayDTypeError` for
  `vertex_id_dtype` other than int32 even if no element is flipped, and `skip_tests` and `node_vertex_consistency_tolerance` have no effect. `C112_dtype_refuted`, `C112_flags_refuted`.
* **F45 (C113)** With `node_vertex_consistency_tolerance=0` every mesh is rejected (`0 >= 0`). `C113_zero_tolerance_refuted`.
* **F46 (C114)** `is_affine_simplex_group` compares second derivatives with an absolute tolerance, so curved elements of small meshes count as affine, and raises `ValueError` in dimension 0.
  `C114_small_elements_refuted`, `C114_points_refuted`.
* **F47 (C115)** `affine_map` cannot apply reflections to volume meshes: the check in `mesh.copy` raises `InconsistentMeshError`, and there is no way to ask for flips or to skip the check.
  Part of `C115_affine_images`.
* **F48 (C119)** The nodal adjacency of an imported mesh lists a neighbor once per common vertex (`_get_firedrake_nodal_info` appends to a list), while meshmode's own
  adjacency lists it once. `C119_refuted`, `C119_neighbors_repeated`.
* **F49 (C121, C122)** `_get_firedrake_facial_adjacency_groups` pairs `int_facet_cell.flatten()` (both sides of facet 0, both sides of facet 1, ...) with
  `np.concatenate((int_facet_cell[:, 1], int_facet_cell[:, 0]))` (all second sides, then all first sides); the latter should be `int_facet_cell[:, [1, 0]].flatten()`. With two or more
  interior facets the neighbors are wrong, and with `cells_to_use` so is the induced boundary. `C121_wrong_neighbors`, `C121_interior_adjacency_refuted`, `C122_induced_boundary_refuted`.
* **F50 (C123)** The import fails for meshes without interior facet (`IndexError`), curves in the plane (`ValueError`: `np.reshape` adds an axis for `tdim == 1` although
  coordinates have two components), and for `cells_to_use` without exterior facet or without interior facet (`ValueError`: `np.vectorize` of an empty array). `C123_always_succeeds_refuted`.
* **F51 (C124)** For surfaces, `orient *= 2; orient -= 1` works on `cell_orientations().dat.data` in place unless `cells_to_use` is given: Firedrake's 0/1 flags become -1/1.
  `C124_mesh_unchanged_refuted`.
* **F52 (C127)** The documentation of `export_mesh_to_firedrake` (and the comment in the code) has the direction of the permutations the wrong way round: `p[i]` is the vertex
  of the *element* that is vertex `i` of the Firedrake cell. For rotations of a triangle the two differ. The code itself uses the permutations consistently (C128, C129).
  `C127_documented_direction_refuted`, `C127_documented_iff`.
* **F53 (C132)** `FiredrakeConnection(group_nr=n)` with `n >= len(discr.groups)` raises `IndexError`, not the documented `ValueError`: the group is looked up before the check.
  `from_firedrake(f, out=obj)` with an object array of DOFArrays checks shapes and then raises `AttributeError` (`out.array_context` of an ndarray). With `out=None` the groups other
  than that of the connection are uninitialized memory. `C132_group_nr_error`, `C132_out_object_array`.
* **F54 (C132)** `import_firedrake_mesh` leaves `is_conforming` at `None`, and `export_mesh_to_firedrake` refuses such meshes: no imported mesh can be exported.
  `C132_imported_not_exported`.
* **F55 (C138)** `n_gon` raises for every `n >= 1` and all parameters: `indices = np.where(...)` is a tuple, so `result[:, indices]` has the shape (2, 1, k) and a
  value of shape (2, k) cannot be assigned. (Besides, t = 1 would not be set.) `C138_n_gon_refuted`.
* **F56 (C141)** `warp_and_refine_until_resolved` divides the error estimate of each axis by the norm of the coefficients of that axis. If a coordinate is zero on an element (a
  plane surface z = 0, or an axis of symmetry) this is 0/0 = NaN, `np.max` passes NaN on and `NaN > tol` is false: the element is never refined, however badly its other coordinates
  are resolved. `C141_zero_axis`, `C141_flat_refuted`.
* **F57 (C144)** The urchin's `lo` and `hi` are the extrema of the spherical harmonic on the nodes of the unrefined sphere, whatever `uniform_refinement_rounds` is. On other points the radius
  may be below `min_rad` (even negative), and for n = 0 it is 0/0. `C144_refined_refuted`, `C144_constant_refuted`.
* **F58 (C143)** `to_json` computes and stores the nodal adjacency of the mesh, so afterwards the mesh does not equal a copy made before. `C143_unchanged_refuted`.
* **F59 (C146)** `separate_by_real_and_imag` looks only at the first component of a vector (`field[0].dtype.kind`). If it is real and another one complex, complex arrays
  get to the VTK writer, also with `real_only=True`. `C146_all_real_refuted`.
* **F60 (C147)** Names of fields may coincide in the file: a complex field "u" and a field "u_r"; an attribute "b_c" of "a" and "c" of "a_b". `C147_names_refuted`.
* **F61 (C149)** `write_vtkhdf_file` and `write_xdmf_file` accept `overwrite=False` (the default) and overwrite existing files all the same. `C149_overwrite_refuted`.
* **F62 (C150)** `write_vtk_file` with `par_file_names` but without `par_manifest_filename` writes its file, overwriting an old one, before it raises ValueError. `C150_both_or_neither_refuted`.
* **F63 (C152)** A rank without elements cannot write a VTK HDF file: `np.vectorize` raises ValueError for empty input, while the other ranks wait in collective calls. `C152_empty_rank_refuted`.
* **F64 (C153)** `write_vtkhdf_file` stores the communicator and the driver in the caller's `h5_file_options`; a later call without communicator uses them and `write_xdmf_file` raises
  NotImplementedError. `C153_options_refuted`.
* **F65 (C154)** `copy_with_same_connectivity` asserts that the connection is a direct one, so visualizers of `make_visualizer(actx, discr)`, with an identity connection, cannot be copied;
  `element_shrink_factor` without `vis_order` is an AssertionError. `C154_copy_refuted`.
* **F66 (C156)** `mesh_to_tikz` draws a cycle through the vertices in order, for quadrilaterals a bow tie: two diagonals, and two sides missing. `C156_quadrilateral_refuted`.
* **F67 (C158)** `make_mesh(force_positive_orientation=True)` and `perform_flips` cannot make every quadrilateral positive: the orientation is the Jacobian at the first corner, and after the flip at the
  second one. A dart with a negative first corner stays negative, and the consistency check raises. `C158_forced_orientation_refuted`.
* **F68 (C161)** `RefinerWithoutAdjacency` keeps one midpoint for each pair of vertices. The two arcs of a closed curve with two elements (`make_curve_mesh` with two elements) get the same midpoint
  vertex; vertices and nodes of the second no longer fit together, and `make_mesh` raises InconsistentVerticesError. `C161_shared_midpoint_refuted`.
* **F69 (C163)** `_find_src_unit_nodes_via_gauss_newton` tests the residual before the last step and returns the point after it. If the Jacobian is nearly singular at a point that is close enough, the step
  leads away from the target: for the face u -> (u/2500 + u^2, 0) the returned point is more than 1 away (tolerance 1/1000), for u -> (u^2, 0) it is not finite. `C163_near_target_refuted`.
* **F70 (C166)** `_transform_with_element_and_dof_inames` sorts the list of dof loops but does not remove duplicates: a kernel with two outputs over the same dof loop (`a[e,d] = ...; b[e,d] = ...`) makes
  lp.split_iname split the loop a second time, which raises ValueError because the loop no longer exists. `C166_two_outputs_refuted`.
* **F71 (C168)** `DOFArray._ibop` discards the result of the operator: for arrays without in-place operators (pytato, jax) `x += y` silently does nothing. If the operator raises in a later group the earlier groups
  have been changed; if an array of x occurs in a later group of y it is read after it was changed. `C168_inplace_refuted`.
* **F72 (C170)** `make_element_lookup_tree` takes the boxes from the corners of elements: nodes of curved elements may lie outside the box of their element and of the root, so that a search misses the element.
  `C170_curved_elements_refuted`.
* **F73 (C172)** `check_connection` compares neither the lengths of `from_element_indices` and `to_element_indices` of a batch nor the number of interpolation nodes with the groups: a connection that passes may raise
  ValueError when it is applied. `C172_unequal_lists_refuted`.
* **F74 (C175)** `clamp_piecewise` asserts gap < 2 pi although gap is a half-angle: from pi on the length of the shells is not positive and the pieces are out of order; for radii 3 and 1 and gap 3 pi/2 the curve is not closed.
  If gap is small the caps overlap (for radii 3 and 1 they touch at pi/6) and the curve meets itself. `C175_clamp_closed_refuted`, `C175_clamp_touches_refuted`.
* **F75 (C182)** The factories for one class test `isinstance`, the type-based factories look up `type(mesh_el_group)`: a mesh group of a class derived from SimplexElementGroup is accepted by the former and raises TypeError
  in all recommended factories. `C182_derived_refuted`.
* **F76 (C182)** `InterpolatoryEdgeClusteredGroupFactory` passes the dimension of the group, not of the base discretization, to `default_simplex_group_factory`: without recursivenodes the faces of tetrahedra get
  2D warp-and-blend nodes, which are not the facial restrictions of the 3D nodes. `C182_faces_refuted`.
* **F77 (C183)** `ElementGroupFactory` is a runtime-checkable protocol with `__call__` only, so every class passes the `isinstance` test: a factory class instead of an instance in a type mapping is called and its result, a factory,
  becomes a group of the discretization; AttributeError follows on first use. An entry that cannot be called usually has no `__name__`, which the error message reads: AttributeError instead of TypeError.
  `C183_factory_class_refuted`, `C183_unnamed_refuted`.
* **F78 (C185)** The documented formulas of generate_torus and generate_cruller have y = sin(u) (r_major + r_minor sin(v)); the code has cos(v) there, and only that lies on a torus. `C185_documented_refuted`. Radii with
  r_minor >= r_major are accepted: for equal radii the whole circle v = pi collapses to one point. `C185_equal_radii_refuted`.
* **F79 (C187)** `refine_mesh_and_get_urchin_warper` takes the range of the harmonic from the nodes of the unrefined sphere. At refined nodes the harmonic may be smaller: with degree 1, order 0 the first refinement gives a radius
  less than min_rad = 0.2, and for min_rad = 1/20 a negative one, i.e. a node on the opposite side of the origin. `C187_min_rad_refuted`. (For degree 0 the range is empty and all nodes are NaN.)
* **F80 (C189)** `NodalDGContext.get_discr` computes the dimension from the width of EToV and reads that many axes: a surface in space comes back as its projection to the plane; quadrilaterals are accepted by `set_mesh`
  (documented: simplices only) and come back as tetrahedra, or fail, depending on whether an earlier mesh left VZ and z behind. A field pushed under a name such as "x" replaces the nodes of the mesh.
  `C189_surface_refuted`, `C189_cubes_refuted`, `C189_names_refuted`.
* **F81 (C191)** `check_nodal_adj_against_geometry` takes the number of vertices per element from the first element of the first group: with triangles before quadrilaterals it raises IndexError (the other way round it
  reads uninitialised columns). For quadrilaterals the least-squares coordinates of the last vertex add up to 4/3, so two elements which share the last vertex of both are not recognised as adjacent: AssertionError
  for a correct adjacency. `C191_quads_refuted`, `C191_mixed_refuted`.
* **F82 (C195)** `FiredrakeConnection.from_meshmode` validates only the array of the group of the connection; the others are checked (in debug mode) while the components are stored. With a bad array of another group in a
  later component, earlier components of `out` are overwritten before `InconsistentDOFArray` is raised. An object array without axes passes the validation and then raises TypeError. `C195_refuted`, `C195_no_axes_refuted`.
* **F83 (C197)** `_get_cells_to_use` looks for the boundary nodes of the coordinates among the nodes of the cells: with discontinuous coordinates only the cells of the marked facets are found, not all cells with a vertex
  on one, as documented. `C197_refuted`. Also, `restrict_to_boundary` is passed to Firedrake before it is validated, so for a bad value Firedrake's error comes first.
* **F84 (C199)** `build_connection_from_firedrake` reads `grp_factory.group_class`, which the recommended factories (all `TypeMappingGroupFactory`s) and `PolynomialGivenNodesGroupFactory` do not have: AttributeError for
  factories of interpolatory groups. A factory class (instead of an instance) passes the check, since every callable is an `ElementGroupFactory`, and makes no element groups. `C199_refuted`, `C199_class_refuted`.
* **F85 (C201)** Comparing meshes inherits F12: if two meshes agree up to the maps of an adjacency group, one with an offset and one without (glued and not glued), both `==` and `!=` raise ValueError. Meshes with different
  `face_id_dtype` are equal, and `FacialAdjacencyGroup.__eq__` compares only `igroup`, not the faces. `C201_mesh_comparison_refuted`.
* **F86 (C204)** The warning of `generate_gmsh` suggests `force_ambient_dim={idim}` for the first coordinate that is zero everywhere, but `force_ambient_dim` keeps the first coordinates: for a mesh in the x-z plane it suggests 1,
  which merges vertices, for one in the y-z plane it suggests 0. `C204_suggestion_refuted`.
* **F87 (C206)** `show_scalar_in_mayavi` uses `connectivity.groups[0]` only: elements of all other groups are silently missing. `show_scalar_in_matplotlib_3d` unpacks the groups into one and raises ValueError. `C206_groups_refuted`.
* **F88 (C207)** Both `show_scalar` functions reshape the connectivity of surfaces to rows of three. For quadrilaterals (four corners) this makes triangles with corners of different elements if the number of cells is divisible by three,
  and raises ValueError otherwise. `C207_quadrilaterals_refuted`.
* **F89 (C208)** `show_scalar_in_matplotlib_3d` replaces its `kwargs` by what `Triangulation.get_from_args_and_kwargs` returns, which was not given any: options of the user such as `alpha` are ignored. `C208_matplotlib_kwargs_refuted`.
* **F90 (C210)** `PolynomialWarpAndBlend3DRestrictingElementGroup` is the only group of its kind that does not check the dimension of its nodes: in four or more dimensions its unit nodes have three coordinates. `C210_dimension_refuted`.
* **F91 (C211)** `PolynomialWarpAndBlend2DRestrictingElementGroup` "does not provide nodes in 3D", but for order 0 it does, as the dimension is looked at for other orders only. `C211_order_0_refuted`.
* **F92 (C212)** `_parse_version` ignores its argument (it parses the global `VERSION_TEXT`), and raises ValueError for versions such as `2024.0.dev0` or `2024.0.post1` (the numbers end with a dot, int("") fails) and AssertionError
  for `2024.0+local`. `C212_versions_refuted`, `C212_argument_refuted`, `C212_dotted_status`, `C212_other_characters`.
* **F93 (C217)** `np.array(a.tolist())` drops all axes after the first one of length zero. So a group without elements is recreated by the snippet of `as_python` with nodes of shape `(d, 0)` and vertex indices of shape `(0,)`;
  the mesh is not equal to the given one. `C214_literal`, `C217_empty_group`, `C217_as_python_refuted`.
* **F94 (C217)** For the same reason the snippet of a mesh of points (unit nodes of shape `(0, 1)`) raises IndexError in `make_group`. `C217_points`.
* **F95 (C217)** Coordinates that are NaN or infinite are written as the names `nan` and `inf`, which the snippet does not define: NameError. `C214_not_finite`.
* **F96 (C217)** `FacialAdjacencyGroup.as_python` writes `igroup` only, and the constructor called by its text needs `elements` and `element_faces`: TypeError. `C217_as_python_refuted`.
* **F97 (C218)** `BTAG_PARTITION.__hash__` uses `type(self)` but `__eq__` uses `isinstance`: an object of a derived class compares equal to a BTAG_PARTITION object of the same part but has another hash. `C218_derived_refuted`.
* **F98 (C219)** `base_node_nrs` of a mesh without groups has one entry. `C219_no_groups_refuted`.
* **F99 (C220)** `draw_curve` of a discretization does not check dimensions and draws projections of curves in space and lines through nodes of surfaces, where the function for meshes raises ValueError. Both raise TypeError for curves without vertices. `C220_discretizations_refuted`.
* **F100 (C226)** `split_mesh_groups` drops groups without elements and renumbers the groups after them, also if no group is split; the returned dictionary has no entry for them. `C226_empty_groups_refuted`.
* **F101 (C230)** A new `RefinerWithoutAdjacency` for a partially refined mesh does not know the edges refined before: refining the neighbour of a refined element puts a second vertex at the midpoint of the shared edge, where the old refiner would have used the existing one. `C230_new_refiner_refuted`.
* **F102 (C232)** `_create_boundary_groups` (processing.py:435-437) selects groups by `isinstance(grp, BoundaryAdjacencyGroup)`. `InterPartAdjacencyGroup` is a subclass, so partitioning a part of a mesh again silently turns its inter-part groups into boundary groups with a `BTAG_PARTITION` tag: neighbors, neighbor faces and the number of the other part are lost. `C232_part_of_part_refuted`.
* **F103 (C236)** If `facial_adjacency_groups` was used on one of the meshes before merging, `merge_disjoint_meshes` marks the adjacency of the result as unavailable (processing.py:915-917), and `map_mesh` raises DataUnavailableError for it, although there are no affine maps in it. Mapping the meshes first and merging them then works and gives the expected mesh. Whether a merged mesh can be mapped thus depends on earlier queries. `C236_map_merged_refuted`.
* (from C56) `map_mesh` (and `affine_map`) raise DataUnavailableError for every mesh whose facial adjacency is
  declared unavailable, e.g. non-conforming meshes.
* (from C12) Inter-part adjacency of a mesh that is itself a part is not carried over when it is
  partitioned again: the new parts' inter-part entries come from interior entries only; the old ones
  become plain boundary groups with the partition tag (C14).

## Plan per property

| Id | Modelled | Method |
|----|----------|--------|
| C01 | base_element_nrs, find_group_indices | induction over groups |
| C02 | _compute_nodal_adjacency_from_vertices, CSR arrays | fold invariants, iff |
| C03 | _match_faces_by_vertices (padding, sort, stable lexsort, diff) | sortedness of stable sort |
| C04 | _compute_facial_adjacency_from_vertices | from C03 |
| C05 | _complete_facial_adjacency_groups, _merge_boundary_adjacency_groups | mask/where membership |
| C06 | tag branch of _compute_facial_adjacency_from_vertices | membership iff |
| C07 | check_bc_coverage | decision rule iff |
| C08 | is_boundary_tag_empty | iff |
| C09 | Mesh lazy adjacency as state machine | invariant over op lists |
| C10-C15 | partition_mesh and helpers | prefix counting, iff on entries; C15 expected false (finding) |
| C16 | merge_disjoint_meshes | offsets by induction |
| C17 | split_mesh_groups | partition of positions |
| C18 | flip_element_group, perform_flips | involution over a permutation action |
| C19 | AffineMap | ring algebra on vectors/matrices |
| C20 | affine_map compute_new_map | refuted for missing matrix commutation; partial for the rest |
| C21 | find_point_to_point_mapping | recursion on fuel, soundness and completeness |
| C22 | glue_mesh_boundaries | exact specification of face matching (C03) plus a counting argument; partial, refuted in general (F16) |
| C23 | glue_mesh_boundaries | refuted (F17) |
| C24 | remove_unused_vertices | monotone renumbering |
| C25 | find_bounding_box | min/max folds |
| C26-C27 | RefinerWithoutAdjacency.refine | prefix sums; midpoint table invariant over histories |
| C28 | make_refinement_connection | exactly-once coverage |
| C29-C30 | direct connection evaluation, resample matrix | equality of folds over a ring |
| C31-C32 | chained connections, flattening | composition; refutation for multi-group chains |
| C33-C34 | face restriction and embedding | counting/bijection |
| C35-C36 | opposite-face and partition connections | permutation argument |
| C37 | MPI setup helper | state machine over arrival schedules |
| C38-C39 | membership_list_to_map, pymetis graph | list induction, CSR facts |
| C40-C42 | DOFArray pickling, norms, shape check | state machine; structural induction |
| C43-C46 | generators | index arithmetic, polynomial identities; C45, C46 expected false (findings) |
| C47 | GmshMeshReceiver | permutation of assignments |
| C48 | VTKConnectivity | offsets |
| C49 | BTAG_ALL versus BTAG_NO_BOUNDARY tags | refuted (F1) |
| C50 | Mesh.copy and cached adjacency | refuted (F2) |
| C51 | as_python | partial, refuted in general (F3) |
| C52 | partition_mesh and repeated elements | refuted (F5) |
| C53 | find_bounding_box and nodes | refuted (F6) |
| C54 | force_positive_orientation and tags | refuted (F7) |
| C55 | merge_disjoint_meshes after queries | refuted (F8) |
| C56 | map_mesh | induction over the flattened node array |
| C57 | force_positive_orientation | ring identity for the swapped determinant |
| C58, C59 | make_mesh_grid | mixed-radix positions, vector algebra; C59 refuted (F11) |
| C60 | AffineMap equality | refuted (F12), partial |
| C61 | rotation matrices | polynomial identities modulo c^2 + s^2 = 1 etc. |
| C62, C63 | find_point_to_point_mapping | refuted (F13, F14); nearest match proved up to the leaf size |
| C64 | find_point_permutation | from C21; not a permutation in general (F15) |
| C65 | tessellation info | search by tuple sums, for simplices and cubes of every dimension |
| C66, C68 | face centres of hexahedra, several groups | refuted (F19, F18) |
| C67 | refine_uniformly | iteration of C26 |
| C69 | rec_map_dof_array_container | structural induction |
| C70 | pickling frozen arrays | refuted (F20) |
| C71 | linearity of connections | induction over chains, linearity of contributions |
| C72 | same-mesh connections | from C29 |
| C73 | flattening in general | refuted (F22) |
| C74 | full matrix in general | refuted (F23) |
| C75 | number of pick lists | refuted (F21) |
| C76 | unused vertices of boundary meshes | refuted (F24) |
| C77 | order of per-face groups | refuted (F25) |
| C78 | opposite faces with FACE_RESTR_ALL | refuted (F26) |
| C79 | connected parts | from the adjacency of parts (C13) |
| C80 | parts of a mesh on ranks | C37 with C36 and C79 |
| C81 | pymetis for every mesh | refuted (F27) |
| C82 | every rank receives a part | refuted (F28), with the true half |
| C83 | box meshes are conforming | keys in doubled numbering; local checks of each cell pattern by computation |
| C84 | box meshes tile the box | barycentric forms of each cell pattern, polynomial identities |
| C85 | arguments unchanged | refuted (F29) |
| C86 | torus is closed and oriented | edges of cells by cases, successors modulo n |
| C87 | surfaces of revolution are conforming | explicit partner of each edge |
| C88 | surfaces of revolution are oriented | refuted (F32) |
| C89 | curve meshes | index arithmetic |
| C90 | submesh of hypercubes | filter of origins, lookup of tuples |
| C91 | shrunken elements | refuted (F33); product of factors |
| C92 | Lagrange connectivity | offsets |
| C93 | VTK HDF connectivity | refuted (F34) |
| C94 | order zero | refuted (F35) |
| C95 | XDMF connectivity | offsets |
| C96 | Gmsh elements | foldM over types and elements |
| C97 | Gmsh face tags | dict of vertex sets, C06 |
| C98 | Gmsh tag numbers | foldM over tags |
| C99 | Gmsh tag dimensions | refuted (F37) |
| C100 | memoised matrices | invariant of the cache, injectivity of keys |
| C101 | reference derivatives | sorting, commuting matrices |
| C102 | nodal and modal | Vandermonde inverse |
| C103 | quadrature | sums, orthonormality |
| C104 | modal shapes | refuted (F38) |
| C105 | L2 projection | tabulated sums over children, induction over chains |
| C106 | L2 projection, numbering and identities | refuted (F39, F40) |
| C107 | node coordinates | invariant of the cache, resampling matrix |
| C108 | consistency check | equivalence with a specification, branch by branch |
| C109 | boolean version | corollary; refuted without vertices (F41) |
| C110 | contents of adjacency | refuted (F42) |
| C111 | NaN | refuted (F43) |
| C112 | forced orientation | C57 + C108; refuted for other dtypes and options (F44) |
| C113 | straight elements | linearity; refuted for tolerance 0 (F45) |
| C114 | is_affine | maxima, products of matrices; refuted (F46) |
| C115 | affine images | determinant of products, C108 (F47) |
| C116 | imported elements | composition of maps, invariants of loops |
| C117 | imported orientations | swapping two columns of a determinant |
| C118 | imported nodal adjacency | invariant of the loop over cells: occurrences = common vertices |
| C119 | duplicates | corollary of C118; refuted (F48) |
| C120 | imported boundary | face numbers by missing vertex, flips as swaps |
| C121 | imported interior faces | position in the two orderings; refuted (F49) |
| C122 | induced boundary | refuted (F49) |
| C123 | success of import | inversion and totality of each step; refuted in general (F50) |
| C124 | side effects | two runs compared; refuted (F51) |
| C125 | permutations of the export | argsort as inverse permutation |
| C126 | perm2cell | invariant of the loop: lists partition the elements seen |
| C127 | documented direction | inverse of a permutation; refuted (F52) |
| C128 | exported coordinates | flip matrix is a permutation matrix; last write wins |
| C129 | node mapping to Firedrake | as C128, on node numbers |
| C130 | node mapping from Firedrake | transposition of two vertices is an involution on nodes |
| C131 | transfers | scatter and gather along an injective map |
| C132 | errors | refuted (F53, F54) |
| C133 | reference simplices | affine maps determined by vertices |
| C134 | simplices from vertices | barycentric weights are affine in the unit coordinates |
| C135 | tensor product elements from vertices | monomials with exponents 0 and 1 are affine in each coordinate |
| C136 | icosahedron | symbolic computation with phi^2 = phi + 1; sorting by signs |
| C137 | spheres | nodes stay in planes off the origin under affine refinement, then normalisation |
| C138 | n_gon | refuted (F55) |
| C139 | wobbly circles | addition theorems, triangle inequality |
| C140 | annular slices | rotation about an axis |
| C141 | warped meshes | exit condition of the loop; refuted for zero axes (F56) |
| C142 | orientation of simplices | flip matrix exact on affine functions, swapping two columns of a determinant |
| C143 | to_json | inversion; refuted (F58) |
| C144 | urchin | monotonicity; refuted (F57) |
| C145 | point data | case analysis of fields, flattening of groups |
| C146 | real arrays | from C145; refuted (F59) |
| C147 | names | suffixes; refuted (F60) |
| C148 | XDMF fields | as C145, promotion by np.stack |
| C149 | existing files | case analysis; refuted (F61) |
| C150 | file and manifest | case analysis; refuted (F62) |
| C151 | parallel runs | invariant over the order of ranks |
| C152 | VTK HDF ranks | slices by exclusive scans fill the datasets; refuted (F63) |
| C153 | options | refuted (F64) |
| C154 | visualizers | invariant of connections; refuted (F65) |
| C155 | vertex files | corner numbers of VTK; inversion |
| C156 | TikZ | fold over elements; refuted (F66) |
| C157 | adjacency file | repeated entries by CSR rows, with C02 |
| C158 | tensor product flips | bits of corner numbers, determinants; refuted (F67) |
| C159 | children and midpoints | affine maps from bases of children; exactness of resampling |
| C160 | curved refinement | invariant of the midpoint table with an edge function; C159, C65 |
| C161 | two arcs | refuted (F68) |
| C162 | Gauss-Newton search | interpolation reproduces the span; normal equations and Cramer's rule; induction over iterations |
| C163 | result near the target | refuted (F69) |
| C164 | loop transformations | case analysis over kernels, characterisation by lists of loops |
| C165 | order of statements | the sorted loop lists of permutations agree |
| C166 | kernels with two outputs | refuted (F70) |
| C167 | in-place operations | induction over groups on a heap |
| C168 | in-place operations in general | refuted (F71) |
| C169 | lookup tree | means lie between bounds; induction over groups |
| C170 | lookup of curved elements | refuted (F72) |
| C171 | checked connections | the check is equivalent to index bounds; earlier theorems on application |
| C172 | check_connection is sufficient | refuted (F73) |
| C173 | curves | derivatives; complex polynomials dominated by their linear term; angles are unique |
| C174 | clamp | gluing of arcs that agree in value and velocity; norms and angles on the pieces |
| C175 | clamp for all arguments | refuted (F74) |
| C176 | warped square | sine and cosine do not grow faster than their arguments |
| C177 | mass-matrix quadrature | V Vᵀ applied to the moments of the nodal basis; uniqueness by the inverse |
| C178 | tensor product quadrature | reshaping of tensor product nodes; sums of products are products of sums |
| C179 | factories | cases of the mesh group class |
| C180 | new arrays | group by group |
| C181 | copies | the constructor is a function of its arguments |
| C182 | recommended factories accept as much | refuted (F75, F76) |
| C183 | wrong entries | refuted (F77) |
| C184 | torus, cruller | polar coordinates twice; cross product of the tangents |
| C185 | documented surface | refuted (F78) |
| C186 | urchin radii | extrema of the harmonic over the nodes |
| C187 | least radius | refuted (F79) |
| C188 | nodal DG round trip | lookup in the session; transposing twice |
| C189 | all accepted meshes come back | refuted (F80) |
| C190 | exact adjacency check | loops as relations; barycentric coordinates |
| C191 | other elements | refuted (F81) |
| C192 | exact validation | guards as conjunctions |
| C193 | new functions | storing with the mapping (C131); shape of the space |
| C194 | one group: all or nothing | no exception after validation |
| C195 | the same in general | refuted (F82) |
| C196 | cells at the boundary | shared nodes on shared vertices |
| C197 | discontinuous coordinates | refuted (F83) |
| C198 | accepted arguments | unfolding of the checks |
| C199 | accepted factories | refuted (F84) |
| C200 | equality of meshes | boolean tests decide equality; induction on tuples |
| C201 | always a truth value | refuted (F85) |
| C202 | pictures | blocks of drawn things, one per element or pair; sums of permuted vertices |
| C203 | generate_gmsh | components of paths; first zero axis |
| C204 | suggestion of the warning | refuted (F86) |
| C205 | pictures of fields | numbers of nodes of subelements, flattened arrays |
| C206 | several groups | refuted (F87) |
| C207 | quadrilaterals | refuted (F88) |
| C208 | keyword arguments | refuted for matplotlib (F89) |
| C209 | facial restrictions of 3D nodes | filters of columns, faces of faces, tuples |
| C210 | shape of unit nodes | refuted in four dimensions (F90) |
| C211 | 2D restricting group in 3D | refuted for order 0 (F91) |
| C212 | version numbers | refuted for dev, post and local versions (F92); matching of characters |
| C213 | meshes of meshpy | same as from_vertices_and_simplices |
| C214 | array literals | nested lists, shapes up to the first zero |
| C215 | make_group | exact condition |
| C216 | data passed on by the snippet | equal data except face_id_dtype |
| C217 | as_python of every mesh | refuted (F93-F96) |
| C218 | boundary tags as keys | laws of get and set; refuted for derived classes (F97) |
| C219 | node numbers | bijection; length refuted without groups (F98) |
| C220 | pictures of curves | lines per element; check refuted for discretizations (F99) |
| C221 | unit nodes of FInAT elements | transposed points |
| C222 | vtk_visualize_mesh | nodes written, no error |
| C223 | merging in steps | associativity, on the closed form of the merged mesh |
| C224 | remove_unused_vertices twice | idempotence, all vertices of the result are used |
| C225 | map_mesh and composition | functor laws |
| C226 | splitting by a constant flag | exact result; refuted with empty groups (F100) |
| C227 | affine_map and composition | product of matrices, inverse |
| C228 | refining no element | same mesh, singleton mapping |
| C229 | refine_uniformly in steps | simulation: entries of the midpoint table that are never looked up change nothing |
| C230 | going on with a new refiner | refuted by computation (F101) |
| C231 | partitioning into one part | masks and renumberings of a single part are identities; completion is idempotent |
| C232 | partitioning a part again | refuted by computation (F102) |
| C233 | merging the parts of a mesh | points of a part are selected points of the mesh; the lists of a valid partition are a permutation of all elements |
| C234 | what the parts of a mesh depend on | the array of part numbers is written completely |
| C235 | partitioning and mapping commute | naturality of every function used |
| C236 | merging and mapping commute | naturality; a counterexample by computation (F103) |
| C237 | removing vertices and splitting commute with mapping | naturality |
| C238 | queries do not depend on positions | naturality; computed adjacency carries only the trivial map |
