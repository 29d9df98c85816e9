{"id": "C01", "title": "Mesh-wide element numbers resolve to the right group", "statement": "For a list of element groups and an array of mesh-wide element numbers, find_group_indices returns for every number e the index of the one group g with base_element_nrs[g] <= e < base_element_nrs[g] + nelements(g); numbers past the last element get the number of groups. Empty groups never own an element.", "quantifier": "every list of groups (any number, including groups with zero elements) and every array of element numbers", "why_tests_cant": "Depends on the position of empty groups and on all boundary values of the prefix sums; a test fixes a handful of group-size patterns.", "anchors": ["meshmode/mesh/__init__.py:Mesh.base_element_nrs", "meshmode/mesh/processing.py:find_group_indices"]}
{"id": "C02", "title": "Nodal adjacency is exactly 'shares a vertex'", "statement": "Mesh.nodal_adjacency, computed from vertices, lists element f among the neighbors of element e if and only if e and f are different elements and have at least one vertex index in common; each neighbor is listed once, so the relation is symmetric and irreflexive; neighbors_starts is the matching CSR offset array.", "quantifier": "every mesh with vertex indices in range in which every element has at least one vertex, any number of groups and element types", "why_tests_cant": "An iff over all pairs of elements in all meshes; tests compare against a few known meshes.", "anchors": ["meshmode/mesh/__init__.py:_compute_nodal_adjacency_from_vertices", "meshmode/mesh/__init__.py:NodalAdjacency"]}
{"id": "C03", "title": "Face matching finds exactly the faces with equal vertex sets", "statement": "Face matching by vertices pairs two faces only if they have the same multiset of vertex indices (also when faces have different vertex counts), the first face of each pair is the one that occurs earlier, and if every vertex set belongs to at most two faces then every two distinct faces with the same vertices are paired exactly once.", "quantifier": "every list of groups and every list of face identifiers valid for those groups", "why_tests_cant": "Correctness rests on padding, per-face sorting and a stable lexicographic sort of arbitrary data; unit tests exercise a few meshes.", "anchors": ["meshmode/mesh/__init__.py:_match_faces_by_vertices"]}
{"id": "C04", "title": "Every face of a conforming mesh is interior or boundary, never both", "statement": "In the facial adjacency computed from vertices for a mesh in which no vertex set belongs to more than two faces, each (group, element, face) either occurs exactly once in an InteriorAdjacencyGroup of its group, paired with the unique other face having the same vertices, or, if it has no such partner, occurs in boundary groups only; interior adjacency is symmetric: if (g,e,f) lists (g',e',f') as neighbor then (g',e',f') lists (g,e,f).", "quantifier": "every list of element groups (mixed simplex/tensor-product face shapes allowed)", "why_tests_cant": "A partition/symmetry statement over all faces of all meshes.", "anchors": ["meshmode/mesh/__init__.py:_compute_facial_adjacency_from_vertices", "meshmode/mesh/__init__.py:InteriorAdjacencyGroup"]}
{"id": "C05", "title": "Boundary-tag completion: BTAG_ALL, BTAG_REALLY_ALL and BTAG_NONE", "statement": "Completing facial adjacency leaves all given groups in place and, for a group lacking them, appends a BTAG_NONE group that is empty, a BTAG_ALL group whose face set is exactly the union of the faces of the groups whose tag is a true boundary, and a BTAG_REALLY_ALL group whose face set is exactly the union over all boundary groups, both without repeated faces; completing twice changes nothing.", "quantifier": "every facial adjacency list, including overlapping, repeated and empty boundary groups", "why_tests_cant": "Union/idempotence laws over arbitrary overlapping tag assignments.", "anchors": ["meshmode/mesh/__init__.py:_complete_facial_adjacency_groups", "meshmode/mesh/__init__.py:_merge_boundary_adjacency_groups", "meshmode/mesh/__init__.py:is_true_boundary"]}
{"id": "C06", "title": "Boundary tags given per face end up on exactly those boundary faces", "statement": "When a map from face vertex sets to tags is supplied, a boundary face is a member of the boundary group of tag t if and only if the map assigns t to that face's vertex set; a face with no tag is a member of BTAG_ALL; interior faces are never tagged.", "quantifier": "every list of groups and every tag map", "why_tests_cant": "Needs all faces and all tag maps, including tags on interior faces and empty tag lists.", "anchors": ["meshmode/mesh/__init__.py:_compute_facial_adjacency_from_vertices", "meshmode/mesh/generation.py:generate_box_mesh", "meshmode/mesh/io.py:GmshMeshReceiver.get_mesh"]}
{"id": "C07", "title": "check_bc_coverage accepts exactly the covering and non-overlapping tag sets", "statement": "check_bc_coverage(mesh, tags, incomplete_ok, true_boundary_only) returns normally iff every given tag occurs in the mesh, no face belongs to two boundary groups carrying given tags, and (unless incomplete_ok) every face of BTAG_ALL (of BTAG_REALLY_ALL if not true_boundary_only) belongs to one of the given tags. If a given tag is absent from the mesh it raises ValueError, for the other violations RuntimeError.", "quantifier": "every mesh boundary and every list of boundary tags", "why_tests_cant": "Decision rule over all assignments of tags to faces; tests cover one overlap and one gap.", "anchors": ["meshmode/mesh/__init__.py:check_bc_coverage"]}
{"id": "C08", "title": "is_boundary_tag_empty agrees with the boundary groups", "statement": "is_boundary_tag_empty(mesh, tag) is True iff no boundary adjacency group of any element group carrying that tag has a face; it raises ValueError iff no group carries that tag at all.", "quantifier": "every mesh and tag", "why_tests_cant": "A universally quantified equivalence.", "anchors": ["meshmode/mesh/__init__.py:is_boundary_tag_empty"]}
{"id": "C09", "title": "Adjacency queries are history independent", "statement": "For a mesh, whatever sequence of nodal_adjacency, facial_adjacency_groups and other read-only queries has been made before, each query returns the same answer (the supplied adjacency, the one computed from vertices, or DataUnavailableError), and repeated queries do not recompute it.", "quantifier": "every mesh construction argument combination and every finite sequence of queries", "why_tests_cant": "Quantifies over all call histories of a lazily caching object.", "anchors": ["meshmode/mesh/__init__.py:Mesh.nodal_adjacency", "meshmode/mesh/__init__.py:Mesh.facial_adjacency_groups", "meshmode/mesh/__init__.py:make_mesh"]}
{"id": "C10", "title": "Partitioning distributes every element to exactly one place", "statement": "partition_mesh maps every element of the mesh to exactly one element of exactly one part: the part it was assigned to, the group it was in, and the position given by its rank among the elements assigned to that part; the element's nodes are unchanged and its vertices have the same coordinates as before; part groups contain nothing else and part vertices are exactly those used.", "quantifier": "every mesh, every assignment of all elements to parts given as sorted element lists", "why_tests_cant": "All partitions of all meshes, including empty parts and parts missing whole groups.", "anchors": ["meshmode/mesh/processing.py:partition_mesh", "meshmode/mesh/processing.py:_get_mesh_part", "meshmode/mesh/processing.py:_filter_mesh_groups", "meshmode/mesh/processing.py:_compute_global_elem_to_part_elem"]}
{"id": "C11", "title": "Partitioning rejects invalid assignments", "statement": "If some element is assigned to two different parts or to none, partition_mesh raises ValueError and produces no part.", "quantifier": "every mesh and assignment", "why_tests_cant": "Error branch over all malformed inputs.", "anchors": ["meshmode/mesh/processing.py:_get_mesh_part"]}
{"id": "C12", "title": "Interior adjacency is preserved across a partition", "statement": "For each pair of facially adjacent faces of the original mesh: if both elements go to the same part, that part has an interior adjacency entry connecting the images of the two faces; otherwise the part of the first has an inter-part entry tagged with the other part's id whose neighbor is the image of the second face. No part has any other interior or inter-part entry.", "quantifier": "every mesh with facial adjacency and every valid partition", "why_tests_cant": "Two-way correspondence for all adjacency entries and all partitions.", "anchors": ["meshmode/mesh/processing.py:_create_self_to_self_adjacency_groups", "meshmode/mesh/processing.py:_create_self_to_other_adjacency_groups", "meshmode/mesh/processing.py:_get_connected_parts"]}
{"id": "C13", "title": "Inter-part adjacency is mutual", "statement": "If the facial adjacency of the mesh is symmetric, then after partitioning an entry of part A naming part B, neighbor element n and face f (for element e, face g) implies an entry of part B naming part A, element n, face f with neighbor e and face g: the two sides of a partition boundary agree.", "quantifier": "every symmetric mesh and every valid partition", "why_tests_cant": "This is what makes cross-process communication well defined; it concerns two independently computed outputs.", "anchors": ["meshmode/mesh/processing.py:_create_self_to_other_adjacency_groups", "meshmode/distributed.py:MPIBoundaryCommSetupHelper"]}
{"id": "C14", "title": "Boundary tags survive partitioning", "statement": "A face of the original mesh is in the boundary group with tag t iff its image is in the boundary group with tag t of its part, for every tag present in the original mesh.", "quantifier": "every mesh, partition and tag", "why_tests_cant": "Equivalence over all faces and tags.", "anchors": ["meshmode/mesh/processing.py:_create_boundary_groups"]}
{"id": "C15", "title": "BTAG_REALLY_ALL of a part contains its inter-part faces", "statement": "In a mesh part, the boundary group BTAG_REALLY_ALL contains every face that is on an inter-part boundary, as documented ('including those from partition boundaries').", "quantifier": "every mesh and partition", "why_tests_cant": "Set inclusion for all partitions.", "anchors": ["meshmode/mesh/processing.py:_get_mesh_part", "meshmode/mesh/__init__.py:BTAG_REALLY_ALL"]}
{"id": "C16", "title": "Merging disjoint meshes keeps every element and its geometry", "statement": "merge_disjoint_meshes yields a mesh whose elements are those of the inputs in order; each element's vertex coordinates and nodes are those it had in its input mesh; no vertex index refers to another mesh's vertex; with single_group the group boundaries vanish but element order and data are the same.", "quantifier": "every list of meshes, both settings of single_group", "why_tests_cant": "Offsets must be right for every mesh count and size.", "anchors": ["meshmode/mesh/processing.py:merge_disjoint_meshes"]}
{"id": "C17", "title": "Splitting groups by flags is a partition with a correct map", "statement": "split_mesh_groups returns groups that together contain every element exactly once, elements of equal flag in the same order within a group, and the optional subgroup map sends (group, flag) to the new group holding exactly those elements.", "quantifier": "every mesh and every flag array", "why_tests_cant": "All flag patterns.", "anchors": ["meshmode/mesh/processing.py:split_mesh_groups"]}
{"id": "C18", "title": "Flipping changes orientation of exactly the requested elements", "statement": "perform_flips/flip_element_group leaves unflagged elements untouched; in flagged elements the vertices are permuted (for simplices the first two are exchanged) and the nodes multiplied by the flip matrix; applying the same flips twice restores all groups.", "quantifier": "every group and every flag array", "why_tests_cant": "Involution and frame condition over all flag arrays.", "anchors": ["meshmode/mesh/processing.py:flip_element_group", "meshmode/mesh/processing.py:perform_flips", "meshmode/mesh/processing.py:get_simplex_element_flip_matrix"]}
{"id": "C19", "title": "Affine maps compose with their inverses", "statement": "For an AffineMap with invertible matrix, inverted() applied after the map (and before it) gives back every point; the inverse exists whenever the matrix, if present, is invertible; a map with no matrix and no offset is the identity.", "quantifier": "every affine map over every dimension and every point (exact arithmetic)", "why_tests_cant": "Algebraic law for all maps.", "anchors": ["meshmode/mesh/tools.py:AffineMap.inverted", "meshmode/mesh/tools.py:AffineMap.__call__", "meshmode/mesh/tools.py:AffineMap.__eq__"]}
{"id": "C20", "title": "affine_map of a mesh carries periodic maps along correctly", "statement": "After affine_map(mesh, A, b), for every interior adjacency entry with affine map h taking a point x of the face to its neighbor, the new map takes A x + b to A h(x) + b.", "quantifier": "every mesh with (possibly periodic) affine adjacency maps, every A, b", "why_tests_cant": "Commutation law over all maps; needs the cases with missing matrix/offset.", "anchors": ["meshmode/mesh/processing.py:affine_map"]}
{"id": "C21", "title": "Point matching is sound and complete within tolerance", "statement": "find_point_to_point_mapping(src, tgt, tol): every returned index t >= 0 for source s satisfies |src[s]-tgt[t]| < tol, and if some target lies within tol of source s the result for s is not -1.", "quantifier": "all point sets, dimensions, tolerances and leaf sizes, through all levels of the recursion", "why_tests_cant": "Soundness/completeness of a divide and conquer over unbounded data, including points near the splitting plane.", "anchors": ["meshmode/mesh/tools.py:find_point_to_point_mapping"]}
{"id": "C22", "title": "Gluing produces a symmetric, inverse pairing of boundary faces", "statement": "glue_mesh_boundaries: for every boundary pair mapping (f, m_btag, n_btag), each face of m_btag is connected to exactly one face of n_btag, the vertices of which are the images under f, and vice versa with the inverse map; all interior adjacency that existed before is kept; unmatched or multiply matched faces cause an error rather than a partial gluing.", "quantifier": "every mesh and every list of boundary pair mappings", "why_tests_cant": "Symmetry and bijectivity over arbitrary face numberings and vertex permutations.", "anchors": ["meshmode/mesh/processing.py:glue_mesh_boundaries", "meshmode/mesh/processing.py:_match_boundary_faces"]}
{"id": "C23", "title": "Glued faces are no longer boundary faces", "statement": "After glue_mesh_boundaries, a face that has been glued is in no boundary group of the resulting mesh.", "quantifier": "every mesh and boundary pair mapping", "why_tests_cant": "Frame property over all tags.", "anchors": ["meshmode/mesh/processing.py:glue_mesh_boundaries"]}
{"id": "C24", "title": "Removing unused vertices preserves geometry", "statement": "remove_unused_vertices keeps, for every element and local vertex, the vertex coordinates; every remaining vertex is used by some element; the relative order of the remaining vertices is unchanged.", "quantifier": "every mesh", "why_tests_cant": "All sparse usage patterns.", "anchors": ["meshmode/mesh/processing.py:remove_unused_vertices"]}
{"id": "C25", "title": "Bounding box of the vertices is tight", "statement": "find_bounding_box returns (lo, hi) such that every vertex lies within it componentwise and every bound is attained by some vertex.", "quantifier": "every mesh with at least one vertex, every totally ordered coordinate type", "why_tests_cant": "Universal bound plus attainment.", "anchors": ["meshmode/mesh/processing.py:find_bounding_box"]}
{"id": "C26", "title": "Refinement partitions the new elements among the old ones", "statement": "RefinerWithoutAdjacency.refine(flags) succeeds in every state of the refiner if there is one flag per element (else ValueError): every element of the refined mesh is the child of exactly one old element; an unflagged element has exactly one child with the same nodes, a flagged element has as many children as the tessellation prescribes, numbered consecutively; the recorded group refinement record gives exactly this mapping. The refined mesh is declared conforming exactly if the old one was and all or none of the elements are flagged.", "quantifier": "every mesh with elements numbered by vertices (or without vertices), every flag array, every sequence of earlier calls", "why_tests_cant": "All flag patterns and group structures.", "anchors": ["meshmode/mesh/refinement/no_adjacency.py:RefinerWithoutAdjacency.refine"]}
{"id": "C27", "title": "Refinement shares edge midpoints between neighbouring elements", "statement": "When elements with straight edges are refined, every edge (unordered pair of vertices) has a single midpoint vertex, the same in all elements containing the edge and in all later refine calls, located half way between the end points; no two edges share a midpoint; the corners of every new element are exactly the old vertices and edge midpoints that the tessellation prescribes, element nodes and vertices stay consistent, and old vertices keep their index and coordinates.", "quantifier": "every consistent mesh, every tessellation, every sequence of refine calls on one refiner each of which flags elements of at most one group", "why_tests_cant": "Sharing must hold across elements, groups and successive calls (history of a mutable midpoint table).", "anchors": ["meshmode/mesh/refinement/no_adjacency.py:RefinerWithoutAdjacency.refine", "meshmode/mesh/refinement/tessellate.py:ElementTessellationInfo"]}
{"id": "C28", "title": "Refinement connection maps every fine element from its parent", "statement": "make_refinement_connection: every element of the fine discretization is the target of exactly one (batch, position), whose source element is the coarse element it came from and whose unit nodes are those of the child index it is.", "quantifier": "every refinement record", "why_tests_cant": "Exactly-once coverage over all refinement patterns.", "anchors": ["meshmode/discretization/connection/refinement.py:make_refinement_connection", "meshmode/discretization/connection/refinement.py:_build_interpolation_batches_for_group"]}
{"id": "C29", "title": "Applying a direct connection does not depend on the execution path", "statement": "For every well-formed direct connection and every array of the right shape, the merged (pick-list) and the per-batch evaluation, eager or by kernels, all succeed and give the same array: each target element receives the sum over the batches of the resampled values of the element the batch assigns to it, zero without any; arrays of the wrong shape are rejected.", "quantifier": "every connection with at most 128 different pick lists per source group and every input", "why_tests_cant": "Equivalence of two implementations for all inputs.", "anchors": ["meshmode/discretization/connection/direct.py:DirectDiscretizationConnection.__call__", "meshmode/discretization/connection/direct.py:DirectDiscretizationConnection._per_target_group_pick_info"]}
{"id": "C30", "title": "The full resampling matrix represents the connection", "statement": "make_direct_full_resample_matrix(conn), and make_full_resample_matrix of a chain, times the flattened source vector equals the flattened result of the connection applied to the vector; the matrix has shape (to, from).", "quantifier": "every connection that transfers something and whose batches list no target element twice, every chain of such, and every source vector", "why_tests_cant": "Linear-algebra identity for all index structures.", "anchors": ["meshmode/discretization/connection/direct.py:make_direct_full_resample_matrix"]}
{"id": "C31", "title": "Chained connections are composition", "statement": "A ChainedDiscretizationConnection applied to an array equals the successive application of its members; concatenating chains composes them; the empty chain is the identity.", "quantifier": "every list of connections and every input", "why_tests_cant": "Law over all chain lengths.", "anchors": ["meshmode/discretization/connection/chained.py:ChainedDiscretizationConnection"]}
{"id": "C32", "title": "Flattening a chain does not change its action", "statement": "flatten_chained_connection(chain) is a direct connection with the same source and target and gives the same result as the chain; flattening nested chains first makes no difference.", "quantifier": "every chain of direct connections and identities, with single element groups, each target element having at most one source, and intermediate discretizations that lose nothing for the source's functions; every input", "why_tests_cant": "Equivalence over arbitrary batch structure.", "anchors": ["meshmode/discretization/connection/chained.py:flatten_chained_connection"]}
{"id": "C33", "title": "Face restriction numbers boundary elements consistently", "statement": "make_face_restriction succeeds and: every face in the requested boundary tag becomes exactly one boundary element (of the boundary group of its volume group, or of its volume group and face number), and every boundary element comes from exactly one such face; the recorded batches give that correspondence; the boundary element's vertices and nodes are the face's; applying the connection gives the element's values interpolated to the face's nodes. An unknown tag is a ValueError, a mesh without vertices an AssertionError.", "quantifier": "every mesh with facial adjacency in range, every tag (interior, all, boundary tag) and per_face_groups setting, every array", "why_tests_cant": "Bijection for all face sets.", "anchors": ["meshmode/discretization/connection/face.py:make_face_restriction", "meshmode/discretization/connection/face.py:_get_face_vertices"]}
{"id": "C34", "title": "Embedding a boundary restriction into all faces is restriction followed by zero padding", "statement": "make_face_to_all_faces_embedding applied to data restricted to a boundary tag gives on each face of the tag the value of the restriction to all faces and 0 on all other faces.", "quantifier": "every mesh, tag, per_face_groups setting and every data array", "why_tests_cant": "Equality of two index computations for all meshes.", "anchors": ["meshmode/discretization/connection/face.py:make_face_to_all_faces_embedding", "meshmode/discretization/connection/face.py:make_face_restriction"]}
{"id": "C35", "title": "Opposite-face connection is an involution on interior faces", "statement": "make_opposite_face_connection succeeds on the interior faces; it delivers to each face element exactly the data of its neighbor's face element, each face receives from exactly one face; at each node it gives the value the neighbor has at the coincident node; applying it twice gives back the data. In one dimension, values move unchanged. On success the same exchange holds when all faces are restricted to, with zeros elsewhere; success then needs an order of the adjacency.", "quantifier": "every mesh with mutual facial adjacency in which faces are listed once, nodes of neighboring faces coincide after the affine map, and all face data", "why_tests_cant": "Global statement on a permutation assembled from many batches.", "anchors": ["meshmode/discretization/connection/opposite_face.py:make_opposite_face_connection", "meshmode/discretization/connection/opposite_face.py:_make_cross_face_batches"]}
{"id": "C36", "title": "Parts exchange boundary data with the right partner", "statement": "For two parts produced by partition_mesh that share a face, the restrictions to the shared faces, the remote group information and the connection between them exist. The connection delivers to each local inter-part face exactly the data of the face of the other part that it is adjacent to in the original mesh, at each node the value of the coincident node. In one dimension, values move unchanged.", "quantifier": "every mesh with mutual facial adjacency in which faces are listed once, every valid partition, every two parts sharing a face, nodes that coincide after the affine map (or, for existence and sources, any successful Newton search), and all face data", "why_tests_cant": "Concerns agreement of two processes' independently computed numberings.", "anchors": ["meshmode/discretization/connection/opposite_face.py:make_partition_connection", "meshmode/distributed.py:make_remote_group_infos"]}
{"id": "C37", "title": "Boundary communication setup is independent of message arrival order", "statement": "MPIBoundaryCommSetupHelper: when both sides list each boundary between parts once, then whatever the order in which the ranks run and messages arrive, no rank fails or waits for ever, every pair (local part, remote part) gets its connection returned exactly once, made from what the other side sent, the resulting connections are the same for all schedules, no message is left, and further calls of complete_some return an empty result.", "quantifier": "every number of ranks and parts per rank, every consistent list of boundaries, every schedule of entries, message arrivals and returns, with eager or synchronous sends", "why_tests_cant": "All interleavings of asynchronous messages.", "anchors": ["meshmode/distributed.py:MPIBoundaryCommSetupHelper.complete_some", "meshmode/distributed.py:MPIBoundaryCommSetupHelper.__enter__"]}
{"id": "C38", "title": "membership_list_to_map is a partition", "statement": "membership_list_to_map(l) maps each value occurring in l to the increasing list of its positions and has no other keys; so the lists are disjoint, sorted and cover 0..len(l)-1, and are a valid argument for partition_mesh.", "quantifier": "every membership list", "why_tests_cant": "Universal statement over lists.", "anchors": ["meshmode/distributed.py:membership_list_to_map"]}
{"id": "C39", "title": "The graph given to the partitioner is the facial adjacency graph", "statement": "get_partition_by_pymetis with connectivity='facial' passes a CSR graph in which the row of e lists g as many times as there are interior adjacency entries between faces of e and g (mesh-wide numbers), whatever order np.argsort gives to equal keys.", "quantifier": "every mesh with facial adjacency and at least one interior adjacency group", "why_tests_cant": "CSR assembly (argsort/searchsorted) correctness over all adjacency data.", "anchors": ["meshmode/distributed.py:get_partition_by_pymetis"]}
{"id": "C40", "title": "Array containers of DOF arrays survive serialisation", "statement": "deserialize(serialize(x)) = x for DOFArrays and out-of-sequence indices are rejected; a thawed DOFArray pickled and unpickled under array_context_for_pickling (possibly with different contexts) has the same data, tags and axis tags as far as the contexts support them; outside of that context pickling and unpickling raise an error; the context cannot be nested, is always cleared on exit, also by exceptions, and one thread's context is not seen by another.", "quantifier": "every DOFArray and every nesting / exception history, every interleaving of threads", "why_tests_cant": "State machine over all histories including exceptional exits.", "anchors": ["meshmode/dof_array.py:DOFArray.__getstate__", "meshmode/dof_array.py:DOFArray.__setstate__", "meshmode/dof_array.py:array_context_for_pickling"]}
{"id": "C41", "title": "flat_norm is the norm of the flattened array", "statement": "flat_norm(x, ord) for nested containers of numbers and DOFArrays of one context is the ord-norm of the concatenation of all entries, for every positive ord, infinity and -infinity; for +-infinity provided no part is empty; frozen arrays are rejected.", "quantifier": "every nesting structure, every positive real ord (exact arithmetic)", "why_tests_cant": "Recursion over arbitrary nesting.", "anchors": ["meshmode/dof_array.py:flat_norm", "meshmode/dof_array.py:_reduce_norm"]}
{"id": "C42", "title": "check_dofarray_against_discr accepts exactly the matching arrays", "statement": "check_dofarray_against_discr raises iff the number of groups or the (nelements, nunit_dofs) shape of some group does not match the discretization.", "quantifier": "every discretization and array shape list", "why_tests_cant": "Decision rule.", "anchors": ["meshmode/dof_array.py:check_dofarray_against_discr"]}
{"id": "C43", "title": "Box meshes tile the box", "statement": "generate_box_mesh (1D, 2D triangles/quads/X-mesh, 3D tets/hexes; not periodic): for strictly increasing axis coordinates with at least two points per axis there is a mesh, all vertex indices are in range, every element has positive measure (determinant of the edge vectors), and the element measures add up to the measure of the box. Tensor product elements are the cells of the grid with their corners in tensor product order.", "quantifier": "all numbers of points per axis and all strictly increasing coordinates", "why_tests_cant": "Any grid size; tests use small grids.", "anchors": ["meshmode/mesh/generation.py:generate_box_mesh"]}
{"id": "C44", "title": "Box mesh boundary tags", "statement": "generate_box_mesh with boundary_tag_to_face assigns a tag to a face iff the face lies on one of the sides of the box listed for the tag; BTAG_REALLY_ALL has exactly the faces on sides, and BTAG_ALL those of them that it should. The name of a side that does not exist raises ValueError.", "quantifier": "all grid sizes, element types and tag dictionaries", "why_tests_cant": "Index arithmetic over all grid sizes.", "anchors": ["meshmode/mesh/generation.py:generate_box_mesh"]}
{"id": "C45", "title": "Torus generator returns indices of points on the generating circles", "statement": "generate_torus_and_cycle_vertices returns (mesh, major, minor) where major lists n_major vertices of the mesh around the major circle and minor n_minor vertices around the minor circle.", "quantifier": "all n_major, n_minor", "why_tests_cant": "Index arithmetic for all sizes.", "anchors": ["meshmode/mesh/generation.py:generate_torus_and_cycle_vertices"]}
{"id": "C46", "title": "Surface of revolution has the requested radius", "statement": "Every vertex of generate_surface_of_revolution has distance get_radius(height, angle) from the axis.", "quantifier": "every radius function and discretization (exact arithmetic)", "why_tests_cant": "All radius functions.", "anchors": ["meshmode/mesh/generation.py:generate_surface_of_revolution"]}
{"id": "C47", "title": "Gmsh receiver is independent of the order of events", "statement": "GmshMeshReceiver builds the same mesh for any order in which the nodes, the elements and the tags are delivered, however interleaved; each name maps to exactly the mesh-wide numbers of the elements marked with it, in order.", "quantifier": "every file with consistent numbering, every order of callbacks", "why_tests_cant": "All permutations of callbacks.", "anchors": ["meshmode/mesh/io.py:GmshMeshReceiver.get_mesh", "meshmode/mesh/io.py:GmshMeshReceiver.add_node", "meshmode/mesh/io.py:GmshMeshReceiver.add_element", "meshmode/mesh/io.py:GmshMeshReceiver.add_tag"]}
{"id": "C48", "title": "Cells of VTK files have the values of their subelements", "statement": "Reading a VTK file with linear cells: the k-th cell, with any field given at the nodes, has the values of the field at the corners of the k-th subelement, where subelements are enumerated by group, element and subelement of the element; and the k-th cell type is the one of the group.", "quantifier": "every sequence of groups with any numbers of elements and nodes, every field", "why_tests_cant": "Offset arithmetic over all group structures; tests only write files without reading them.", "anchors": ["meshmode/discretization/visualization.py:VTKConnectivity.groups", "meshmode/discretization/visualization.py:VTKConnectivity.cell_types", "meshmode/discretization/visualization.py:VTKConnectivity.cells"]}
{"id": "C49", "title": "BTAG_ALL excludes faces tagged as no boundary", "statement": "In the facial adjacency computed from vertices with a tag map, a boundary face all of whose tags derive from BTAG_NO_BOUNDARY is not a member of BTAG_ALL.", "quantifier": "every list of groups and every tag map", "why_tests_cant": "Depends on the interplay of tagged and untagged faces of the same group; tests use tag maps that tag everything or nothing.", "anchors": ["meshmode/mesh/__init__.py:_compute_facial_adjacency_from_vertices", "meshmode/mesh/__init__.py:BTAG_NO_BOUNDARY"]}
{"id": "C50", "title": "Copying a mesh does not depend on earlier queries", "statement": "mesh.copy(groups=new_groups) gives a mesh with the same adjacency whether or not adjacency of the original mesh had been queried before the copy.", "quantifier": "every mesh, every replacement and every history of queries", "why_tests_cant": "Needs all interleavings of queries and copies.", "anchors": ["meshmode/mesh/__init__.py:Mesh.copy"]}
{"id": "C51", "title": "as_python round trip", "statement": "Running the program text returned by as_python(mesh) yields a mesh equal to the given one, whatever has been queried before.", "quantifier": "every mesh made by make_mesh, every query history", "why_tests_cant": "Must hold for all boundary tags and adjacency states.", "anchors": ["meshmode/mesh/__init__.py:as_python"]}
{"id": "C52", "title": "An element listed twice in one part is rejected", "statement": "partition_mesh raises an error when the element list of a part contains an element more than once, so that no part ever contains two copies of an element.", "quantifier": "every mesh and every assignment of elements to parts", "why_tests_cant": "Tests pass well-formed assignments; the check counts through fancy-index increments, which hide repetitions for every input of this kind.", "anchors": ["meshmode/mesh/processing.py:_get_mesh_part", "meshmode/mesh/processing.py:partition_mesh"]}
{"id": "C53", "title": "Bounding box contains the nodes", "statement": "Every node of every element lies within the box returned by find_bounding_box.", "quantifier": "every mesh with vertices", "why_tests_cant": "Holds for straight meshes; only curved elements distinguish vertices from nodes.", "anchors": ["meshmode/mesh/processing.py:find_bounding_box"]}
{"id": "C54", "title": "Forcing positive orientation keeps boundary tags", "statement": "make_mesh(..., facial_adjacency_groups=..., force_positive_orientation=True) returns a mesh with the boundary tags given in facial_adjacency_groups.", "quantifier": "every mesh data", "why_tests_cant": "Tests check orientation, not what else happens to the mesh; must hold whether or not an element is flipped.", "anchors": ["meshmode/mesh/__init__.py:make_mesh", "meshmode/mesh/processing.py:perform_flips"]}
{"id": "C55", "title": "Merging does not depend on earlier queries", "statement": "merge_disjoint_meshes gives a mesh with the same adjacency whether or not adjacency of one of the inputs had been queried before.", "quantifier": "all lists of meshes and all histories of queries", "why_tests_cant": "Needs all interleavings of queries and merges.", "anchors": ["meshmode/mesh/processing.py:merge_disjoint_meshes"]}
{"id": "C56", "title": "map_mesh moves the geometry and nothing else", "statement": "map_mesh(mesh, f) for a pointwise map f replaces every vertex and every node x by f(x), keeps vertex numbers, group structure and adjacency, and raises an error exactly when the adjacency contains a non-trivial affine map or is declared unavailable.", "quantifier": "every mesh and every map", "why_tests_cant": "Frame condition over all meshes.", "anchors": ["meshmode/mesh/processing.py:map_mesh"]}
{"id": "C57", "title": "Forcing positive orientation works for simplices", "statement": "make_mesh(..., force_positive_orientation=True) on a volume mesh of simplices (dimension 1 to 3) leaves non-negatively oriented elements alone and exchanges the first two vertices of the others, after which find_volume_mesh_element_orientations is nowhere negative.", "quantifier": "every volume mesh of simplices in dimension 1, 2, 3 with coordinates in any commutative ring with a sign", "why_tests_cant": "Sign identity over all coordinates and all meshes.", "anchors": ["meshmode/mesh/__init__.py:make_mesh", "meshmode/mesh/processing.py:find_volume_mesh_element_orientations", "meshmode/mesh/processing.py:perform_flips"]}
{"id": "C58", "title": "make_mesh_grid is a union of translated copies", "statement": "make_mesh_grid(mesh, shape, offset) is the disjoint union of prod(shape) copies of the mesh; two copies with grid indices i and j are displaced against each other by sum_k (i_k - j_k) offset[k], copies being numbered with the last index running fastest. With the default offsets, copies with different indices have no point in common (if the mesh has positive extent along each axis).", "quantifier": "every mesh, dimension, shape and offsets (exact arithmetic)", "why_tests_cant": "All shapes and offsets, including skewed ones; tests look at one grid.", "anchors": ["meshmode/mesh/processing.py:make_mesh_grid"]}
{"id": "C59", "title": "The first copy of a mesh grid is the mesh itself", "statement": "In make_mesh_grid the copy with grid index (0, ..., 0) is not displaced, i.e. index i is displaced by sum_k i_k offset[k].", "quantifier": "every mesh, shape, offset", "why_tests_cant": "Tests only count elements.", "anchors": ["meshmode/mesh/processing.py:make_mesh_grid"]}
{"id": "C60", "title": "Affine maps can be compared", "statement": "f == g and f != g are truth values for all affine maps f, g of the same space, with f == g iff matrices and offsets agree.", "quantifier": "every pair of affine maps, with or without matrix and offset", "why_tests_cant": "Needs the mixed cases where only one map has a component.", "anchors": ["meshmode/mesh/tools.py:AffineMap.__eq__", "meshmode/mesh/tools.py:AffineMap.__ne__"]}
{"id": "C61", "title": "Rotations are rotations", "statement": "rotate_mesh_around_axis maps all vertices and nodes by a matrix that is orthogonal with determinant 1, fixes the axis and turns vectors orthogonal to the axis counterclockwise by theta; rand_rotation_matrix returns an orthogonal matrix with determinant 1.", "quantifier": "every axis, angle, random numbers (exact arithmetic)", "why_tests_cant": "Polynomial identity in all angles and axes.", "anchors": ["meshmode/mesh/processing.py:rotate_mesh_around_axis", "meshmode/mesh/processing.py:_get_rotation_matrix_from_angle_and_axis", "meshmode/mesh/tools.py:rand_rotation_matrix"]}
{"id": "C62", "title": "Point matching always has an answer", "statement": "find_point_to_point_mapping terminates with one entry per source point for every pair of point sets with a non-empty target set, in particular when no target is near any source and when points coincide.", "quantifier": "all point sets of any size", "why_tests_cant": "Failure only beyond the leaf size and for particular distributions of points over the recursion.", "anchors": ["meshmode/mesh/tools.py:find_point_to_point_mapping"]}
{"id": "C63", "title": "Point matching picks the nearest target", "statement": "The target find_point_to_point_mapping assigns to a source is the nearest one (the first among equals).", "quantifier": "all point sets of any size, all tolerances", "why_tests_cant": "Depends on how the recursion splits arbitrary point sets.", "anchors": ["meshmode/mesh/tools.py:find_point_to_point_mapping"]}
{"id": "C64", "title": "find_point_permutation finds a permutation or reports None", "statement": "find_point_permutation(targets, permutees) returns None exactly if some target has no permutee within the tolerance, and otherwise indices p with |targets[i] - permutees[p[i]]| < tol, pairwise different.", "quantifier": "all point sets and tolerances", "why_tests_cant": "Universal over point sets; the None case is a negative statement.", "anchors": ["meshmode/mesh/tools.py:find_point_permutation"]}
{"id": "C65", "title": "Tessellation information of simplices and cubes", "statement": "get tessellation info for simplices and cubes of any dimension: computing original and midpoint indices succeeds, every second-order reference node is exactly one of: the image of a vertex, or the midpoint of the vertex pair stored for it; pairs are ordered and index vertices.", "quantifier": "every dimension, every order of the node tuples", "why_tests_cant": "All dimensions and node orders; the code searches pairs by tuple arithmetic.", "anchors": ["meshmode/mesh/refinement/tessellate.py:_midpoint_tuples", "meshmode/mesh/refinement/tessellate.py:get_group_tessellation_info"]}
{"id": "C66", "title": "Uniform refinement of a conforming mesh is conforming", "statement": "Uniform refinement of a conforming hexahedral mesh declared conforming has a single vertex per position, so that neighbouring elements share face centres.", "quantifier": "all conforming meshes with straight hexahedra", "why_tests_cant": "Depends on how neighbouring elements are numbered; generated meshes are numbered uniformly.", "anchors": ["meshmode/mesh/refinement/no_adjacency.py:RefinerWithoutAdjacency.refine", "meshmode/mesh/refinement/tessellate.py:ElementTessellationInfo"]}
{"id": "C67", "title": "Uniform refinement multiplies the number of elements", "statement": "refine_uniformly(mesh, k): succeeds, and every group has nchildren^k times as many elements; the conformity flag is kept; with_adjacency=True raises ValueError exactly for meshes not declared conforming.", "quantifier": "every mesh, number of iterations and group structure", "why_tests_cant": "Universal over meshes and iteration counts.", "anchors": ["meshmode/mesh/refinement/__init__.py:refine_uniformly", "meshmode/mesh/refinement/no_adjacency.py:RefinerWithoutAdjacency.refine_uniformly"]}
{"id": "C68", "title": "Refining elements of several groups in one call keeps the mesh consistent", "statement": "After refine(flags) the vertices of every element are located at the corners of the element, whichever groups the flagged elements belong to.", "quantifier": "all consistent meshes and flag arrays", "why_tests_cant": "Universal over group structures and flags.", "anchors": ["meshmode/mesh/refinement/no_adjacency.py:RefinerWithoutAdjacency.refine"]}
{"id": "C69", "title": "rec_map_dof_array_container maps exactly the leaves", "statement": "rec_map_dof_array_container(f, x) keeps the container structure and keys, applies f exactly once to every DOFArray or other leaf, in order, and satisfies the identity and composition laws.", "quantifier": "every nested container and every f", "why_tests_cant": "Recursion over arbitrary nesting.", "anchors": ["meshmode/dof_array.py:rec_map_dof_array_container"]}
{"id": "C70", "title": "Frozen DOFArrays can be pickled", "statement": "As documented: if the array context of a DOFArray is None (frozen array), pickling it under array_context_for_pickling thaws it into the given context.", "quantifier": "every frozen DOFArray", "why_tests_cant": "Tests only pickle thawed arrays.", "anchors": ["meshmode/dof_array.py:DOFArray.__getstate__"]}
{"id": "C71", "title": "Connections are linear", "statement": "A connection applied to a*x + b*y gives a times the result for x plus b times the result for y.", "quantifier": "every well-formed direct, identity or (nested) chained connection, all arrays and scalars", "why_tests_cant": "All inputs.", "anchors": ["meshmode/discretization/connection/direct.py:DirectDiscretizationConnection.__call__", "meshmode/discretization/connection/chained.py:ChainedDiscretizationConnection.__call__"]}
{"id": "C72", "title": "Same-mesh connections resample element by element", "statement": "make_same_mesh_connection(to, from) gives a connection that resamples each element's values to the corresponding element of the same group; it is the identity if both discretizations are the same object, and different meshes or group counts are rejected.", "quantifier": "every pair of discretizations of a mesh and every array", "why_tests_cant": "All group structures.", "anchors": ["meshmode/discretization/connection/same_mesh.py:make_same_mesh_connection"]}
{"id": "C73", "title": "Flattening works for every chain", "statement": "flatten_chained_connection gives a connection that acts like the chain for chains on discretizations with several element groups, for chains consisting of identities only, and for any intermediate discretization.", "quantifier": "every chain", "why_tests_cant": "All chains.", "anchors": ["meshmode/discretization/connection/chained.py:flatten_chained_connection"]}
{"id": "C74", "title": "Full resampling matrices exist for every connection", "statement": "The full resampling matrix represents the connection also if a batch lists a target twice, if nothing is transferred, and if a chain has identity members.", "quantifier": "every connection", "why_tests_cant": "All connections.", "anchors": ["meshmode/discretization/connection/direct.py:make_direct_full_resample_matrix", "meshmode/discretization/connection/chained.py:make_full_resample_matrix"]}
{"id": "C75", "title": "Any number of pick lists", "statement": "A direct connection whose batches all permute points can be applied, whatever the number of batches.", "quantifier": "every connection", "why_tests_cant": "All numbers of batches.", "anchors": ["meshmode/discretization/connection/direct.py:DirectDiscretizationConnection._per_target_group_pick_info"]}
{"id": "C76", "title": "Boundary meshes have no unused vertices", "statement": "Every vertex of the mesh made by make_face_restriction for a boundary tag is a vertex of one of its elements.", "quantifier": "every mesh and boundary tag", "why_tests_cant": "All meshes.", "anchors": ["meshmode/discretization/connection/face.py:_get_face_vertices"]}
{"id": "C77", "title": "Per-face boundary groups keep the element order", "statement": "With per_face_groups, each boundary group has its elements in the same order as the originating volume group (as documented).", "quantifier": "every mesh and boundary tag", "why_tests_cant": "All meshes.", "anchors": ["meshmode/discretization/connection/face.py:make_face_restriction"]}
{"id": "C78", "title": "Opposite-face connections exist for FACE_RESTR_ALL", "statement": "make_opposite_face_connection succeeds for a restriction to all faces whenever it succeeds for the interior faces of the same mesh.", "quantifier": "every mesh", "why_tests_cant": "All meshes; depends on the order of entries in the adjacency.", "anchors": ["meshmode/discretization/connection/opposite_face.py:make_opposite_face_connection"]}
{"id": "C79", "title": "Connected parts", "statement": "For a part produced by partition_mesh, get_connected_parts lists exactly the other parts with which it shares an interior face of the mesh, each once. If adjacency is mutual, part p lists q exactly if q lists p.", "quantifier": "every mesh and valid partition", "why_tests_cant": "Universal statement over meshes and partitions.", "anchors": ["meshmode/distributed.py:get_connected_parts", "meshmode/mesh/processing.py:partition_mesh"]}
{"id": "C80", "title": "Setting up communication between the parts of a mesh", "statement": "A mesh is partitioned, its parts are assigned to ranks in any way, each rank restricts its parts to the boundaries towards the parts reported by get_connected_parts and passes them to MPIBoundaryCommSetupHelper. Then for every schedule no rank fails or waits for ever, and in the end each rank has, for each of its parts and each part connected to it, exactly one connection, and this takes to each face of the part exactly the data of the face of the other part on the other side in the original mesh.", "quantifier": "every mesh with mutual facial adjacency, every valid partition, every assignment to ranks, every schedule", "why_tests_cant": "All interleavings of messages, all meshes and partitions.", "anchors": ["meshmode/distributed.py:MPIBoundaryCommSetupHelper", "meshmode/distributed.py:get_connected_parts", "meshmode/mesh/processing.py:partition_mesh", "meshmode/discretization/connection/opposite_face.py:make_partition_connection"]}
{"id": "C81", "title": "Partitioning by pymetis for every mesh", "statement": "get_partition_by_pymetis (connectivity='facial') gives its graph to the partitioner for every mesh with facial adjacency.", "quantifier": "every mesh", "why_tests_cant": "Degenerate meshes: no interior face.", "anchors": ["meshmode/distributed.py:get_partition_by_pymetis"]}
{"id": "C82", "title": "Every rank receives a part", "statement": "MPIMeshDistributor.send_mesh_parts sends every part, once, to the rank with its number, except the part of the manager rank, which it returns; every rank below num_parts receives a part.", "quantifier": "every list of part numbers below num_parts", "why_tests_cant": "Part numbers that do not occur.", "anchors": ["meshmode/distributed.py:MPIMeshDistributor.send_mesh_parts", "meshmode/distributed.py:membership_list_to_map"]}
{"id": "C83", "title": "Box meshes are conforming", "statement": "In a mesh from generate_box_mesh (not periodic) every face either lies on a side of the box and has no neighbor, or does not lie on a side and has exactly one other face with the same vertices.", "quantifier": "all numbers of points per axis, all strictly increasing coordinates, all supported element types, faces numbered in any way", "why_tests_cant": "Index arithmetic over all grid sizes.", "anchors": ["meshmode/mesh/generation.py:generate_box_mesh"]}
{"id": "C84", "title": "Box meshes cover the box without overlap", "statement": "Every point of the box lies in an element of the mesh from generate_box_mesh, and no point lies in the interior of two elements.", "quantifier": "all numbers of points per axis, all strictly increasing coordinates, all supported element types, all points", "why_tests_cant": "All points of the box and all grids.", "anchors": ["meshmode/mesh/generation.py:generate_box_mesh"]}
{"id": "C85", "title": "generate_box_mesh leaves its arguments unchanged", "statement": "The dictionary boundary_tag_to_face passed to generate_box_mesh is not changed by the call.", "quantifier": "every call", "why_tests_cant": "Tests do not look at the argument after the call.", "anchors": ["meshmode/mesh/generation.py:generate_box_mesh"]}
{"id": "C86", "title": "The torus is a closed oriented surface", "statement": "For n_major, n_minor >= 3 generate_torus_and_cycle_vertices returns a mesh in which every face has exactly one neighbor and neighboring elements traverse their common edge in opposite directions. The vertices of an element are the images of its corners in the parameter domain, also where the indices wrap around, and elements are positively oriented in the parameter domain. Without r_minor_func all vertices and nodes satisfy the equation of the torus.", "quantifier": "all n_major, n_minor >= 3, triangles and quadrilaterals, any numbering of the faces, all radii, all sets of nodes", "why_tests_cant": "Wrap-around index arithmetic for all sizes.", "anchors": ["meshmode/mesh/generation.py:generate_torus_and_cycle_vertices", "meshmode/mesh/generation.py:generate_torus"]}
{"id": "C87", "title": "Surfaces of revolution are conforming", "statement": "In the mesh of generate_surface_of_revolution with at least three angles, the faces on the first and on the last circle have no neighbor and every other face has exactly one.", "quantifier": "all discretizations with at least three angles, any radius function, any numbering of the faces", "why_tests_cant": "Index arithmetic for all sizes.", "anchors": ["meshmode/mesh/generation.py:generate_surface_of_revolution"]}
{"id": "C88", "title": "Surfaces of revolution are consistently oriented", "statement": "Neighboring triangles of generate_surface_of_revolution traverse their common edge in opposite directions, so that normals point to one side.", "quantifier": "all discretizations", "why_tests_cant": "Tests look at volumes and areas only, which do not depend on the orientation.", "anchors": ["meshmode/mesh/generation.py:generate_surface_of_revolution"]}
{"id": "C89", "title": "Curve meshes follow the curve", "statement": "make_curve_mesh returns a mesh iff the element boundaries start with 0 and end with 1 and, if closed is set, the curve is closed. Element k joins the vertices at its two boundaries (the last one of a closed curve ends in the first vertex), its nodes are the values of the curve at the returned parametrization points, which are the unit nodes moved to the parameter interval of the element. A closed curve has no boundary faces; the boundary of an open one consists of two faces, at its start and its end.", "quantifier": "all element boundaries (any number of elements, including one), curves, sets of nodes", "why_tests_cant": "All numbers of elements and all curves.", "anchors": ["meshmode/mesh/generation.py:make_curve_mesh"]}
{"id": "C90", "title": "Hypercubes are cut into cells of the grid of nodes", "statement": "vtk_submesh_for_hypercube returns each cell of the grid of nodes exactly once, with its corners in the order of VTK lines, quadrilaterals and hexahedra.", "quantifier": "dimensions 1 to 3, every order, every numbering of the nodes", "why_tests_cant": "All orders and numberings; pictures are not tested.", "anchors": ["meshmode/discretization/visualization.py:vtk_submesh_for_hypercube"]}
{"id": "C91", "title": "Points of a VTK file only depend on the arguments", "statement": "The points in a file written by write_vtk_file with an element shrink factor are the nodes shrunk by that factor towards the center of their element, whatever was written before.", "quantifier": "every sequence of calls", "why_tests_cant": "Tests write each kind of file once.", "anchors": ["meshmode/discretization/visualization.py:Visualizer.write_vtk_file", "meshmode/discretization/visualization.py:Visualizer._vis_nodes_numpy"]}
{"id": "C92", "title": "High order cells have the values of their elements", "statement": "With high order elements, the connectivity has one cell for each element, and the values between two consecutive offsets are the values of the element in the order of VTK; there is one type for each cell.", "quantifier": "every sequence of groups, every field", "why_tests_cant": "Offset arithmetic over all group structures.", "anchors": ["meshmode/discretization/visualization.py:VTKLagrangeConnectivity.cells", "meshmode/discretization/visualization.py:Visualizer.write_vtkhdf_file"]}
{"id": "C93", "title": "VTK HDF files can be written for every mesh", "statement": "write_vtkhdf_file writes connectivity and offsets from which every cell can be read as in C48.", "quantifier": "every sequence of groups", "why_tests_cant": "All meshes, including those with a single element.", "anchors": ["meshmode/discretization/visualization.py:Visualizer.write_vtkhdf_file"]}
{"id": "C94", "title": "Cell types and connectivity agree", "statement": "The linear connectivity has as many entries as cells of the given types have points, for every order of the nodes.", "quantifier": "every order", "why_tests_cant": "Includes orders that tests do not use.", "anchors": ["meshmode/discretization/visualization.py:VTKConnectivity.groups", "meshmode/discretization/visualization.py:VTKConnectivity.cell_types"]}
{"id": "C95", "title": "XDMF connectivity refers to the nodes of the group", "statement": "The connectivity written for a group in an XDMF file refers to the nodes of that group, and each cell has the values of its subelement.", "quantifier": "every sequence of groups, every field", "why_tests_cant": "Offset arithmetic over all group structures.", "anchors": ["meshmode/discretization/visualization.py:Visualizer.write_xdmf_file"]}
{"id": "C96", "title": "Meshes from Gmsh files have the elements of the file", "statement": "The mesh has the nodes of the file as its vertices and exactly the elements of the largest dimension, one group for each type by first occurrence in the file, elements of a group in the order of the file; triangles have two vertices exchanged and their nodes resampled to match, vertices of quadrilaterals and hexahedra are put in lexicographic order. Well-formed files are accepted.", "quantifier": "every file with consistent numbering, every order of callbacks", "why_tests_cant": "All files with any mixture of types.", "anchors": ["meshmode/mesh/io.py:GmshMeshReceiver.get_mesh"]}
{"id": "C97", "title": "Faces have the tags of elements of lower dimension in the file", "statement": "A face of a mesh from a Gmsh file is in the boundary group with a name if and only if it is a boundary face and the file has an element with the same vertices that is marked with a tag of this name whose dimension is that of faces.", "quantifier": "every file with tags and a conforming mesh", "why_tests_cant": "All files and tags.", "anchors": ["meshmode/mesh/io.py:GmshMeshReceiver.get_mesh"]}
{"id": "C98", "title": "Tags with the same number", "statement": "Reading fails with ValueError if and only if two different tags (name or dimension) have the same number, whatever the order of callbacks.", "quantifier": "every file with consistent numbering of nodes and elements", "why_tests_cant": "All files.", "anchors": ["meshmode/mesh/io.py:GmshMeshReceiver.add_tag"]}
{"id": "C99", "title": "Elements are listed under tags of their own dimension", "statement": "A name in the map from tags to elements is the name of a tag of the dimension of the mesh.", "quantifier": "every file", "why_tests_cant": "Needs files with tags of different dimensions and the same number.", "anchors": ["meshmode/mesh/io.py:GmshMeshReceiver.get_mesh"]}
{"id": "C100", "title": "Memoised matrices cannot be observed", "statement": "Results of num_reference_derivative, NodalToModalDiscretizationConnection, ModalToNodalDiscretizationConnection and L2ProjectionInverseDiscretizationConnection depend on their arguments only, not on which calls were made with the same array context before (successful or not, with whatever groups).", "quantifier": "every sequence of such calls, all groups and data", "why_tests_cant": "Histories of any length; keys of all classes of groups, orders and axes must never collide.", "anchors": ["meshmode/discretization/__init__.py:num_reference_derivative", "meshmode/discretization/__init__.py:ElementGroupBase.discretization_key", "meshmode/discretization/connection/modal.py:NodalToModalDiscretizationConnection.__call__", "meshmode/discretization/connection/modal.py:ModalToNodalDiscretizationConnection.__call__", "meshmode/discretization/connection/projection.py:L2ProjectionInverseDiscretizationConnection.__call__"]}
{"id": "C101", "title": "Reference derivatives along several axes", "statement": "num_reference_derivative returns the same for all orders of the axes; if differentiation matrices commute, it is the derivative along the given axes one after the other, on every element of every group; axes that do not exist are rejected.", "quantifier": "all discretizations, axes, data", "why_tests_cant": "All sequences of axes.", "anchors": ["meshmode/discretization/__init__.py:num_reference_derivative"]}
{"id": "C102", "title": "Nodal to modal conversion and back", "statement": "On groups with unisolvent nodes and the basis of the modal group, NodalToModal finds the only coefficients which represent the data and ModalToNodal recovers the data from them; also the other way round.", "quantifier": "all discretizations of interpolatory groups with a discretization_key, all data, any history of the array contexts", "why_tests_cant": "All data and histories.", "anchors": ["meshmode/discretization/connection/modal.py:NodalToModalDiscretizationConnection.__call__", "meshmode/discretization/connection/modal.py:ModalToNodalDiscretizationConnection.__call__"]}
{"id": "C103", "title": "Nodal to modal conversion by quadrature", "statement": "With QuadratureSimplexElementGroup, coefficients of functions in the modal space are recovered from their values if the rule is exact for products of basis functions; without allow_approximate_quad there is a result only if all the rules are exact to twice the order. Weights of groups with given nodes and basis integrate this basis if modepy's mass weights do.", "quantifier": "all discretizations and coefficients", "why_tests_cant": "All functions.", "anchors": ["meshmode/discretization/connection/modal.py:NodalToModalDiscretizationConnection._project_via_quadrature", "meshmode/discretization/connection/modal.py:NodalToModalDiscretizationConnection.__call__"]}
{"id": "C104", "title": "Results of nodal to modal conversion fit the modal discretization", "statement": "If NodalToModal returns a result, it has as many coefficients in each element as the group of to_discr has. Connections are made exactly between nodal and modal discretizations of one mesh.", "quantifier": "all nodal and modal discretizations of a mesh", "why_tests_cant": "Tests use equal orders.", "anchors": ["meshmode/discretization/connection/modal.py:NodalToModalDiscretizationConnection._compute_coeffs_via_inv_vandermonde"]}
{"id": "C105", "title": "L2 projection undoes subdivision", "statement": "For a connection in which target group i subdivides source group i, with rules which integrate products of basis functions exactly over the children together, L2ProjectionInverse recovers the data on the source from the transferred data; for chains, the inverses in reversed order do. The inverse of a connection exists exactly if dimensions agree and the target groups have orthonormal bases.", "quantifier": "all such connections and (nested) chains, all data, any history of the array context", "why_tests_cant": "All subdivisions and data.", "anchors": ["meshmode/discretization/connection/projection.py:L2ProjectionInverseDiscretizationConnection.__new__", "meshmode/discretization/connection/projection.py:L2ProjectionInverseDiscretizationConnection._batch_weights", "meshmode/discretization/connection/projection.py:L2ProjectionInverseDiscretizationConnection.__call__"]}
{"id": "C106", "title": "L2 projection undoes subdivision, however groups are numbered and chains are built", "statement": "L2ProjectionInverse recovers the data also if the connection maps groups to groups with other numbers, and exists for chains with identities.", "quantifier": "all permutations of groups; chains with identity connections", "why_tests_cant": "Tests use one group.", "anchors": ["meshmode/discretization/connection/projection.py:L2ProjectionInverseDiscretizationConnection.__call__", "meshmode/discretization/connection/projection.py:L2ProjectionInverseDiscretizationConnection.__new__"]}
{"id": "C107", "title": "Node coordinates of a discretization", "statement": "Discretization.nodes() returns the same for every sequence of calls, cached or not; nodes are the element maps of the mesh evaluated at the unit nodes of the group.", "quantifier": "all meshes, discretizations, sequences of calls", "why_tests_cant": "All meshes and sequences of calls.", "anchors": ["meshmode/discretization/__init__.py:Discretization.nodes"]}
{"id": "C108", "title": "check_mesh_consistency decides consistency", "statement": "On a volume mesh of modepy groups without NaN whose arrays fit the reference element, check_mesh_consistency passes if and only if on every element the polynomial through the nodes is within tol*(1 + largest vertex coordinate) of every vertex, the determinant of the edges is positive, vertex numbers have the dtype of the mesh, and the adjacency arrays have the documented shapes and dtypes.", "quantifier": "all such meshes, tolerances, dimensions 1 to 3", "why_tests_cant": "Tests see examples of accepted and rejected meshes; that nothing else is accepted or rejected needs all meshes.", "anchors": ["meshmode/mesh/__init__.py:check_mesh_consistency", "meshmode/mesh/__init__.py:_test_group_node_vertex_consistency_resampling", "meshmode/mesh/processing.py:find_volume_mesh_element_orientations"]}
{"id": "C109", "title": "is_mesh_consistent answers yes or no", "statement": "is_mesh_consistent returns True if the mesh is consistent in the sense of C108 and False otherwise, and does not raise.", "quantifier": "all meshes", "why_tests_cant": "All meshes, including those without vertices.", "anchors": ["meshmode/mesh/__init__.py:is_mesh_consistent", "meshmode/mesh/processing.py:find_volume_mesh_element_orientations"]}
{"id": "C110", "title": "The consistency check covers the adjacency", "statement": "If check_mesh_consistency passes, adjacency arrays refer to existing elements and have the documented shapes and dtypes.", "quantifier": "all meshes with available adjacency", "why_tests_cant": "All contents of the arrays.", "anchors": ["meshmode/mesh/__init__.py:check_mesh_consistency"]}
{"id": "C111", "title": "The consistency check notices NaN", "statement": "If check_mesh_consistency passes, nodes are numbers near the vertices.", "quantifier": "all meshes", "why_tests_cant": "One NaN hides arbitrary errors of the other nodes of the element.", "anchors": ["meshmode/mesh/__init__.py:_test_group_node_vertex_consistency_resampling"]}
{"id": "C112", "title": "force_positive_orientation makes meshes that pass the check", "statement": "make_mesh(force_positive_orientation=True) succeeds for simplices of dimension 1 to 3 that are not degenerate and whose nodes match their vertices, with default dtypes; the options of make_mesh concerning tests and dtypes apply.", "quantifier": "all such groups, tolerances and numberings", "why_tests_cant": "All numberings of elements.", "anchors": ["meshmode/mesh/__init__.py:make_mesh", "meshmode/mesh/processing.py:perform_flips", "meshmode/mesh/processing.py:flip_element_group"]}
{"id": "C113", "title": "Straight elements pass the node-vertex test", "statement": "Elements whose nodes and vertices are images of the unit nodes and unit vertices under one affine map pass the node-vertex test for every tolerance.", "quantifier": "all affine elements of any dimension, all tolerances", "why_tests_cant": "All elements.", "anchors": ["meshmode/mesh/__init__.py:_test_group_node_vertex_consistency_resampling"]}
{"id": "C114", "title": "is_affine", "statement": "is_affine of a simplex group is True exactly if all modal coefficients of second reference derivatives of the element maps are smaller than the tolerance; in particular for groups of straight elements; elements that are not straight give False.", "quantifier": "all simplex groups, orders, elements", "why_tests_cant": "The code looks at the first element separately and stops early; all groups.", "anchors": ["meshmode/mesh/__init__.py:is_affine_simplex_group", "meshmode/mesh/__init__.py:SimplexElementGroup.is_affine"]}
{"id": "C115", "title": "Affine images of a consistent mesh", "statement": "affine_map applied to a mesh of positively oriented simplices whose nodes interpolate the vertices returns a mesh if the determinant of A is positive, and raises InconsistentMeshError otherwise.", "quantifier": "all such meshes of dimension 1 to 3, all A and b (scalars, arrays or None)", "why_tests_cant": "All matrices.", "anchors": ["meshmode/mesh/processing.py:affine_map", "meshmode/mesh/__init__.py:Mesh.copy", "meshmode/mesh/__init__.py:check_mesh_consistency"]}
{"id": "C116", "title": "Imported elements are the Firedrake cells", "statement": "import_firedrake_mesh makes one element of each cell (of each entry of cells_to_use, in that order). Its vertices are the vertices of the cell in Firedrake's order, with the first two swapped if the reported orientation is negative; its nodes are the nodes of the cell, through the flip matrix in that case. Vertices are renumbered without changing their order, and have the coordinates of the corners of the cells.", "quantifier": "all Firedrake simplex meshes of topological dimension 1 to 3 (straight or curved, any coordinate element with one node per vertex), all choices of cells_to_use", "why_tests_cant": "Tests look at a few meshes and at counts.", "anchors": ["meshmode/interop/firedrake/mesh.py:import_firedrake_mesh", "meshmode/interop/firedrake/mesh.py:_get_firedrake_nodal_info"]}
{"id": "C117", "title": "Orientation of imported meshes", "statement": "If the geometric dimension is the topological one, no element of the imported mesh has negative volume. For surfaces in space, elements are flipped according to Firedrake's orientation flags: the reported orientation is 2*flag - 1.", "quantifier": "all Firedrake simplex meshes of topological dimension 1 to 3 (straight or curved, any coordinate element with one node per vertex), all choices of cells_to_use", "why_tests_cant": "All meshes.", "anchors": ["meshmode/interop/firedrake/mesh.py:import_firedrake_mesh", "meshmode/interop/firedrake/mesh.py:_get_firedrake_orientations"]}
{"id": "C118", "title": "Nodal adjacency of imported meshes", "statement": "In the nodal adjacency of an imported mesh, an element e' other than e occurs in the list of e once per vertex that the two have in common, and e itself does not occur.", "quantifier": "all Firedrake simplex meshes of topological dimension 1 to 3 (straight or curved, any coordinate element with one node per vertex), all choices of cells_to_use", "why_tests_cant": "All meshes and elements.", "anchors": ["meshmode/interop/firedrake/mesh.py:_get_firedrake_nodal_info"]}
{"id": "C119", "title": "Neighbors of imported elements are listed once", "statement": "The lists of neighbors in the nodal adjacency of an imported mesh have no duplicates, like those that meshmode computes itself.", "quantifier": "all Firedrake simplex meshes of topological dimension 1 to 3 (straight or curved, any coordinate element with one node per vertex), all choices of cells_to_use", "why_tests_cant": "All meshes and elements.", "anchors": ["meshmode/interop/firedrake/mesh.py:_get_firedrake_nodal_info", "meshmode/mesh/__init__.py:_compute_nodal_adjacency_from_vertices"]}
{"id": "C120", "title": "Boundary tags of imported meshes", "statement": "Faces of the imported mesh with BTAG_ALL are exactly the exterior facets of the cells in use; faces tagged with a marker are exactly the exterior facets with that marker.", "quantifier": "all Firedrake simplex meshes of topological dimension 1 to 3 (straight or curved, any coordinate element with one node per vertex), all choices of cells_to_use", "why_tests_cant": "All meshes, numberings of faces and flips.", "anchors": ["meshmode/interop/firedrake/mesh.py:_get_firedrake_facial_adjacency_groups", "meshmode/interop/firedrake/mesh.py:_get_firedrake_boundary_tags", "meshmode/interop/firedrake/mesh.py:import_firedrake_mesh"]}
{"id": "C121", "title": "Interior faces of imported meshes", "statement": "The faces of the interior adjacency group are the two sides of the interior facets, and neighboring faces are the two sides of the same facet.", "quantifier": "all Firedrake simplex meshes of topological dimension 1 to 3 (straight or curved, any coordinate element with one node per vertex)", "why_tests_cant": "Existing tests compare boundary faces only.", "anchors": ["meshmode/interop/firedrake/mesh.py:_get_firedrake_facial_adjacency_groups"]}
{"id": "C122", "title": "Induced boundary of imported subsets", "statement": "With cells_to_use, the faces tagged BTAG_INDUCED_BOUNDARY are those between a cell in use and a cell not in use.", "quantifier": "all Firedrake simplex meshes of topological dimension 1 to 3 (straight or curved, any coordinate element with one node per vertex), all choices of cells_to_use", "why_tests_cant": "All subsets.", "anchors": ["meshmode/interop/firedrake/mesh.py:_get_firedrake_facial_adjacency_groups"]}
{"id": "C123", "title": "When importing succeeds", "statement": "import_firedrake_mesh succeeds for every Firedrake simplex mesh of dimension 1 to 3.", "quantifier": "all Firedrake simplex meshes of topological dimension 1 to 3 (straight or curved, any coordinate element with one node per vertex), all choices of cells_to_use", "why_tests_cant": "All meshes.", "anchors": ["meshmode/interop/firedrake/mesh.py:import_firedrake_mesh"]}
{"id": "C124", "title": "Importing does not change the Firedrake mesh", "statement": "import_firedrake_mesh leaves the Firedrake mesh unchanged, and importing again gives the same mesh.", "quantifier": "all Firedrake simplex meshes of topological dimension 1 to 3 (straight or curved, any coordinate element with one node per vertex), all choices of cells_to_use", "why_tests_cant": "Aliasing of arrays is invisible to tests that import once.", "anchors": ["meshmode/interop/firedrake/mesh.py:_get_firedrake_orientations"]}
{"id": "C125", "title": "Permutations returned by export_mesh_to_firedrake", "statement": "If element e is in the list perm2cell[p], local vertex i of its Firedrake cell is local vertex p[i] of the element.", "quantifier": "all meshes with a simplex group, conforming and with vertices; whatever order Firedrake gives to cells, to the vertices of a cell and to nodes; reference nodes that are symmetric", "why_tests_cant": "All orders of vertices; the tests only see the orders Firedrake happens to use.", "anchors": ["meshmode/interop/firedrake/mesh.py:export_mesh_to_firedrake"]}
{"id": "C126", "title": "perm2cell covers the elements once", "statement": "Every element of the exported group is in exactly one list of perm2cell, keys are distinct and lists are not empty.", "quantifier": "all meshes with a simplex group, conforming and with vertices; whatever order Firedrake gives to cells, to the vertices of a cell and to nodes; reference nodes that are symmetric", "why_tests_cant": "All meshes.", "anchors": ["meshmode/interop/firedrake/mesh.py:export_mesh_to_firedrake"]}
{"id": "C127", "title": "Documented direction of perm2cell", "statement": "As documented: if element e is in the list perm2cell[p], the p[i]th local vertex of the Firedrake cell corresponds to the ith local vertex of the element.", "quantifier": "all meshes with a simplex group, conforming and with vertices; whatever order Firedrake gives to cells, to the vertices of a cell and to nodes; reference nodes that are symmetric", "why_tests_cant": "For triangles with positive orientation three of six permutations cannot tell the directions apart.", "anchors": ["meshmode/interop/firedrake/mesh.py:export_mesh_to_firedrake"]}
{"id": "C128", "title": "Coordinates of exported meshes", "statement": "Each node of an exported Firedrake cell has the coordinates of the point of its element at the same place (same barycentric coordinates with respect to the same vertices). Where several elements share a node and agree about it, this is the position in all of them.", "quantifier": "all meshes with a simplex group, conforming and with vertices; whatever order Firedrake gives to cells, to the vertices of a cell and to nodes; reference nodes that are symmetric; straight or curved elements", "why_tests_cant": "All meshes and orders.", "anchors": ["meshmode/interop/firedrake/mesh.py:export_mesh_to_firedrake", "meshmode/mesh/processing.py:get_simplex_element_flip_matrix"]}
{"id": "C129", "title": "Node mapping of build_connection_to_firedrake", "statement": "Node k of element e is mapped to the Firedrake node at the same place in the cell made of e; the mapping passes the checks of FiredrakeConnection.", "quantifier": "all meshes with a simplex group, conforming and with vertices; whatever order Firedrake gives to cells, to the vertices of a cell and to nodes; reference nodes that are symmetric; all discontinuous function spaces", "why_tests_cant": "All orders of vertices.", "anchors": ["meshmode/interop/firedrake/connection.py:build_connection_to_firedrake", "meshmode/interop/firedrake/connection.py:FiredrakeConnection"]}
{"id": "C130", "title": "Node mapping of build_connection_from_firedrake", "statement": "Node k of an element is mapped to the Firedrake node at the same place in its cell, also if the element was flipped. The assertion that flipping twice is the identity holds.", "quantifier": "all dimensions from 1, all cells_to_use, all choices of flipped elements, all symmetric reference nodes", "why_tests_cant": "All orientations and node counts.", "anchors": ["meshmode/interop/firedrake/connection.py:build_connection_from_firedrake", "meshmode/interop/firedrake/connection.py:_reorder_nodes"]}
{"id": "C131", "title": "Transfer to Firedrake and back", "statement": "from_meshmode followed by from_firedrake gives back the field on the group of the connection, and from_firedrake followed by from_meshmode gives back the function on the nodes of the connection; other nodes are zero, or keep their values if a function to write to is given.", "quantifier": "all fields (scalar or object array of any shape), all connections whose resampling matrices undo each other", "why_tests_cant": "Tests use polynomial fields.", "anchors": ["meshmode/interop/firedrake/connection.py:FiredrakeConnection.from_firedrake", "meshmode/interop/firedrake/connection.py:FiredrakeConnection.from_meshmode"]}
{"id": "C132", "title": "Errors of the Firedrake interface", "statement": "As documented, an invalid group_nr raises ValueError, from_firedrake stores in the given object array of DOFArrays, and imported meshes can be exported.", "quantifier": "all group numbers, fields and meshes", "why_tests_cant": "Error paths and optional arguments that no test uses.", "anchors": ["meshmode/interop/firedrake/connection.py:FiredrakeConnection.__init__", "meshmode/interop/firedrake/connection.py:FiredrakeConnection.from_firedrake", "meshmode/interop/firedrake/mesh.py:export_mesh_to_firedrake", "meshmode/interop/firedrake/mesh.py:import_firedrake_mesh"]}
{"id": "C133", "title": "Map between reference simplices", "statement": "get_affine_reference_simplex_mapping maps vertex i of one reference simplex to vertex i of the other, and the maps of the two directions are inverse to each other.", "quantifier": "all dimensions, all points", "why_tests_cant": "All dimensions; the code solves the wrong system and is right only since one matrix is a multiple of the identity.", "anchors": ["meshmode/interop/firedrake/reference_cell.py:get_affine_reference_simplex_mapping"]}
{"id": "C134", "title": "Nodes of simplices made from vertices", "statement": "make_group_from_vertices for simplices: the nodes of an element are the images of the unit nodes under the affine map that takes vertex k of the unit simplex to vertex k of the element.", "quantifier": "all dimensions and ambient dimensions, all vertices, elements and unit nodes, exact arithmetic", "why_tests_cant": "Tests use a few meshes whose nodes are never compared with a map.", "anchors": ["meshmode/mesh/generation.py:make_group_from_vertices"]}
{"id": "C135", "title": "Nodes of tensor product elements made from vertices", "statement": "make_group_from_vertices for tensor product elements: the nodes are the images of the unit nodes under a map that takes corner k to vertex k and is affine in each coordinate. Numbers of vertices that are no powers of two raise ValueError.", "quantifier": "all dimensions, all vertices and unit nodes, every solver of linear systems that returns solutions", "why_tests_cant": "All quadrilaterals and hexahedra, not only parallelepipeds.", "anchors": ["meshmode/mesh/generation.py:make_group_from_vertices"]}
{"id": "C136", "title": "The icosahedron is regular and closed", "statement": "generate_icosahedron(r, order) has 12 vertices at distance r from the origin and 20 triangles; every edge belongs to two triangles in opposite directions, all edges have the same length, and all triangles have the same orientation (outward if r > 0).", "quantifier": "all r other than 0, all orders and unit nodes; any ordered ring with square roots, inverses and a golden ratio", "why_tests_cant": "All radii, in exact arithmetic.", "anchors": ["meshmode/mesh/generation.py:generate_icosahedron"]}
{"id": "C137", "title": "Generated spheres lie on the sphere", "statement": "generate_sphere returns a conforming mesh of which all vertices and all nodes have the distance r from the origin, with 20*4^k triangles or 6*4^k quadrilaterals after k rounds of refinement. Other group classes raise TypeError.", "quantifier": "all radii other than 0, orders, rounds and unit nodes; every refinement that interpolates within elements", "why_tests_cant": "Tests look at a few orders and rounds.", "anchors": ["meshmode/mesh/generation.py:generate_sphere", "meshmode/mesh/generation.py:generate_cube_surface", "meshmode/mesh/refinement/__init__.py:refine_uniformly"]}
{"id": "C138", "title": "n_gon", "statement": "n_gon(n, t) returns a point of the polygon for every parameter.", "quantifier": "all n from 1 and all t", "why_tests_cant": "No test calls it.", "anchors": ["meshmode/mesh/generation.py:n_gon"]}
{"id": "C139", "title": "Wobbly circles and starfish", "statement": "A WobblyCircle with coefficients c keeps at least 1 - sum |c| away from the origin, a random one at least 0.05; NArmedStarfish(n, a) is the curve with radius 1 + a sin(n t) and is taken to itself by a rotation through 1/n of a full turn. Without arms IndexError is raised.", "quantifier": "all coefficients, phases and parameters; sine and cosine characterised by the addition theorems and bounds", "why_tests_cant": "All coefficients and parameters.", "anchors": ["meshmode/mesh/generation.py:WobblyCircle", "meshmode/mesh/generation.py:NArmedStarfish"]}
{"id": "C140", "title": "Slices of annular cylinders", "statement": "generate_annular_cylinder_slice_mesh: the affine map used to glue the sides takes each point of the side y=0 of the parameter box to the point of the side y=1 with the same other coordinates; points have a distance between the two radii from the axis.", "quantifier": "all centres and radii, all parameters", "why_tests_cant": "All centres; the tests use few.", "anchors": ["meshmode/mesh/generation.py:generate_annular_cylinder_slice_mesh"]}
{"id": "C141", "title": "warp_and_refine_until_resolved", "statement": "When warp_and_refine_until_resolved returns, the estimated relative interpolation error of each coordinate is at most the tolerance on each element of the warped mesh, and all vertices and nodes of it are finite.", "quantifier": "all meshes, warps and tolerances", "why_tests_cant": "All warps; tests use ones without zero coordinates.", "anchors": ["meshmode/mesh/generation.py:warp_and_refine_until_resolved"]}
{"id": "C142", "title": "Orientation of meshes from vertices and simplices", "statement": "from_vertices_and_simplices with fix_orientation=True gives the same mesh as without it after the first two vertices of the negatively oriented simplices have been exchanged; no element is then negatively oriented. On surfaces and curves it never succeeds.", "quantifier": "dimensions 1 to 3, all vertices and simplices, orders and nodes for which the flip matrix is exact on affine functions", "why_tests_cant": "All combinations of orientations.", "anchors": ["meshmode/mesh/io.py:from_vertices_and_simplices", "meshmode/mesh/processing.py:perform_flips"]}
{"id": "C143", "title": "to_json reflects the mesh", "statement": "to_json gives the vertices, the vertex indices and nodes of each group, the nodal adjacency (None if not available) and the conformity; meshes with the same structure agree in these; a second call gives the same. The mesh still equals a copy made before.", "quantifier": "all meshes", "why_tests_cant": "All states of the cached adjacency.", "anchors": ["meshmode/mesh/io.py:to_json"]}
{"id": "C144", "title": "Radius of urchins", "statement": "Radii of the points of generate_urchin are at least min_rad and at most min_rad + 1.", "quantifier": "all orders of the spherical harmonic, all refinements", "why_tests_cant": "Tests do not look at radii.", "anchors": ["meshmode/mesh/generation.py:refine_mesh_and_get_urchin_warper", "meshmode/mesh/generation.py:generate_urchin"]}
{"id": "C145", "title": "Point data of VTK files", "statement": "A VTK file has, for every non-empty field asked for (attributes of data classes under the name of the class and the attribute), its values at all nodes in order, scalars and vectors, complex ones split into real part (_r) and imaginary part (_i), or the real part only if real_only is given.", "quantifier": "all lists of fields, groups, values; vectors whose first component is complex or whose components are all real", "why_tests_cant": "Tests only look at whether files can be written.", "anchors": ["meshmode/discretization/visualization.py:Visualizer.write_vtk_file", "meshmode/discretization/visualization.py:separate_by_real_and_imag", "meshmode/discretization/visualization.py:_resample_to_numpy", "meshmode/discretization/visualization.py:preprocess_fields"]}
{"id": "C146", "title": "Only real arrays in VTK files", "statement": "The arrays given to the VTK writer are all real.", "quantifier": "all lists of fields", "why_tests_cant": "All mixtures of real and complex components.", "anchors": ["meshmode/discretization/visualization.py:separate_by_real_and_imag"]}
{"id": "C147", "title": "Names of fields in a file are distinct", "statement": "Fields with different names have different names in the file.", "quantifier": "all lists of fields", "why_tests_cant": "All names.", "anchors": ["meshmode/discretization/visualization.py:separate_by_real_and_imag", "meshmode/discretization/visualization.py:preprocess_fields"]}
{"id": "C148", "title": "Fields of XDMF files", "statement": "An XDMF file has for every non-empty field and every group the values on the nodes of the group, vectors stacked by component, complex ones split as in C145; real and complex components may be mixed.", "quantifier": "all lists of fields, groups, values", "why_tests_cant": "Tests only look at whether files can be written.", "anchors": ["meshmode/discretization/visualization.py:Visualizer.write_xdmf_file", "meshmode/discretization/visualization.py:_resample_to_numpy"]}
{"id": "C149", "title": "Existing files are kept", "statement": "Without overwrite=True no function that writes a file changes one that exists.", "quantifier": "all states of the file system, file names and manifests", "why_tests_cant": "All combinations of files that exist.", "anchors": ["meshmode/discretization/visualization.py:Visualizer.write_vtk_file", "meshmode/discretization/visualization.py:Visualizer.write_parallel_vtk_file", "meshmode/discretization/visualization.py:Visualizer.write_vtkhdf_file", "meshmode/discretization/visualization.py:Visualizer.write_xdmf_file", "meshmode/discretization/visualization.py:write_nodal_adjacency_vtk_file", "meshmode/mesh/visualization.py:write_vertex_vtk_file", "meshmode/mesh/visualization.py:write_stl_file"]}
{"id": "C150", "title": "Either the file and the manifest or neither", "statement": "write_vtk_file writes either both its file and the manifest (on the responsible rank) or neither.", "quantifier": "all states of the file system, names, overwrite", "why_tests_cant": "All combinations of arguments and existing files.", "anchors": ["meshmode/discretization/visualization.py:Visualizer.write_vtk_file"]}
{"id": "C151", "title": "Files of parallel runs", "statement": "The ranks of a parallel run, in whatever order, write one file each and exactly one manifest with the names of the files of all ranks in order, and change no other file; the manifest has the name of the file of rank 0 with .pvtu.", "quantifier": "all numbers of ranks, orders, names that differ, states of the file system without these files or overwrite", "why_tests_cant": "All orders of ranks.", "anchors": ["meshmode/discretization/visualization.py:Visualizer.write_parallel_vtk_file", "meshmode/discretization/visualization.py:Visualizer.write_vtk_file"]}
{"id": "C152", "title": "VTK HDF files of several ranks", "statement": "The datasets written by all ranks, in whatever order, have no gaps, and reading them by the numbers of cells, points and connectivity entries gives cells, offsets, types, points (padded by zeros to three coordinates) and fields of every rank.", "quantifier": "all numbers of ranks, sizes, orders", "why_tests_cant": "All numbers of ranks and orders of writes.", "anchors": ["meshmode/discretization/visualization.py:Visualizer.write_vtkhdf_file"]}
{"id": "C153", "title": "Options of HDF5 files stay unchanged", "statement": "Writing a file does not change the dictionary h5_file_options of the caller.", "quantifier": "all dictionaries and communicators", "why_tests_cant": "All sequences of calls that share a dictionary.", "anchors": ["meshmode/discretization/visualization.py:Visualizer.write_vtkhdf_file", "meshmode/discretization/visualization.py:Visualizer.write_xdmf_file"]}
{"id": "C154", "title": "Visualizers and their copies", "statement": "make_visualizer returns a visualizer whose connection goes from the given discretization to one of the same mesh; its connectivity has the cells of that discretization whichever file is written first, and copy_with_same_connectivity returns a visualizer of the other discretization with the same cells, factory and options.", "quantifier": "all meshes, group factories, orders, shrink factors, histories of writes", "why_tests_cant": "All combinations of options and histories.", "anchors": ["meshmode/discretization/visualization.py:make_visualizer", "meshmode/discretization/visualization.py:Visualizer.copy_with_same_connectivity", "meshmode/discretization/visualization.py:Visualizer._vtk_connectivity", "meshmode/discretization/visualization.py:_check_discr_same_connectivity"]}
{"id": "C155", "title": "Files of vertices", "statement": "write_vertex_vtk_file writes one cell for each element with its vertices in the order of VTK and the type of its shape; write_stl_file one triangle for each element of a mesh of triangles in three dimensions and refuses other meshes.", "quantifier": "all meshes of simplices and tensor product elements in dimensions 1 to 3", "why_tests_cant": "Tests only look at whether files can be written.", "anchors": ["meshmode/mesh/visualization.py:write_vertex_vtk_file", "meshmode/mesh/visualization.py:write_stl_file"]}
{"id": "C156", "title": "TikZ pictures", "statement": "mesh_to_tikz defines a coordinate for the centroid and each vertex of each element, with unique names, and draws exactly the edges of each element.", "quantifier": "all meshes of lines, triangles and quadrilaterals", "why_tests_cant": "Tests do not look at the picture.", "anchors": ["meshmode/mesh/visualization.py:mesh_to_tikz"]}
{"id": "C157", "title": "Files of nodal adjacency", "statement": "write_nodal_adjacency_vtk_file writes the average of the vertices of each element as a point and a line for each ordered pair of different elements that share a vertex, once.", "quantifier": "all conforming or non-conforming meshes, all contents of uninitialised memory", "why_tests_cant": "No test looks at the file.", "anchors": ["meshmode/discretization/visualization.py:write_nodal_adjacency_vtk_file"]}
{"id": "C158", "title": "Flipping tensor product elements", "statement": "Flipping a quadrilateral or hexahedron is the reflection in the first reference axis: it exchanges vertices whose numbers differ in the first bit and composes the element's map with the reflection. The reported orientation is the Jacobian determinant at the first corner, so that force_positive_orientation makes negative elements positive.", "quantifier": "all dimensions up to 3 (flip matrix: up to 7), vertices, nodes and function spaces for which resampling is exact", "why_tests_cant": "Tests flip all elements of a few boxes, whose elements are parallelepipeds.", "anchors": ["meshmode/mesh/processing.py:_get_tensor_product_element_flip_matrix_and_vertex_permutation", "meshmode/mesh/processing.py:flip_element_group", "meshmode/mesh/processing.py:find_volume_mesh_element_group_orientation"]}
{"id": "C159", "title": "Nodes of children and midpoints", "statement": "The nodes of child c of a refined element are those of the element's map composed with an affine map that takes the corners of the reference element to the vertices of the child; midpoints are the images of the reference vertices that are no corners.", "quantifier": "all dimensions, simplices and tensor product elements, tessellations, unit nodes, function spaces for which resampling is exact", "why_tests_cant": "Tests compare areas and a few functions.", "anchors": ["meshmode/mesh/refinement/utils.py:map_unit_nodes_to_children", "meshmode/mesh/refinement/tessellate.py:_get_group_midpoints_modepy", "meshmode/mesh/refinement/tessellate.py:_get_group_tessellated_nodes_modepy"]}
{"id": "C160", "title": "Refined curved meshes are consistent", "statement": "After any sequence of refinements the vertices of every element are the images of its corners, also for curved elements, if flagged elements with two common vertices agree on the point half way and each call flags elements of one group.", "quantifier": "all meshes of curved simplices or tensor product elements, sequences of flags, function spaces closed under affine maps", "why_tests_cant": "All sequences of refinements.", "anchors": ["meshmode/mesh/refinement/no_adjacency.py:RefinerWithoutAdjacency.refine", "meshmode/mesh/refinement/tessellate.py:get_group_midpoints", "meshmode/mesh/refinement/tessellate.py:get_group_tessellated_nodes"]}
{"id": "C161", "title": "Elements between the same two vertices", "statement": "Refining a consistent mesh of a closed curve gives a consistent mesh, whatever the number of its elements.", "quantifier": "all closed curves", "why_tests_cant": "Tests refine curves with many elements.", "anchors": ["meshmode/mesh/refinement/no_adjacency.py:RefinerWithoutAdjacency.refine"]}
{"id": "C162", "title": "Gauss-Newton search for reference coordinates on opposite faces", "statement": "Every point returned by the search for reference coordinates on the opposite face is one least-squares step away from a point whose image is within the tolerance of the target, the first such point among at most eleven; otherwise RuntimeError is raised. For straight faces the returned points are exactly the preimages of the targets.", "quantifier": "all dimensions (straight faces: curves and surfaces), curved faces in the span of the basis, targets, initial guesses and tolerances", "why_tests_cant": "Tests run the search on the faces of a few meshes.", "anchors": ["meshmode/discretization/connection/opposite_face.py:_find_src_unit_nodes_via_gauss_newton"]}
{"id": "C163", "title": "Returned reference coordinates are near the target", "statement": "The opposite face maps the returned reference coordinates to a point within the tolerance of the target.", "quantifier": "all faces and targets on them", "why_tests_cant": "Tests use well shaped faces only.", "anchors": ["meshmode/discretization/connection/opposite_face.py:_find_src_unit_nodes_via_gauss_newton"]}
{"id": "C164", "title": "Loop transformations of element kernels", "statement": "The array context's transformation of a kernel splits exactly the loops over degrees of freedom of the marked outputs (inner part of 32 on the local axis) and puts exactly the loops over elements on the group axis. It raises ValueError exactly if the options are missing, the kernel is not of the documented form or a loop would be both, and falls back exactly for kernels without metadata.", "quantifier": "all kernels: arguments, statements, subscripts, loops and tags", "why_tests_cant": "Tests see only the few kernels meshmode itself makes.", "anchors": ["meshmode/array_context.py:_transform_loopy_inner", "meshmode/array_context.py:_transform_with_element_and_dof_inames", "meshmode/array_context.py:PyOpenCLArrayContext.transform_loopy_program"]}
{"id": "C165", "title": "Transformation does not depend on the order of statements", "statement": "The transformed loops do not depend on the order of the statements, and a tag on a kernel of one assignment is the same as the tag on its output.", "quantifier": "all kernels, all permutations of statements", "why_tests_cant": "Orders of statements are too many to try.", "anchors": ["meshmode/array_context.py:_transform_loopy_inner"]}
{"id": "C166", "title": "Kernels with two outputs", "statement": "If every statement of a kernel alone can be transformed and the element and dof loops are disjoint, so can the kernel.", "quantifier": "all kernels", "why_tests_cant": "Tests use kernels with one output per dof loop.", "anchors": ["meshmode/array_context.py:_transform_with_element_and_dof_inames"]}
{"id": "C167", "title": "In-place operations on DOF arrays", "statement": "x op= y changes every group of x entry by entry and no other array, for arrays with in-place operators; so does x op= number and fill. Operands with another number of groups raise ValueError and change nothing, other operands NotImplementedError. A copy has equal values and shares no array with the original.", "quantifier": "all heaps of arrays, all DOF arrays without repeated groups, all operators; operands may share arrays with x unless an earlier group of x is a later group of the operand", "why_tests_cant": "Tests do not try shared arrays.", "anchors": ["meshmode/dof_array.py:DOFArray._ibop", "meshmode/dof_array.py:DOFArray.fill", "meshmode/dof_array.py:DOFArray.copy"]}
{"id": "C168", "title": "In-place operations in general", "statement": "x op= y leaves x op y in x for every kind of array, either completes or changes nothing, and reads the operand before changing it.", "quantifier": "all arrays and operands", "why_tests_cant": "Tests use OpenCL arrays of distinct groups.", "anchors": ["meshmode/dof_array.py:DOFArray._ibop"]}
{"id": "C169", "title": "Element lookup tree", "statement": "The lookup tree contains every element once, in order, with a box that contains all convex combinations of its corners and lies in the box of the root; the bounds are coordinates of corners moved by eps. A search that returns all entries whose box contains a point finds every straight element containing the point.", "quantifier": "all meshes with vertices, all dimensions, eps >= 0, all ordered rings of coordinates", "why_tests_cant": "Tests look up the nodes of one mesh.", "anchors": ["meshmode/mesh/tools.py:make_element_lookup_tree"]}
{"id": "C170", "title": "Lookup of curved elements", "statement": "The box of an element in the lookup tree contains the nodes of the element.", "quantifier": "all meshes", "why_tests_cant": "Tests use straight elements.", "anchors": ["meshmode/mesh/tools.py:make_element_lookup_tree"]}
{"id": "C171", "title": "Checked connections can be applied", "statement": "A direct connection that passes check_connection, with element lists of equal lengths and interpolation nodes that fit the groups, can be applied to every array on its source and transports values as documented. Face restrictions and same-mesh connections pass the check.", "quantifier": "all connections, arrays, groups and batches", "why_tests_cant": "Tests check a handful of connections.", "anchors": ["meshmode/discretization/connection/__init__.py:check_connection"]}
{"id": "C172", "title": "check_connection is sufficient", "statement": "A connection that passes check_connection can be applied to every array on its source.", "quantifier": "all connections", "why_tests_cant": "Tests check only connections that meshmode made.", "anchors": ["meshmode/discretization/connection/__init__.py:check_connection"]}
{"id": "C173", "title": "Parametrized curves are closed, regular and simple", "statement": "circle, ellipse (aspect ratio not 0), cloverleaf, qbx_peanut, dumbbell and wobbly_dumbbell (gamma > 0, 0 <= beta < 1) and apple (|a| < 1/2) have period 1, a nonzero velocity everywhere and do not meet themselves; drop is closed with nonzero velocity.", "quantifier": "all parameters t and all shape parameters in the given ranges (real numbers)", "why_tests_cant": "Tests sample a few hundred parameters.", "anchors": ["meshmode/mesh/generation.py:circle", "meshmode/mesh/generation.py:ellipse", "meshmode/mesh/generation.py:cloverleaf", "meshmode/mesh/generation.py:qbx_peanut", "meshmode/mesh/generation.py:wobbly_dumbbell", "meshmode/mesh/generation.py:apple", "meshmode/mesh/generation.py:drop"]}
{"id": "C174", "title": "The clamp is parametrized by arc length", "statement": "For r_major > r_minor > 0 and 0 < gap < pi clamp_piecewise is a closed curve whose velocity exists everywhere, agrees at the ends and has constant length, namely the length of the curve; its points lie on the two shells or the two caps. It does not meet itself if the caps fit into the gap.", "quantifier": "all radii, gaps and parameters (real numbers)", "why_tests_cant": "Tests use one set of radii and sampled parameters.", "anchors": ["meshmode/mesh/generation.py:clamp_piecewise"]}
{"id": "C175", "title": "The clamp for all accepted arguments", "statement": "For all arguments that clamp_piecewise accepts the curve is closed and does not meet itself.", "quantifier": "all accepted arguments", "why_tests_cant": "Tests use one set of radii.", "anchors": ["meshmode/mesh/generation.py:clamp_piecewise"]}
{"id": "C176", "title": "The warped square and cube", "statement": "The map of generate_warped_rect_mesh is one-to-one on the square and the cube and has a positive Jacobian determinant, so that elements keep their orientation; the number of points comes from exactly one of the three arguments, and giving two of them raises TypeError.", "quantifier": "all points with coordinates from -1/2 to 1/2, all arguments", "why_tests_cant": "Tests see the nodes of one mesh.", "anchors": ["meshmode/mesh/generation.py:generate_warped_rect_mesh"]}
{"id": "C177", "title": "Mass-matrix quadrature is exact", "statement": "The rule of a group whose weights come from the mass matrix has the interpolation nodes and integrates every combination of basis functions exactly, for every functional for which the basis is orthonormal; different numbers of nodes and functions raise ValueError.", "quantifier": "all bases, unisolvent nodes and functionals over a commutative ring", "why_tests_cant": "Tests integrate a few polynomials of a few degrees.", "anchors": ["meshmode/discretization/poly_element.py:_MassMatrixQuadratureElementGroup.quadrature_rule"]}
{"id": "C178", "title": "Tensor product quadrature", "statement": "For nodes that are a tensor product the rule of a tensor product group has these nodes and integrates combinations of products of functions of one coordinate exactly, for every product functional; nodes that are not close to a tensor product are rejected; unit_nodes_1d are the nodes on the first axis.", "quantifier": "all dimensions, orders, one-dimensional bases and nodes", "why_tests_cant": "Tests use dimensions up to 3 and a few orders.", "anchors": ["meshmode/discretization/poly_element.py:TensorProductElementGroupBase.quadrature_rule", "meshmode/discretization/poly_element.py:TensorProductElementGroupBase.unit_nodes_1d"]}
{"id": "C179", "title": "Recommended element group factories", "statement": "Each of the recommended type-based factories discretizes every mesh of simplices and tensor products: one element group per mesh group, on the same elements and reference cells, of the given order and the promised kind. Other mesh groups raise TypeError. A factory for one class accepts exactly the meshes all of whose groups are instances. Real types other than float32 and float64 raise KeyError.", "quantifier": "all meshes (lists of mesh groups of any class), orders and factories", "why_tests_cant": "Tests build a few meshes with a few factories.", "anchors": ["meshmode/discretization/poly_element.py:HomogeneousOrderBasedGroupFactory", "meshmode/discretization/poly_element.py:TypeMappingGroupFactory", "meshmode/discretization/poly_element.py:InterpolatoryEdgeClusteredGroupFactory", "meshmode/discretization/poly_element.py:InterpolatoryQuadratureGroupFactory", "meshmode/discretization/poly_element.py:QuadratureGroupFactory", "meshmode/discretization/poly_element.py:ModalGroupFactory", "meshmode/discretization/__init__.py:Discretization.__init__"]}
{"id": "C180", "title": "New arrays of a discretization fit it", "statement": "zeros and zeros_like give arrays with one block per group, one row per element and one zero per degree of freedom, with the requested type and context, and ndofs entries in all; zeros_like of a frozen array raises ValueError. quad_weights gives every element the weights of its group's rule and raises ElementGroupTypeError for modal discretizations.", "quantifier": "all discretizations, dtypes and arrays", "why_tests_cant": "Tests use a few discretizations.", "anchors": ["meshmode/discretization/__init__.py:Discretization.zeros", "meshmode/discretization/__init__.py:Discretization.zeros_like", "meshmode/discretization/__init__.py:Discretization.quad_weights", "meshmode/discretization/__init__.py:Discretization.ndofs"]}
{"id": "C181", "title": "Copies of a discretization", "statement": "copy() without arguments gives an equal discretization with the same setup context; each argument replaces exactly what it names; a given context is cloned once. The setup context of a new discretization differs from the given one.", "quantifier": "all discretizations and arguments", "why_tests_cant": "Tests copy a few discretizations.", "anchors": ["meshmode/discretization/__init__.py:Discretization.copy"]}
{"id": "C182", "title": "Recommended factories accept what specific factories accept", "statement": "A mesh group accepted by the factory for its class is accepted by the recommended factories, which use node sets that match on faces.", "quantifier": "all mesh groups", "why_tests_cant": "Tests use the two classes of meshmode only.", "anchors": ["meshmode/discretization/poly_element.py:TypeMappingGroupFactory.__call__", "meshmode/discretization/poly_element.py:default_simplex_group_factory"]}
{"id": "C183", "title": "Wrong entries of a type mapping are reported", "statement": "Calling a TypeMappingGroupFactory whose entry is neither an element group class nor a factory instance raises TypeError.", "quantifier": "all mappings", "why_tests_cant": "Tests use correct mappings.", "anchors": ["meshmode/discretization/poly_element.py:TypeMappingGroupFactory.__call__"]}
{"id": "C184", "title": "Torus and cruller are closed smooth surfaces", "statement": "For 0 < r_minor < r_major the torus, and for 0 < 5/4 r_minor < r_major the cruller, is periodic in both parameters, does not meet itself and has a normal everywhere. All points of the torus have distance r_minor from the circle of radius r_major; those of the cruller have distance 3/4 to 5/4 of r_minor. The same holds for every periodic differentiable radius function with values between 0 and r_major.", "quantifier": "all radii, parameters and radius functions (real numbers)", "why_tests_cant": "Tests evaluate a few meshes at finitely many nodes.", "anchors": ["meshmode/mesh/generation.py:generate_torus", "meshmode/mesh/generation.py:generate_cruller", "meshmode/mesh/generation.py:generate_torus_and_cycle_vertices"]}
{"id": "C185", "title": "Torus and cruller as documented", "statement": "generate_torus and generate_cruller produce the surface of the documented formula, for all positive radii a surface that does not meet itself.", "quantifier": "all positive radii and parameters", "why_tests_cant": "Tests never compare with the documented formula.", "anchors": ["meshmode/mesh/generation.py:generate_torus", "meshmode/mesh/generation.py:generate_cruller"]}
{"id": "C186", "title": "Urchin radii", "statement": "The warp of an urchin keeps the direction of every node of the initial sphere and gives it a radius from min_rad to min_rad + 1; both ends are attained. Points on different rays have different images while the new radii are positive, and only the direction of a point matters.", "quantifier": "all harmonics (functions on space), node sets and min_rad >= 0", "why_tests_cant": "Tests build a few urchins.", "anchors": ["meshmode/mesh/generation.py:refine_mesh_and_get_urchin_warper"]}
{"id": "C187", "title": "min_rad is the least radius of an urchin", "statement": "All nodes of the (refined) urchin have at least the radius min_rad.", "quantifier": "all harmonics and refinements", "why_tests_cant": "Tests do not look at radii.", "anchors": ["meshmode/mesh/generation.py:refine_mesh_and_get_urchin_warper", "meshmode/mesh/generation.py:generate_urchin"]}
{"id": "C188", "title": "Meshes and fields go to the nodal DG codes and back", "statement": "After set_mesh the Octave session holds the vertices, the elements (counted from 1), the order and the numbers of vertices and elements; get_discr then has the vertices, elements and order of the mesh and the nodes of the codes, for simplices in a space of their dimension. pull_dof_array returns what push_dof_array sent; other variables are not changed. Meshes and arrays with several groups raise ValueError.", "quantifier": "all meshes, sessions, fields, startup scripts which keep the mesh", "why_tests_cant": "Tests need Octave and use a few meshes.", "anchors": ["meshmode/interop/nodal_dg.py:NodalDGContext.set_mesh", "meshmode/interop/nodal_dg.py:NodalDGContext.get_discr", "meshmode/interop/nodal_dg.py:NodalDGContext.push_dof_array", "meshmode/interop/nodal_dg.py:NodalDGContext.pull_dof_array"]}
{"id": "C189", "title": "Every mesh accepted by set_mesh comes back from get_discr", "statement": "If set_mesh accepts a mesh then get_discr returns a discretization of it, whatever was sent before and whatever fields are pushed.", "quantifier": "all meshes, sessions and names", "why_tests_cant": "Tests use triangles in the plane.", "anchors": ["meshmode/interop/nodal_dg.py:NodalDGContext.set_mesh", "meshmode/interop/nodal_dg.py:NodalDGContext.get_discr"]}
{"id": "C190", "title": "check_nodal_adj_against_geometry is exact for simplices", "statement": "For meshes of simplices, with exact numbers and a lookup tree which finds every element containing a vertex, the check accepts the nodal adjacency iff it consists of exactly the pairs of different elements one of which contains a vertex of the other. An accepted adjacency is symmetric and irreflexive for every tolerance; the only error is AssertionError.", "quantifier": "all meshes of simplices, adjacencies, lookup trees and tolerances", "why_tests_cant": "Tests use the check on a few refined meshes and never on wrong adjacencies.", "anchors": ["meshmode/mesh/refinement/utils.py:check_nodal_adj_against_geometry", "meshmode/mesh/refinement/utils.py:is_symmetric"]}
{"id": "C191", "title": "check_nodal_adj_against_geometry on other meshes", "statement": "The check accepts the right adjacency for meshes of tensor products and for meshes with several kinds of elements.", "quantifier": "all meshes", "why_tests_cant": "Tests use simplices.", "anchors": ["meshmode/mesh/refinement/utils.py:check_nodal_adj_against_geometry"]}
{"id": "C192", "title": "Validation of fields and functions by Firedrake connections is exact", "statement": "_validate_function accepts exactly the Functions and ExternalOperators of the family, degree and mesh of the connection with the given shape and dtype; _validate_field accepts exactly the thawed DOFArrays, and object arrays of such, whose array for the group of the connection has the shape of the group (and all of whose arrays have the given dtype). Otherwise TypeError or ValueError is raised (AssertionError only for DOFArrays of mixed dtypes).", "quantifier": "all connections, fields, functions, shapes and dtypes", "why_tests_cant": "Tests need Firedrake and try a few invalid arguments.", "anchors": ["meshmode/interop/firedrake/connection.py:FiredrakeConnection._validate_function", "meshmode/interop/firedrake/connection.py:FiredrakeConnection._validate_field"]}
{"id": "C193", "title": "Functions made by from_meshmode belong to the connection", "statement": "from_meshmode without out returns a Function whose space has the family, degree and mesh of the connection and the shape of the field, with the interpolated values of each component and zeros at all other nodes; the function passes the validation of the connection and can be given as out.", "quantifier": "all connections and fields which fit all groups", "why_tests_cant": "Tests need Firedrake and use a few shapes.", "anchors": ["meshmode/interop/firedrake/connection.py:FiredrakeConnection.from_meshmode", "meshmode/interop/firedrake/connection.py:FiredrakeConnection.firedrake_fspace"]}
{"id": "C194", "title": "from_meshmode with one group: all or nothing", "statement": "For discretizations with one group (or with assertions off), from_meshmode either stores all components of the field in out, changing only nodes of the connection, or raises and leaves out unchanged.", "quantifier": "all connections with one group, fields with at least one axis or none at all, functions", "why_tests_cant": "Tests do not look at out after an exception.", "anchors": ["meshmode/interop/firedrake/connection.py:FiredrakeConnection.from_meshmode"]}
{"id": "C195", "title": "from_meshmode in general: all or nothing", "statement": "If from_meshmode raises then out is unchanged, and every field accepted by the validation is stored.", "quantifier": "all connections, fields, functions", "why_tests_cant": "Tests do not look at out after an exception.", "anchors": ["meshmode/interop/firedrake/connection.py:FiredrakeConnection.from_meshmode", "meshmode/interop/firedrake/connection.py:FiredrakeConnection._validate_field"]}
{"id": "C196", "title": "Cells selected by restrict_to_boundary", "statement": "For continuous coordinates of any degree, the cells in use are exactly those with at least one vertex on a facet with the marker, each once, in increasing order; all cells without restrict_to_boundary.", "quantifier": "all meshes, node numberings, markers", "why_tests_cant": "Tests need Firedrake and use a few meshes.", "anchors": ["meshmode/interop/firedrake/connection.py:_get_cells_to_use", "meshmode/interop/firedrake/connection.py:build_connection_from_firedrake"]}
{"id": "C197", "title": "Cells selected by restrict_to_boundary for discontinuous coordinates", "statement": "As documented, the cells in use are those with at least one vertex on a facet with the marker, also on meshes with discontinuous coordinates.", "quantifier": "all meshes", "why_tests_cant": "Tests use continuous coordinates.", "anchors": ["meshmode/interop/firedrake/connection.py:_get_cells_to_use"]}
{"id": "C198", "title": "What build_connection_from_firedrake accepts", "statement": "A connection is made only for function spaces of discontinuous Lagrange elements, for markers as documented, and with interpolatory element groups on the imported mesh.", "quantifier": "all arguments; factories other than classes", "why_tests_cant": "Tests need Firedrake and try a few arguments.", "anchors": ["meshmode/interop/firedrake/connection.py:build_connection_from_firedrake"]}
{"id": "C199", "title": "Factories of interpolatory groups are accepted by build_connection_from_firedrake", "statement": "grp_factory may be any factory of interpolatory element groups, and whatever passes the check makes element groups.", "quantifier": "all factories", "why_tests_cant": "Tests use two factories.", "anchors": ["meshmode/interop/firedrake/connection.py:build_connection_from_firedrake", "meshmode/discretization/poly_element.py:TypeMappingGroupFactory", "meshmode/discretization/poly_element.py:PolynomialGivenNodesGroupFactory"]}
{"id": "C200", "title": "Equality of meshes", "statement": "== of meshes holds exactly if vertices, element groups, vertex_id_dtype, element_id_dtype, stored nodal and facial adjacency and is_conforming are the same (for facial adjacency given by interior, boundary and inter-part groups); it is reflexive, symmetric (also in raising) and transitive; == and != do not raise and are opposite if groups at the same place have maps with the same components.", "quantifier": "all meshes", "why_tests_cant": "Tests compare a few meshes which are equal or differ in one attribute.", "anchors": ["meshmode/mesh/__init__.py:Mesh.__eq__", "meshmode/mesh/__init__.py:MeshElementGroup.__eq__", "meshmode/mesh/__init__.py:NodalAdjacency.__eq__", "meshmode/mesh/__init__.py:InteriorAdjacencyGroup.__eq__", "meshmode/mesh/__init__.py:BoundaryAdjacencyGroup.__eq__", "meshmode/mesh/__init__.py:InterPartAdjacencyGroup.__eq__", "meshmode/mesh/tools.py:optional_array_equal"]}
{"id": "C201", "title": "Comparing meshes always has a truth value; only meshes with the same data are equal", "statement": "== and != of any two meshes return a truth value, and meshes are equal only if all their data are the same, including face_id_dtype and the faces of plain facial adjacency groups.", "quantifier": "all meshes", "why_tests_cant": "Tests do not compare meshes with different gluing or different face_id_dtype.", "anchors": ["meshmode/mesh/__init__.py:Mesh.__eq__", "meshmode/mesh/__init__.py:FacialAdjacencyGroup.__eq__", "meshmode/mesh/tools.py:AffineMap.__eq__"]}
{"id": "C202", "title": "Pictures of meshes in the plane", "statement": "draw_2d_mesh draws, for meshes of segments, triangles and squares: an outline for each element, which is a closed polygon through its vertices and whose sides are its faces (each once); if asked for, a number at the center of each element, all numbers being different, at each vertex its number, for each face its number between the centers of the element and the face, one arrow for each element and neighbor from near the center of the one to near that of the other for all random numbers, and the limits of the bounding box; and nothing else. Meshes of other ambient dimensions, meshes and groups without vertices, and elements that are their own neighbors are rejected.", "quantifier": "all meshes, options and random numbers", "why_tests_cant": "Tests only check that drawing does not raise.", "anchors": ["meshmode/mesh/visualization.py:draw_2d_mesh"]}
{"id": "C203", "title": "Output files, units and warnings of generate_gmsh", "statement": "generate_gmsh saves the output of gmsh at the given path, relative to the current directory, and nothing without one; output_file_name means the same and takes precedence. The first force_ambient_dim coordinates are kept. Without force_ambient_dim there is a warning exactly if a coordinate is zero for all vertices, about the first such coordinate. If all coordinates from there on are zero, following the suggestion of the warning loses nothing and no coordinate that is left is zero for all vertices.", "quantifier": "all paths, current directories, meshes made by gmsh, options", "why_tests_cant": "Tests need gmsh and use a few file names and meshes.", "anchors": ["meshmode/mesh/io.py:generate_gmsh"]}
{"id": "C204", "title": "The suggestion of generate_gmsh's warning can be followed", "statement": "When generate_gmsh warns and suggests a value of force_ambient_dim, following the suggestion keeps different vertices different.", "quantifier": "all meshes made by gmsh", "why_tests_cant": "Tests need gmsh and use meshes in the x-y plane.", "anchors": ["meshmode/mesh/io.py:generate_gmsh"]}
{"id": "C205", "title": "Pictures of fields on one group of simplices", "statement": "For a discretization with one group of triangles and a field with real values, show_scalar_in_matplotlib_3d shows exactly the subelements of all elements: the corners are the nodes of the element, with zeros for missing coordinates, and the value is the mean of the field at the corners. show_scalar_in_mayavi hands over the same triangles, or lines for curves, with the values of the field at all points. Other dimensions raise RuntimeError; matplotlib refuses fields with complex values.", "quantifier": "all numbers of elements, unit nodes and subelements, all coordinates (1 to 3 axes), fields and keyword arguments", "why_tests_cant": "There are no tests of these functions; they open windows, and a wrong picture does not raise.", "anchors": ["meshmode/discretization/visualization.py:Visualizer.show_scalar_in_mayavi", "meshmode/discretization/visualization.py:Visualizer.show_scalar_in_matplotlib_3d"]}
{"id": "C206", "title": "Pictures of fields show all groups", "statement": "A picture of a field on a discretization with several element groups of the same dimension contains the elements of all groups.", "quantifier": "all discretizations with several groups", "why_tests_cant": "There are no tests of these functions.", "anchors": ["meshmode/discretization/visualization.py:Visualizer.show_scalar_in_mayavi", "meshmode/discretization/visualization.py:Visualizer.show_scalar_in_matplotlib_3d"]}
{"id": "C207", "title": "Pictures of fields on quadrilaterals", "statement": "A picture of a field on a surface of quadrilaterals consists of triangles inside of single elements that cover them, or the group is rejected.", "quantifier": "all discretizations with one group of quadrilaterals", "why_tests_cant": "There are no tests of these functions.", "anchors": ["meshmode/discretization/visualization.py:Visualizer.show_scalar_in_mayavi", "meshmode/discretization/visualization.py:Visualizer.show_scalar_in_matplotlib_3d"]}
{"id": "C208", "title": "Keyword arguments of pictures of fields", "statement": "Keyword arguments other than those used by meshmode are passed on to mayavi and matplotlib; do_show, vmin, vmax and norm have the effect their names say.", "quantifier": "all keyword arguments", "why_tests_cant": "There are no tests of these functions, and an ignored option does not raise.", "anchors": ["meshmode/discretization/visualization.py:Visualizer.show_scalar_in_mayavi", "meshmode/discretization/visualization.py:Visualizer.show_scalar_in_matplotlib_3d"]}
{"id": "C209", "title": "Facial restrictions of 3D nodes", "statement": "For orders greater than 0, the unit nodes of PolynomialWarpAndBlend3DRestrictingElementGroup in dim <= 3 dimensions are the 3D warp-and-blend nodes on the face where the further coordinates are -1, in the same order. So the nodes of a face of an element are the nodes of the group of lower dimension. If the 3D nodes are numbered by the exponents of the polynomials of the order, so are the nodes of lower dimension: their number is that of the monomials.", "quantifier": "all orders > 0, dimensions 0 to 3, tolerances and arrays of 3D nodes", "why_tests_cant": "Tests use some orders and interpolate on faces up to a tolerance; they do not show for all orders that the right number of nodes remains.", "anchors": ["meshmode/discretization/poly_element.py:PolynomialWarpAndBlend3DRestrictingElementGroup._interp_nodes"]}
{"id": "C210", "title": "Shape of unit nodes", "statement": "The unit nodes of an element group with as many nodes as basis functions have one row per dimension. Nodes given by the user are used as given, exactly if their shape is right, and raise ValueError otherwise. For order 0, the warp-and-blend groups have one node, in the center of the element.", "quantifier": "all dimensions, orders and arrays of nodes", "why_tests_cant": "Tests use few dimensions and orders and do not pass wrong arrays.", "anchors": ["meshmode/discretization/poly_element.py:PolynomialWarpAndBlendElementGroup._interp_nodes", "meshmode/discretization/poly_element.py:PolynomialWarpAndBlend2DRestrictingElementGroup._interp_nodes", "meshmode/discretization/poly_element.py:PolynomialWarpAndBlend3DRestrictingElementGroup._interp_nodes", "meshmode/discretization/poly_element.py:PolynomialGivenNodesElementGroup._interp_nodes"]}
{"id": "C211", "title": "The 2D restricting group in three dimensions", "statement": "PolynomialWarpAndBlend2DRestrictingElementGroup raises ValueError in three or more dimensions.", "quantifier": "all orders", "why_tests_cant": "No test has an order of 0 in three dimensions.", "anchors": ["meshmode/discretization/poly_element.py:PolynomialWarpAndBlend2DRestrictingElementGroup._interp_nodes"]}
{"id": "C212", "title": "Version numbers", "statement": "meshmode.version parses the version of the installed distribution: VERSION are the numbers separated by dots, VERSION_STATUS what follows.", "quantifier": "all version numbers", "why_tests_cant": "Tests run with one version.", "anchors": ["meshmode/version.py:_parse_version"]}
{"id": "C213", "title": "Meshes of meshpy", "statement": "from_meshpy returns a conforming mesh with the points as vertices and one group with the elements; it is the mesh from_vertices_and_simplices makes of them without a change of orientation. Markers have no effect.", "quantifier": "all points, elements and orders", "why_tests_cant": "Tests that use meshpy look at volumes and convergence only.", "anchors": ["meshmode/mesh/io.py:from_meshpy"]}
{"id": "C214", "title": "Array literals", "statement": "The text as_python writes for an array of finite numbers evaluates to an array with the same entries whose axes are those up to the first one of length zero. It is the array itself exactly if all numbers are finite and no axis but the last one has length zero.", "quantifier": "all arrays", "why_tests_cant": "Tests write out few meshes, none of which has an array with a zero axis or a NaN.", "anchors": ["meshmode/mesh/__init__.py:_numpy_array_as_python"]}
{"id": "C215", "title": "make_group", "statement": "make_group makes a group of exactly its arguments if the unit nodes have the given number of rows and as many columns as the space has dimensions, and raises ValueError otherwise; without unit nodes it uses the edge-clustered nodes, and the dimension must be given.", "quantifier": "all classes, orders, arrays and dimensions", "why_tests_cant": "Tests use few orders and never pass wrong unit nodes.", "anchors": ["meshmode/mesh/__init__.py:ModepyElementGroup.make_group"]}
{"id": "C216", "title": "Data passed on by the snippet of as_python", "statement": "For meshes of the class Mesh with finite coordinates, of at least one dimension, with elements in every group and with boundary tags BTAG_NONE, BTAG_ALL or BTAG_REALLY_ALL, the snippet of as_python passes arrays, maps, adjacency and groups to make_mesh that are equal to those of the mesh; only face_id_dtype is the default one.", "quantifier": "all meshes with these properties", "why_tests_cant": "Tests compare few meshes.", "anchors": ["meshmode/mesh/__init__.py:as_python", "meshmode/mesh/__init__.py:InteriorAdjacencyGroup.as_python", "meshmode/mesh/__init__.py:BoundaryAdjacencyGroup.as_python", "meshmode/mesh/__init__.py:InterPartAdjacencyGroup.as_python"]}
{"id": "C217", "title": "as_python of every mesh", "statement": "The snippet of as_python recreates every mesh with boundary tags it imports.", "quantifier": "all meshes", "why_tests_cant": "Tests have no meshes with groups without elements, or of points.", "anchors": ["meshmode/mesh/__init__.py:as_python", "meshmode/mesh/__init__.py:_numpy_array_as_python", "meshmode/mesh/__init__.py:FacialAdjacencyGroup.as_python"]}
{"id": "C218", "title": "Boundary tags as keys", "statement": "Two BTAG_PARTITION objects, tag classes or strings that compare equal have equal hashes, so a dictionary keyed by tags returns what was stored last under an equal tag and nothing else. (Does not hold for classes derived from BTAG_PARTITION, which compare equal to BTAG_PARTITION objects but hash differently.)", "quantifier": "all tags and dictionaries, all hash functions of classes, strings and pairs", "why_tests_cant": "Consistency of __eq__ and __hash__ is a law over all pairs of tags.", "anchors": ["meshmode/mesh/__init__.py:140-166"]}
{"id": "C219", "title": "Node numbers", "statement": "base_node_nrs gives each group the number of its first node, and every number below the number of nodes of the mesh is base + element * nunit_nodes + node for exactly one (group, element, node). The array has as many entries as there are groups. (The last sentence does not hold for meshes without groups.)", "quantifier": "all lists of groups with all numbers of elements and unit nodes, including zero", "why_tests_cant": "A bijection over unbounded lists of groups.", "anchors": ["meshmode/mesh/__init__.py:275-280", "meshmode/mesh/__init__.py:1381-1387"]}
{"id": "C220", "title": "Pictures of curves", "statement": "draw_curve draws a marker at every vertex and per element one line through its nodes in order, for curves in the plane, and says so (ValueError) for everything else. (The version for discretizations does not check: it draws curves in space and surfaces.)", "quantifier": "all meshes with all nodes, coordinates of any type", "why_tests_cant": "The tests cannot look at pictures.", "anchors": ["meshmode/mesh/visualization.py:178-209", "meshmode/discretization/visualization.py:1426-1446"]}
{"id": "C221", "title": "Unit nodes of FInAT elements", "statement": "get_finat_element_unit_nodes returns an array of shape (dim, number of nodes) whose column j is the point of the j-th functional of the dual basis; elements of other classes and on other cells raise TypeError.", "quantifier": "all elements with at least one node, all point evaluators", "why_tests_cant": "Tests use a few elements only.", "anchors": ["meshmode/interop/firedrake/reference_cell.py:122-166"]}
{"id": "C222", "title": "vtk_visualize_mesh", "statement": "vtk_visualize_mesh uses edge-clustered nodes of the highest order of all groups and writes a file without error if the factories accept the groups: for high-order cells at equidistant nodes of that order, unless modepy's keys say the nodes are the same; otherwise at the nodes themselves.", "quantifier": "all meshes, orders and factories", "why_tests_cant": "Tests do not check the nodes written.", "anchors": ["meshmode/mesh/visualization.py:349-370"]}
{"id": "C223", "title": "Merging in steps", "statement": "Merging the results of merge_disjoint_meshes on two lists of meshes gives the mesh obtained by merging all meshes at once (same groups, vertices, conformity and availability of adjacency, single_group=False); merging a single mesh keeps its groups and vertices.", "quantifier": "all nonempty lists of meshes with vertices and of equal ambient dimension", "why_tests_cant": "An associativity law over all lists of meshes.", "anchors": ["meshmode/mesh/processing.py:874-963"]}
{"id": "C224", "title": "remove_unused_vertices twice", "statement": "After remove_unused_vertices every vertex belongs to an element, and removing again changes neither groups nor vertices, conformity or adjacency; a mesh all of whose vertices are used is left as it is.", "quantifier": "all meshes with at least one group, vertices and vertex indices in range", "why_tests_cant": "Idempotence over all meshes.", "anchors": ["meshmode/mesh/processing.py:1565-1591"]}
{"id": "C225", "title": "map_mesh and composition", "statement": "map_mesh with f and then with g gives the mesh that map_mesh gives with the composed function, and map_mesh with a function that changes no point returns an equal mesh.", "quantifier": "all meshes without nontrivial affine maps, all pointwise functions", "why_tests_cant": "A law over all functions.", "anchors": ["meshmode/mesh/processing.py:1322-1364"]}
{"id": "C226", "title": "Splitting by a constant flag", "statement": "split_mesh_groups with the same flag for all elements keeps groups and vertices, and the dictionary maps (i, flag) to i. (Does not hold for meshes that have groups without elements: these disappear and the later groups get other numbers.)", "quantifier": "all meshes and flags", "why_tests_cant": "A law over all meshes, including groups without elements that tests do not have.", "anchors": ["meshmode/mesh/processing.py:970-1026"]}
{"id": "C227", "title": "affine_map and composition", "statement": "Applying affine_map twice gives the nodes and vertices of affine_map with the product of the matrices and the offset A2 b1 + b2; applying the inverse map restores nodes and vertices.", "quantifier": "all meshes, matrices and vectors over every commutative ring", "why_tests_cant": "An identity over all matrices.", "anchors": ["meshmode/mesh/processing.py:1372-1468"]}
{"id": "C228", "title": "Refining no element", "statement": "refine with all flags false gives a mesh with the same groups, vertices and conformity, adds no midpoint, and records that every element is its only child.", "quantifier": "all meshes with vertices, all tessellations", "why_tests_cant": "A law over all meshes and histories of the refiner.", "anchors": ["meshmode/mesh/refinement/no_adjacency.py:84-259"]}
{"id": "C229", "title": "refine_uniformly in steps", "statement": "refine_uniformly with a + b iterations returns the mesh that refine_uniformly with b iterations returns for the result of a iterations, and it succeeds for every number of iterations (with adjacency if the mesh is conforming).", "quantifier": "all meshes with vertices, all numbers of iterations, all tessellations whose children have at most one old corner on each edge", "why_tests_cant": "The second call starts with an empty table of midpoints; equality for all meshes and numbers of iterations.", "anchors": ["meshmode/mesh/refinement/__init__.py:51-68", "meshmode/mesh/refinement/no_adjacency.py:84-259"]}
{"id": "C230", "title": "Going on with a new refiner", "statement": "Refining some elements and then others gives the same mesh whether the second step uses the same RefinerWithoutAdjacency or a new one for the current mesh.", "quantifier": "all meshes and flags", "why_tests_cant": "Tests do not refine a partially refined mesh with a new refiner.", "anchors": ["meshmode/mesh/refinement/no_adjacency.py:49-272"]}
{"id": "C231", "title": "Partitioning into one part", "statement": "partition_mesh with all elements in one part returns one mesh with the same groups, vertices, conformity and facial adjacency.", "quantifier": "all meshes all of whose vertices belong to elements, with boundary groups after interior groups and no empty interior groups as meshmode makes them; all contents of uninitialised arrays", "why_tests_cant": "Elements, vertices and faces are renumbered and sorted; equality for all meshes and array contents.", "anchors": ["meshmode/mesh/processing.py:99-569"]}
{"id": "C232", "title": "Partitioning a part again", "statement": "Partitioning a part of a mesh again keeps its adjacency to the other parts.", "quantifier": "all meshes and partitions", "why_tests_cant": "Tests only partition whole meshes.", "anchors": ["meshmode/mesh/processing.py:407-462"]}
{"id": "C233", "title": "Merging the parts of a mesh", "statement": "merge_disjoint_meshes of all parts returned by partition_mesh has the same elements as the mesh (same nodes, same positions of vertices, as multisets), ordered by part and number within the part.", "quantifier": "all meshes with vertices, all valid partitions, all contents of uninitialised arrays", "why_tests_cant": "Two functions renumber elements and vertices independently; a statement on multisets of elements for all partitions.", "anchors": ["meshmode/mesh/processing.py:549-569", "meshmode/mesh/processing.py:874-963"]}
{"id": "C234", "title": "What the parts of a mesh depend on", "statement": "The parts returned by partition_mesh depend neither on the contents of uninitialised arrays nor on return_parts: a part is the same whichever other parts are returned.", "quantifier": "all meshes, valid partitions, sets of returned parts and contents of uninitialised memory", "why_tests_cant": "Tests see one content of np.empty; distributed runs call it with one returned part on each rank.", "anchors": ["meshmode/mesh/processing.py:101-128", "meshmode/mesh/processing.py:549-569"]}
{"id": "C235", "title": "Partitioning and mapping commute", "statement": "Partitioning a mapped mesh (map_mesh) gives the mapped parts, with the same numbering and adjacency.", "quantifier": "all meshes, partitions and functions of points", "why_tests_cant": "Equality of two compositions for all meshes and functions.", "anchors": ["meshmode/mesh/processing.py:549-569", "meshmode/mesh/processing.py:1322-1369"]}
{"id": "C236", "title": "Merging and mapping commute", "statement": "Merging mapped meshes (map_mesh, merge_disjoint_meshes with or without single_group) gives the merged mesh, mapped: same groups, vertex numbers, nodes and vertices. The merged mesh can be mapped if and only if its facial adjacency is not set; it is not set if none of the meshes has had its facial adjacency computed and all are conforming.", "quantifier": "all lists of meshes and all functions of points", "why_tests_cant": "Equality of two compositions for all meshes and functions, including the errors raised.", "anchors": ["meshmode/mesh/processing.py:874-963", "meshmode/mesh/processing.py:1322-1365"]}
{"id": "C237", "title": "Removing vertices and splitting commute with mapping", "statement": "remove_unused_vertices and split_mesh_groups of a mapped mesh give the mapped result, with the same numbering, the same dictionary and the same errors; for map_mesh itself, removing unused vertices and mapping can be done in either order.", "quantifier": "all meshes, flags and functions of points", "why_tests_cant": "Equality of two compositions for all meshes and functions, including the errors raised.", "anchors": ["meshmode/mesh/processing.py:970-1026", "meshmode/mesh/processing.py:1565-1591", "meshmode/mesh/processing.py:1322-1365"]}
{"id": "C238", "title": "Queries do not depend on positions", "statement": "Any sequence of queries (nodal and facial adjacency, boundary tags, coverage of the boundary) has the same answers for a mesh and for the mesh with nodes and vertices mapped, errors included; querying before map_mesh or after it gives the same answers and the same mesh, with the same cached data.", "quantifier": "all meshes, functions of points and sequences of queries", "why_tests_cant": "Equality of two compositions for all meshes, functions and orders of lazily evaluated queries.", "anchors": ["meshmode/mesh/__init__.py:1399-1493", "meshmode/mesh/__init__.py:1613-1654", "meshmode/mesh/__init__.py:1762-1901", "meshmode/mesh/processing.py:1322-1365"]}
