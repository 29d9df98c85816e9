{
 "claims": [
  {
   "property": "C01",
   "status": "proved",
   "theorems": [
    "C01_find_group_indices",
    "C01_base_element_nrs"
   ],
   "note": ""
  },
  {
   "property": "C02",
   "status": "proved",
   "theorems": [
    "C02_nodal_adjacency"
   ],
   "note": "set iteration order is an arbitrary permutation"
  },
  {
   "property": "C03",
   "status": "proved",
   "theorems": [
    "C03_match_faces",
    "C03_match_faces_exact"
   ],
   "note": ""
  },
  {
   "property": "C04",
   "status": "proved",
   "theorems": [
    "C04_facial_adjacency",
    "C04_untagged_boundary"
   ],
   "note": ""
  },
  {
   "property": "C05",
   "status": "proved",
   "theorems": [
    "C05_completion"
   ],
   "note": ""
  },
  {
   "property": "C06",
   "status": "proved",
   "theorems": [
    "C06_boundary_tags"
   ],
   "note": "tag maps whose keys are pairwise different sets and which do not use the system tags"
  },
  {
   "property": "C07",
   "status": "proved",
   "theorems": [
    "C07_check_bc_coverage"
   ],
   "note": ""
  },
  {
   "property": "C08",
   "status": "proved",
   "theorems": [
    "C08_is_boundary_tag_empty"
   ],
   "note": ""
  },
  {
   "property": "C09",
   "status": "proved",
   "theorems": [
    "C09_history_independent",
    "C09_make_mesh_answers"
   ],
   "note": ""
  },
  {
   "property": "C10",
   "status": "proved",
   "theorems": [
    "C10_partition_geometry"
   ],
   "note": ""
  },
  {
   "property": "C100",
   "status": "proved",
   "theorems": [
    "C100_history_independent"
   ],
   "note": "Node sets, bases and weights are functions of class, dimension, order and family of the group."
  },
  {
   "property": "C101",
   "status": "proved",
   "theorems": [
    "C101_order",
    "C101_derivative",
    "C101_rejected"
   ],
   "note": "ref_axes is a sequence (for an iterator the test for emptiness is never true). Matrices are those of modepy."
  },
  {
   "property": "C102",
   "status": "proved",
   "theorems": [
    "C102_nodal_modal_nodal",
    "C102_modal_nodal_modal"
   ],
   "note": "numpy.linalg.inv is assumed to return the inverse of the Vandermonde matrix."
  },
  {
   "property": "C103",
   "status": "proved",
   "theorems": [
    "C103_quadrature",
    "C103_exact_only",
    "C103_given",
    "C103_given_nodes"
   ],
   "note": "The modal basis is orthonormal, as modepy documents."
  },
  {
   "property": "C104",
   "status": "proved",
   "theorems": [
    "C104_fits_refuted",
    "C104_made"
   ],
   "note": "Refuted (F38): the basis of the nodal group is used, orders are not compared."
  },
  {
   "property": "C105",
   "status": "proved",
   "theorems": [
    "C105_projection",
    "C105_exists"
   ],
   "note": "Every target element has one source; the group has the same kind on both sides; batches of group i have from_group_index i (see C106)."
  },
  {
   "property": "C106",
   "status": "proved",
   "theorems": [
    "C106_regrouped_refuted",
    "C106_identities_refuted"
   ],
   "note": "Refuted (F39, F40)."
  },
  {
   "property": "C107",
   "status": "proved",
   "theorems": [
    "C107_calls",
    "C107_geometry"
   ],
   "note": "Nodes closer than the tolerance are taken to be equal; the nodes of mesh groups are unisolvent."
  },
  {
   "property": "C108",
   "status": "proved",
   "theorems": [
    "C108_check_decides_consistency"
   ],
   "note": "Exact arithmetic; resampling matrices and spanning vertices of modepy are arguments."
  },
  {
   "property": "C109",
   "status": "proved",
   "theorems": [
    "C109_boolean_version",
    "C109_no_vertices_refuted",
    "C109_checked"
   ],
   "note": "Proved for meshes as in C108; refuted for volume meshes without vertices (F41)."
  },
  {
   "property": "C11",
   "status": "proved",
   "theorems": [
    "C11_rejects_invalid",
    "C11_out_of_range"
   ],
   "note": "Repetition inside one part is not rejected: see C52."
  },
  {
   "property": "C110",
   "status": "proved",
   "theorems": [
    "C110_contents_ignored",
    "C110_contents_refuted",
    "C110_shapes_refuted"
   ],
   "note": "Refuted (F42); the result does not depend on any entry of the arrays."
  },
  {
   "property": "C111",
   "status": "proved",
   "theorems": [
    "C111_nan_refuted",
    "C111_orientation_numbers"
   ],
   "note": "Refuted (F43)."
  },
  {
   "property": "C112",
   "status": "proved",
   "theorems": [
    "C112_forced_meshes_pass",
    "C112_dtype_refuted",
    "C112_flags_refuted"
   ],
   "note": "First part proved for default dtypes and options; second part refuted (F44)."
  },
  {
   "property": "C113",
   "status": "proved",
   "theorems": [
    "C113_affine_elements_pass",
    "C113_zero_tolerance",
    "C113_zero_tolerance_refuted"
   ],
   "note": "Proved for positive tolerances; with tolerance 0 everything is rejected (F45)."
  },
  {
   "property": "C114",
   "status": "proved",
   "theorems": [
    "C114_is_affine_criterion",
    "C114_affine_elements",
    "C114_small_elements_refuted",
    "C114_points_refuted",
    "C114_other_groups"
   ],
   "note": "Criterion and straight elements proved; small curved elements count as straight, points raise ValueError (F46)."
  },
  {
   "property": "C115",
   "status": "proved",
   "theorems": [
    "C115_affine_images"
   ],
   "note": "Facial and nodal adjacency not yet computed (with adjacency see C20). Reflections cannot be applied (F47)."
  },
  {
   "property": "C116",
   "status": "proved",
   "theorems": [
    "C116_imported_elements"
   ],
   "note": "Vertex coordinates for continuous coordinate fields."
  },
  {
   "property": "C117",
   "status": "proved",
   "theorems": [
    "C117_positive_orientation",
    "C117_surface_orientation",
    "C117_curve_orientation"
   ],
   "note": ""
  },
  {
   "property": "C118",
   "status": "proved",
   "theorems": [
    "C118_nodal_multiplicity"
   ],
   "note": ""
  },
  {
   "property": "C119",
   "status": "proved",
   "theorems": [
    "C119_refuted",
    "C119_neighbors_repeated"
   ],
   "note": "Refuted (F48): false for every two elements with two common vertices."
  },
  {
   "property": "C12",
   "status": "proved",
   "theorems": [
    "C12_partition_adjacency"
   ],
   "note": ""
  },
  {
   "property": "C120",
   "status": "proved",
   "theorems": [
    "C120_boundary"
   ],
   "note": ""
  },
  {
   "property": "C121",
   "status": "proved",
   "theorems": [
    "C121_sides_of_interior_facets",
    "C121_single_facet",
    "C121_interior_adjacency_refuted",
    "C121_wrong_neighbors"
   ],
   "note": "The faces are right; neighbors are right if there is one interior facet, and wrong for every mesh with two or more (F49)."
  },
  {
   "property": "C122",
   "status": "proved",
   "theorems": [
    "C122_induced_boundary_refuted"
   ],
   "note": "Refuted (F49), in both directions."
  },
  {
   "property": "C123",
   "status": "proved",
   "theorems": [
    "C123_import_succeeds_iff",
    "C123_always_succeeds_refuted"
   ],
   "note": "Exact condition proved; refuted for meshes without interior facet, curves in the plane, and some subsets (F50)."
  },
  {
   "property": "C124",
   "status": "proved",
   "theorems": [
    "C124_unchanged",
    "C124_second_import",
    "C124_mesh_unchanged_refuted"
   ],
   "note": "Unchanged for volume meshes and with cells_to_use; on surfaces cell_orientations is overwritten (F51), but importing again gives the same mesh."
  },
  {
   "property": "C125",
   "status": "proved",
   "theorems": [
    "C125_exported_permutations"
   ],
   "note": ""
  },
  {
   "property": "C126",
   "status": "proved",
   "theorems": [
    "C126_elements_partitioned"
   ],
   "note": ""
  },
  {
   "property": "C127",
   "status": "proved",
   "theorems": [
    "C127_documented_direction_refuted",
    "C127_documented_iff"
   ],
   "note": "Refuted (F52): true exactly for permutations that are their own inverse."
  },
  {
   "property": "C128",
   "status": "proved",
   "theorems": [
    "C128_exported_coordinates"
   ],
   "note": ""
  },
  {
   "property": "C129",
   "status": "proved",
   "theorems": [
    "C129_node_mapping_to"
   ],
   "note": ""
  },
  {
   "property": "C13",
   "status": "proved",
   "theorems": [
    "C13_inter_part_mutual"
   ],
   "note": "R relates the affine map of an entry with that of the mirrored entry; instantiate with equality or inverse."
  },
  {
   "property": "C130",
   "status": "proved",
   "theorems": [
    "C130_node_mapping_from"
   ],
   "note": ""
  },
  {
   "property": "C131",
   "status": "proved",
   "theorems": [
    "C131_field_round_trip",
    "C131_function_round_trip",
    "C131_into_function"
   ],
   "note": ""
  },
  {
   "property": "C132",
   "status": "proved",
   "theorems": [
    "C132_group_nr_error",
    "C132_out_object_array",
    "C132_imported_not_exported"
   ],
   "note": "Refuted (F53, F54): group numbers that are too large raise IndexError; from_firedrake with an object array as out always raises; an imported mesh can never be exported."
  },
  {
   "property": "C133",
   "status": "proved",
   "theorems": [
    "C133_reference_vertices",
    "C133_reference_inverse"
   ],
   "note": ""
  },
  {
   "property": "C134",
   "status": "proved",
   "theorems": [
    "C134_simplices"
   ],
   "note": ""
  },
  {
   "property": "C135",
   "status": "proved",
   "theorems": [
    "C135_tensor_product",
    "C135_errors"
   ],
   "note": ""
  },
  {
   "property": "C136",
   "status": "proved",
   "theorems": [
    "C136_icosahedron"
   ],
   "note": "Examples over the real numbers in GenExamples.v."
  },
  {
   "property": "C137",
   "status": "proved",
   "theorems": [
    "C137_sphere_simplices",
    "C137_sphere_cubes",
    "C137_other_classes"
   ],
   "note": ""
  },
  {
   "property": "C138",
   "status": "proved",
   "theorems": [
    "C138_n_gon_refuted"
   ],
   "note": "Refuted (F55): it raises for every n from 1 and all t."
  },
  {
   "property": "C139",
   "status": "proved",
   "theorems": [
    "C139_wobbly_circle",
    "C139_random",
    "C139_starfish",
    "C139_no_arms"
   ],
   "note": ""
  },
  {
   "property": "C14",
   "status": "proved",
   "theorems": [
    "C14_partition_boundaries"
   ],
   "note": "Includes: partition tags of a part contain exactly the tag faces of the mesh plus its inter-part faces."
  },
  {
   "property": "C140",
   "status": "proved",
   "theorems": [
    "C140_annular_slice"
   ],
   "note": ""
  },
  {
   "property": "C141",
   "status": "proved",
   "theorems": [
    "C141_warped_mesh_resolved",
    "C141_zero_axis",
    "C141_flat_refuted"
   ],
   "note": "Proved for elements on which no coordinate has zero norm; refuted otherwise (F56)."
  },
  {
   "property": "C142",
   "status": "proved",
   "theorems": [
    "C142_fix_orientation",
    "C142_codimension"
   ],
   "note": ""
  },
  {
   "property": "C143",
   "status": "proved",
   "theorems": [
    "C143_to_json",
    "C143_defined",
    "C143_faithful",
    "C143_unchanged_refuted"
   ],
   "note": "The last sentence is refuted (F58): the nodal adjacency is computed and stored."
  },
  {
   "property": "C144",
   "status": "proved",
   "theorems": [
    "C144_unrefined",
    "C144_refined_refuted",
    "C144_constant_refuted"
   ],
   "note": "True for the nodes of the unrefined sphere; refuted for others and for constant harmonics (F57)."
  },
  {
   "property": "C145",
   "status": "proved",
   "theorems": [
    "C145_point_data"
   ],
   "note": ""
  },
  {
   "property": "C146",
   "status": "proved",
   "theorems": [
    "C146_all_real",
    "C146_all_real_refuted"
   ],
   "note": "Holds for the fields of C145; refuted (F59) for vectors whose first component is real and another one complex."
  },
  {
   "property": "C147",
   "status": "proved",
   "theorems": [
    "C147_names",
    "C147_names_refuted"
   ],
   "note": "Holds if names (with attributes) are distinct and none is another one with _r or _i; refuted otherwise (F60)."
  },
  {
   "property": "C148",
   "status": "proved",
   "theorems": [
    "C148_xdmf_fields"
   ],
   "note": ""
  },
  {
   "property": "C149",
   "status": "proved",
   "theorems": [
    "C149_no_overwrite",
    "C149_overwrite_refuted"
   ],
   "note": "Holds for VTK files (serial, parallel, vertices, adjacency) and STL; refuted (F61) for write_vtkhdf_file and write_xdmf_file, which ignore overwrite."
  },
  {
   "property": "C15",
   "status": "proved",
   "theorems": [
    "C15_really_all_of_part_refuted"
   ],
   "note": "The property is false of the code; the theorem is the refutation (finding F4 in DESIGN.md)."
  },
  {
   "property": "C150",
   "status": "proved",
   "theorems": [
    "C150_both_or_neither",
    "C150_both_or_neither_refuted"
   ],
   "note": "Holds if the name of a manifest is given; refuted (F62) for par_file_names without par_manifest_filename."
  },
  {
   "property": "C151",
   "status": "proved",
   "theorems": [
    "C151_parallel_files",
    "C151_default_manifest"
   ],
   "note": ""
  },
  {
   "property": "C152",
   "status": "proved",
   "theorems": [
    "C152_hdf_ranks",
    "C152_hdf_fields",
    "C152_empty_rank_refuted"
   ],
   "note": "Refuted (F63) for ranks without elements."
  },
  {
   "property": "C153",
   "status": "proved",
   "theorems": [
    "C153_options_kept",
    "C153_options_given",
    "C153_options_refuted"
   ],
   "note": "Holds without communicator, refuted with one (F64); the options h5py gets are determined in both cases."
  },
  {
   "property": "C154",
   "status": "proved",
   "theorems": [
    "C154_make_visualizer",
    "C154_connectivity",
    "C154_copy",
    "C154_copy_refuted"
   ],
   "note": "Copies of visualizers made without further arguments raise AssertionError, as does element_shrink_factor alone (F65)."
  },
  {
   "property": "C155",
   "status": "proved",
   "theorems": [
    "C155_vertex_vtk",
    "C155_stl"
   ],
   "note": ""
  },
  {
   "property": "C156",
   "status": "proved",
   "theorems": [
    "C156_tikz",
    "C156_quadrilateral_refuted"
   ],
   "note": "Edges hold for lines and triangles; refuted (F66) for quadrilaterals."
  },
  {
   "property": "C157",
   "status": "proved",
   "theorems": [
    "C157_points",
    "C157_lines"
   ],
   "note": ""
  },
  {
   "property": "C158",
   "status": "proved",
   "theorems": [
    "C158_tensor_flip",
    "C158_tensor_orientation",
    "C158_flip_repairs",
    "C158_forced_orientation_refuted"
   ],
   "note": "The last part holds if the Jacobian has the same sign at the first two corners; refuted otherwise (F67)."
  },
  {
   "property": "C159",
   "status": "proved",
   "theorems": [
    "C159_child_nodes",
    "C159_midpoints"
   ],
   "note": ""
  },
  {
   "property": "C16",
   "status": "proved",
   "theorems": [
    "C16_merge_is_disjoint_union",
    "C16_merged_meshes_share_no_vertex",
    "C16_merged_adjacency"
   ],
   "note": "both settings of single_group; same type/order/unit nodes is an abstract predicate"
  },
  {
   "property": "C160",
   "status": "proved",
   "theorems": [
    "C160_curved_refinement"
   ],
   "note": ""
  },
  {
   "property": "C161",
   "status": "proved",
   "theorems": [
    "C161_shared_midpoint_refuted"
   ],
   "note": "Refuted (F68): two elements."
  },
  {
   "property": "C162",
   "status": "proved",
   "theorems": [
    "C162_found",
    "C162_iterations",
    "C162_straight_faces"
   ],
   "note": ""
  },
  {
   "property": "C163",
   "status": "proved",
   "theorems": [
    "C163_near_target_refuted"
   ],
   "note": "Refuted (F69): the residual that is tested is that before the last step."
  },
  {
   "property": "C164",
   "status": "proved",
   "theorems": [
    "C164_transformed_loops",
    "C164_options"
   ],
   "note": ""
  },
  {
   "property": "C165",
   "status": "proved",
   "theorems": [
    "C165_statement_order",
    "C165_kernel_tag"
   ],
   "note": ""
  },
  {
   "property": "C166",
   "status": "proved",
   "theorems": [
    "C166_two_outputs_refuted"
   ],
   "note": "Refuted (F70): a dof loop shared by two outputs is split twice."
  },
  {
   "property": "C167",
   "status": "proved",
   "theorems": [
    "C167_inplace",
    "C167_inplace_number",
    "C167_fill",
    "C167_errors",
    "C167_copy"
   ],
   "note": ""
  },
  {
   "property": "C168",
   "status": "proved",
   "theorems": [
    "C168_inplace_refuted"
   ],
   "note": "Refuted in all three parts (F71)."
  },
  {
   "property": "C169",
   "status": "proved",
   "theorems": [
    "C169_lookup_tree",
    "C169_search_complete"
   ],
   "note": ""
  },
  {
   "property": "C17",
   "status": "proved",
   "theorems": [
    "C17_split_mesh_groups"
   ],
   "note": ""
  },
  {
   "property": "C170",
   "status": "proved",
   "theorems": [
    "C170_curved_elements_refuted"
   ],
   "note": "Refuted (F72): the boxes are those of the corners."
  },
  {
   "property": "C171",
   "status": "proved",
   "theorems": [
    "C171_checked",
    "C171_restriction",
    "C171_same_mesh"
   ],
   "note": ""
  },
  {
   "property": "C172",
   "status": "proved",
   "theorems": [
    "C172_unequal_lists_refuted"
   ],
   "note": "Refuted (F73): the lengths of the two element lists of a batch are not compared."
  },
  {
   "property": "C173",
   "status": "proved",
   "theorems": [
    "C173_ellipse",
    "C173_circle",
    "C173_cloverleaf",
    "C173_apple",
    "C173_peanut",
    "C173_wobbly_dumbbell",
    "C173_dumbbell",
    "C173_drop"
   ],
   "note": "Real numbers of the standard library (axioms listed in DESIGN.md)."
  },
  {
   "property": "C174",
   "status": "proved",
   "theorems": [
    "C174_clamp"
   ],
   "note": "Real numbers of the standard library (axioms listed in DESIGN.md)."
  },
  {
   "property": "C175",
   "status": "proved",
   "theorems": [
    "C175_clamp_closed_refuted",
    "C175_clamp_touches_refuted"
   ],
   "note": "Refuted (F74)."
  },
  {
   "property": "C176",
   "status": "proved",
   "theorems": [
    "C176_injective",
    "C176_orientation",
    "C176_third",
    "C176_arguments"
   ],
   "note": "Real numbers of the standard library (axioms listed in DESIGN.md)."
  },
  {
   "property": "C177",
   "status": "proved",
   "theorems": [
    "C177_mass_rule",
    "C177_count"
   ],
   "note": ""
  },
  {
   "property": "C178",
   "status": "proved",
   "theorems": [
    "C178_tensor_rule",
    "C178_unit_nodes_1d",
    "C178_other_nodes"
   ],
   "note": ""
  },
  {
   "property": "C179",
   "status": "proved",
   "theorems": [
    "C179_recommended",
    "C179_unsupported",
    "C179_homogeneous",
    "C179_specific",
    "C179_agree",
    "C179_dtype"
   ],
   "note": ""
  },
  {
   "property": "C18",
   "status": "proved",
   "theorems": [
    "C18_flip_element_group",
    "C18_perform_flips",
    "C18_simplex_permutation"
   ],
   "note": "the flip matrix comes from modepy and is an argument; involution uses M M = I, which the code asserts up to 1e-13"
  },
  {
   "property": "C180",
   "status": "proved",
   "theorems": [
    "C180_zeros",
    "C180_counts",
    "C180_recommended",
    "C180_zeros_like",
    "C180_weights",
    "C180_kinds"
   ],
   "note": ""
  },
  {
   "property": "C181",
   "status": "proved",
   "theorems": [
    "C181_same",
    "C181_replace",
    "C181_setup_context"
   ],
   "note": ""
  },
  {
   "property": "C182",
   "status": "proved",
   "theorems": [
    "C182_derived_refuted",
    "C182_faces_refuted"
   ],
   "note": "Refuted (F75, F76)."
  },
  {
   "property": "C183",
   "status": "proved",
   "theorems": [
    "C183_factory_class_refuted",
    "C183_unnamed_refuted"
   ],
   "note": "Refuted (F77)."
  },
  {
   "property": "C184",
   "status": "proved",
   "theorems": [
    "C184_model",
    "C184_modulated",
    "C184_torus",
    "C184_cruller"
   ],
   "note": ""
  },
  {
   "property": "C185",
   "status": "proved",
   "theorems": [
    "C185_documented_refuted",
    "C185_equal_radii_refuted"
   ],
   "note": "Refuted (F78)."
  },
  {
   "property": "C186",
   "status": "proved",
   "theorems": [
    "C186_range",
    "C186_vertices",
    "C186_rays",
    "C186_directions",
    "C186_empty"
   ],
   "note": ""
  },
  {
   "property": "C187",
   "status": "proved",
   "theorems": [
    "C187_min_rad_refuted"
   ],
   "note": "Refuted (F79)."
  },
  {
   "property": "C188",
   "status": "proved",
   "theorems": [
    "C188_sent",
    "C188_mesh",
    "C188_fields",
    "C188_errors"
   ],
   "note": ""
  },
  {
   "property": "C189",
   "status": "proved",
   "theorems": [
    "C189_surface_refuted",
    "C189_cubes_refuted",
    "C189_names_refuted"
   ],
   "note": "Refuted (F80)."
  },
  {
   "property": "C19",
   "status": "proved",
   "theorems": [
    "C19_inverted_is_inverse",
    "C19_inverted_exists",
    "C19_trivial_map_is_identity"
   ],
   "note": ""
  },
  {
   "property": "C190",
   "status": "proved",
   "theorems": [
    "C190_outcome",
    "C190_geometry",
    "C190_symmetric"
   ],
   "note": ""
  },
  {
   "property": "C191",
   "status": "proved",
   "theorems": [
    "C191_quads_refuted",
    "C191_mixed_refuted"
   ],
   "note": "Refuted (F81)."
  },
  {
   "property": "C192",
   "status": "proved",
   "theorems": [
    "C192_function",
    "C192_field",
    "C192_function_errors",
    "C192_field_errors",
    "C192_fspace"
   ],
   "note": ""
  },
  {
   "property": "C193",
   "status": "proved",
   "theorems": [
    "C193_new"
   ],
   "note": ""
  },
  {
   "property": "C194",
   "status": "proved",
   "theorems": [
    "C194_unchanged",
    "C194_stored"
   ],
   "note": ""
  },
  {
   "property": "C195",
   "status": "proved",
   "theorems": [
    "C195_refuted",
    "C195_no_axes_refuted"
   ],
   "note": "Refuted (F82)."
  },
  {
   "property": "C196",
   "status": "proved",
   "theorems": [
    "C196_cells",
    "C196_all"
   ],
   "note": ""
  },
  {
   "property": "C197",
   "status": "proved",
   "theorems": [
    "C197_refuted"
   ],
   "note": "Refuted (F83)."
  },
  {
   "property": "C198",
   "status": "proved",
   "theorems": [
    "C198_marker",
    "C198_accepted"
   ],
   "note": ""
  },
  {
   "property": "C199",
   "status": "proved",
   "theorems": [
    "C199_refuted",
    "C199_class_refuted"
   ],
   "note": "Refuted (F84)."
  },
  {
   "property": "C20",
   "status": "partial",
   "theorems": [
    "C20_affine_map_partial",
    "C20_translations_carried",
    "C20_errors",
    "C20_noncommuting_refuted",
    "C20_missing_offset_refuted"
   ],
   "note": "Exact condition under which the law holds is proved; it fails otherwise (findings F9, F10)."
  },
  {
   "property": "C200",
   "status": "proved",
   "theorems": [
    "C200_equal_iff",
    "C200_symmetric",
    "C200_reflexive_transitive",
    "C200_total"
   ],
   "note": ""
  },
  {
   "property": "C201",
   "status": "proved",
   "theorems": [
    "C201_mesh_comparison_refuted"
   ],
   "note": "Refuted (F85)."
  },
  {
   "property": "C202",
   "status": "proved",
   "theorems": [
    "C202_picture",
    "C202_errors"
   ],
   "note": ""
  },
  {
   "property": "C203",
   "status": "proved",
   "theorems": [
    "C203_saved",
    "C203_warnings",
    "C203_suggestion_in_first_axes"
   ],
   "note": ""
  },
  {
   "property": "C204",
   "status": "proved",
   "theorems": [
    "C204_suggestion_refuted"
   ],
   "note": "Refuted (F86)."
  },
  {
   "property": "C205",
   "status": "proved",
   "theorems": [
    "C205_matplotlib",
    "C205_mayavi",
    "C205_dimensions",
    "C205_complex"
   ],
   "note": ""
  },
  {
   "property": "C206",
   "status": "proved",
   "theorems": [
    "C206_groups_refuted",
    "C206_first_group_only",
    "C206_matplotlib"
   ],
   "note": "Refuted (F87): mayavi gets the first group only, for all discretizations; matplotlib never makes a picture of several groups."
  },
  {
   "property": "C207",
   "status": "proved",
   "theorems": [
    "C207_quadrilaterals_refuted"
   ],
   "note": "Refuted (F88)."
  },
  {
   "property": "C208",
   "status": "proved",
   "theorems": [
    "C208_matplotlib_kwargs_refuted",
    "C208_mayavi",
    "C208_matplotlib"
   ],
   "note": "Refuted for matplotlib (F89), which gets none of them; holds for mayavi, and for do_show, vmin, vmax and norm."
  },
  {
   "property": "C209",
   "status": "proved",
   "theorems": [
    "C209_face_nodes",
    "C209_nested",
    "C209_unisolvent_count"
   ],
   "note": ""
  },
  {
   "property": "C21",
   "status": "proved",
   "theorems": [
    "C21_matching_sound_and_complete",
    "C21_small_sets_have_result",
    "C21_separated_points_matched_injectively"
   ],
   "note": "for every median function, leaf size and recursion depth; whenever a result is returned (see C62 for when none is)"
  },
  {
   "property": "C210",
   "status": "proved",
   "theorems": [
    "C210_dimension",
    "C210_given",
    "C210_given_error",
    "C210_order_0",
    "C210_unrestricted",
    "C210_library_nodes",
    "C210_dimension_refuted"
   ],
   "note": "Refuted for the 3D restricting group in four or more dimensions (F90), which does not check; proved otherwise."
  },
  {
   "property": "C211",
   "status": "proved",
   "theorems": [
    "C211_order_0_refuted",
    "C211_high_order"
   ],
   "note": "Refuted for order 0 (F91); proved for all other orders."
  },
  {
   "property": "C212",
   "status": "proved",
   "theorems": [
    "C212_versions_refuted",
    "C212_argument_refuted",
    "C212_release",
    "C212_dotted_status",
    "C212_other_characters"
   ],
   "note": "Refuted for development, post and local versions (F92): these raise, so meshmode.version cannot be imported. Proved for releases and prereleases."
  },
  {
   "property": "C213",
   "status": "proved",
   "theorems": [
    "C213_same",
    "C213_markers",
    "C213_mesh"
   ],
   "note": ""
  },
  {
   "property": "C214",
   "status": "proved",
   "theorems": [
    "C214_literal",
    "C214_literal_iff",
    "C214_not_finite"
   ],
   "note": ""
  },
  {
   "property": "C215",
   "status": "proved",
   "theorems": [
    "C215_make_group_iff",
    "C215_make_group_error",
    "C215_default_nodes"
   ],
   "note": ""
  },
  {
   "property": "C216",
   "status": "proved",
   "theorems": [
    "C216_recreate"
   ],
   "note": ""
  },
  {
   "property": "C217",
   "status": "proved",
   "theorems": [
    "C217_as_python_refuted",
    "C217_empty_group",
    "C217_points",
    "C217_other_tag"
   ],
   "note": "Refuted (F93-F96): groups without elements lose axes of their arrays, points raise IndexError, NaN or infinite coordinates raise NameError, a FacialAdjacencyGroup raises TypeError. Meshes with other boundary tags are never recreated (see C51)."
  },
  {
   "property": "C218",
   "status": "proved",
   "theorems": [
    "C218_equal_tags",
    "C218_lookup",
    "C218_derived_refuted"
   ],
   "note": "Proved for BTAG_PARTITION itself, classes and strings; refuted for classes derived from BTAG_PARTITION (F97)."
  },
  {
   "property": "C219",
   "status": "proved",
   "theorems": [
    "C219_base_node_nrs",
    "C219_node_numbers",
    "C219_no_groups_refuted"
   ],
   "note": "Length refuted for meshes without groups (F98)."
  },
  {
   "property": "C22",
   "status": "partial",
   "theorems": [
    "C22_gluing_partial",
    "C22_duplicate_mapping_error",
    "C22_self_gluing_refuted",
    "C22_multiple_match_refuted",
    "C22_adjacent_sides_refuted",
    "C22_several_groups_refuted"
   ],
   "note": "bijection along the map, in both directions, for separated images and fixed common vertices; without these the property is refuted (F16)"
  },
  {
   "property": "C220",
   "status": "proved",
   "theorems": [
    "C220_curve",
    "C220_other_meshes",
    "C220_discretizations_refuted"
   ],
   "note": "The check of the dimensions is refuted for discretizations (F99)."
  },
  {
   "property": "C221",
   "status": "proved",
   "theorems": [
    "C221_unit_nodes",
    "C221_type_errors"
   ],
   "note": ""
  },
  {
   "property": "C222",
   "status": "proved",
   "theorems": [
    "C222_vtk_visualize_mesh"
   ],
   "note": ""
  },
  {
   "property": "C223",
   "status": "proved",
   "theorems": [
    "C223_merge_in_steps",
    "C223_merge_one"
   ],
   "note": "For single_group=False."
  },
  {
   "property": "C224",
   "status": "proved",
   "theorems": [
    "C224_remove_unused_idempotent",
    "C224_all_used_kept"
   ],
   "note": ""
  },
  {
   "property": "C225",
   "status": "proved",
   "theorems": [
    "C225_map_mesh_composes",
    "C225_map_mesh_identity"
   ],
   "note": "For functions acting on each point separately."
  },
  {
   "property": "C226",
   "status": "proved",
   "theorems": [
    "C226_split_constant",
    "C226_split_keeps",
    "C226_empty_groups_refuted"
   ],
   "note": "Exactly the groups with elements are kept; refuted for groups without elements (F100)."
  },
  {
   "property": "C227",
   "status": "proved",
   "theorems": [
    "C227_affine_composes",
    "C227_affine_inverse"
   ],
   "note": "Nodes, vertices and groups; the affine maps of the adjacency are the subject of C20."
  },
  {
   "property": "C228",
   "status": "proved",
   "theorems": [
    "C228_refine_nothing"
   ],
   "note": ""
  },
  {
   "property": "C229",
   "status": "proved",
   "theorems": [
    "C229_uniformly_in_steps",
    "C229_uniformly_succeeds"
   ],
   "note": "The condition on tessellations is shown for intervals, triangles and cubes (C229_one_corner)."
  },
  {
   "property": "C23",
   "status": "proved",
   "theorems": [
    "C23_glued_faces_not_boundary_refuted",
    "C23_glued_tags_removed_partial"
   ],
   "note": "property is false as stated: refuted (F17); exact description of the remaining boundary groups proved"
  },
  {
   "property": "C230",
   "status": "proved",
   "theorems": [
    "C230_new_refiner_refuted"
   ],
   "note": "Refuted (F101): a new refiner does not know the midpoints already made and puts a second vertex at the same place. (C229: no difference if all elements are refined.)"
  },
  {
   "property": "C231",
   "status": "proved",
   "theorems": [
    "C231_one_part",
    "C231_one_part_same"
   ],
   "note": "C231_one_part says what becomes of arbitrary adjacency lists; C231_one_part_same gives the statement."
  },
  {
   "property": "C232",
   "status": "proved",
   "theorems": [
    "C232_part_of_part_refuted"
   ],
   "note": "Refuted (F102): inter-part groups become boundary groups; neighbors and part number are lost."
  },
  {
   "property": "C233",
   "status": "proved",
   "theorems": [
    "C233_reunion"
   ],
   "note": "Vertices on the cuts are duplicated, and the merged mesh has no adjacency (compare F8)."
  },
  {
   "property": "C234",
   "status": "proved",
   "theorems": [
    "C234_uninitialised",
    "C234_returned"
   ],
   "note": ""
  },
  {
   "property": "C235",
   "status": "proved",
   "theorems": [
    "C235_partition_mapped",
    "C235_map_mesh"
   ],
   "note": "C235_map_mesh: for functions that act on each point, and adjacency without affine maps (otherwise map_mesh raises)."
  },
  {
   "property": "C236",
   "status": "proved",
   "theorems": [
    "C236_merge_mapped",
    "C236_map_mesh",
    "C236_map_merged_refuted"
   ],
   "note": "Refuted after facial_adjacency_groups was used on one of the meshes (F103): map_mesh of the merged mesh raises, merging the mapped meshes works."
  },
  {
   "property": "C237",
   "status": "proved",
   "theorems": [
    "C237_remove_mapped",
    "C237_split_mapped",
    "C237_map_mesh"
   ],
   "note": "C237_map_mesh: for functions that act on each point, and adjacency without affine maps (otherwise map_mesh raises)."
  },
  {
   "property": "C238",
   "status": "proved",
   "theorems": [
    "C238_queries",
    "C238_map_mesh"
   ],
   "note": "C238_map_mesh: for functions that act on each point, and meshes whose adjacency, if there is any, has no affine maps (otherwise map_mesh raises)."
  },
  {
   "property": "C24",
   "status": "proved",
   "theorems": [
    "C24_remove_unused_vertices"
   ],
   "note": ""
  },
  {
   "property": "C25",
   "status": "proved",
   "theorems": [
    "C25_bounding_box_of_vertices"
   ],
   "note": ""
  },
  {
   "property": "C26",
   "status": "proved",
   "theorems": [
    "C26_refinement_distributes",
    "C26_flag_length",
    "C26_conforming"
   ],
   "note": ""
  },
  {
   "property": "C27",
   "status": "proved",
   "theorems": [
    "C27_midpoints_shared"
   ],
   "note": "restricted to calls that flag elements of one group, see C68"
  },
  {
   "property": "C28",
   "status": "proved",
   "theorems": [
    "C28_connection",
    "C28_wrong_mesh",
    "C28_new_refiner"
   ],
   "note": "for tessellations with a number of children other than one"
  },
  {
   "property": "C29",
   "status": "proved",
   "theorems": [
    "C29_paths_agree",
    "C29_wrong_shape",
    "C29_permutation"
   ],
   "note": "resampling matrices and pick lists are arguments"
  },
  {
   "property": "C30",
   "status": "proved",
   "theorems": [
    "C30_full_matrix",
    "C30_chain_matrix"
   ],
   "note": ""
  },
  {
   "property": "C31",
   "status": "proved",
   "theorems": [
    "C31_composition",
    "C31_nesting",
    "C31_defined"
   ],
   "note": ""
  },
  {
   "property": "C32",
   "status": "proved",
   "theorems": [
    "C32_flatten",
    "C32_nested",
    "C32_direct_empty",
    "C32_batches"
   ],
   "note": "the general statement is false, see C73"
  },
  {
   "property": "C33",
   "status": "proved",
   "theorems": [
    "C33_restriction",
    "C33_values",
    "C33_unknown_tag",
    "C33_no_vertices"
   ],
   "note": "exactly one boundary element per face needs each face to be listed once in the adjacency (asked_once); vertex numbers must be exact in the dtype of the vertices"
  },
  {
   "property": "C34",
   "status": "proved",
   "theorems": [
    "C34_embedding"
   ],
   "note": ""
  },
  {
   "property": "C35",
   "status": "proved",
   "theorems": [
    "C35_exchange",
    "C35_succeeds",
    "C35_succeeds_all",
    "C35_values",
    "C35_involution",
    "C35_values_1d"
   ],
   "note": "Node matching (not the Gauss-Newton search) for the values; at most 128 different node matchings per pair of groups (few_matchings)."
  },
  {
   "property": "C36",
   "status": "proved",
   "theorems": [
    "C36_exchange",
    "C36_succeeds",
    "C36_values",
    "C36_values_1d",
    "C36_parts",
    "C36_partitioned"
   ],
   "note": "Node matching (not the Gauss-Newton search) for the values; at most 128 different node matchings per pair of groups (few_matchings2). The exchange of messages itself is C37."
  },
  {
   "property": "C37",
   "status": "proved",
   "theorems": [
    "C37_safety",
    "C37_progress",
    "C37_bounded",
    "C37_same",
    "C37_orders",
    "C37_duplicate_pair",
    "C37_duplicate_message",
    "C37_old_interface"
   ],
   "note": "The network of ranks is a state machine. Packing and the making of a connection are arbitrary functions here; see C80 for the real ones."
  },
  {
   "property": "C38",
   "status": "proved",
   "theorems": [
    "C38_map",
    "C38_partition"
   ],
   "note": ""
  },
  {
   "property": "C39",
   "status": "proved",
   "theorems": [
    "C39_graph",
    "C39_neighbors"
   ],
   "note": "connectivity='facial'; the call of pymetis is not modelled. See C81 for meshes without interior adjacency group."
  },
  {
   "property": "C40",
   "status": "proved",
   "theorems": [
    "C40_serialize_roundtrip",
    "C40_deserialize_sequence",
    "C40_pickle_roundtrip",
    "C40_needs_context",
    "C40_context_restored",
    "C40_context_seen",
    "C40_no_nesting",
    "C40_threads",
    "C40_thread_sees"
   ],
   "note": "freeze/thaw of arraycontext is an argument assumed to keep contents"
  },
  {
   "property": "C41",
   "status": "proved",
   "theorems": [
    "C41_flat_norm",
    "C41_defined",
    "C41_norm_unique",
    "C41_default_norm",
    "C41_frozen_rejected",
    "C41_empty_part_refuted"
   ],
   "note": "over real numbers; uses the axioms of the standard library's reals"
  },
  {
   "property": "C42",
   "status": "proved",
   "theorems": [
    "C42_check",
    "C42_not_a_dofarray"
   ],
   "note": ""
  },
  {
   "property": "C43",
   "status": "proved",
   "theorems": [
    "C43_box_measure",
    "C43_tensor_cells",
    "C43_mesh_types",
    "C43_points_per_axis"
   ],
   "note": "Over any ordered commutative ring with one half in which products of positive numbers are positive."
  },
  {
   "property": "C44",
   "status": "proved",
   "theorems": [
    "C44_box_tags",
    "C44_unknown_side"
   ],
   "note": "Boxes without periodic sides, tags other than the predefined ones."
  },
  {
   "property": "C45",
   "status": "proved",
   "theorems": [
    "C45_minor_refuted",
    "C45_major",
    "C45_minor_indices"
   ],
   "note": "Refuted for the minor circle (F30): the indices are computed for the grid with end points, so entry j is a vertex at angle j around the axis too, or no vertex at all. The indices of the major circle are right (C45_major)."
  },
  {
   "property": "C46",
   "status": "proved",
   "theorems": [
    "C46_radius_refuted",
    "C46_distance_is_one"
   ],
   "note": "Refuted (F31): the coordinates are multiplied with r/(x^2+y^2) instead of r/sqrt(x^2+y^2); every vertex ends up with distance 1 from the axis whatever the radius (C46_distance_is_one)."
  },
  {
   "property": "C47",
   "status": "proved",
   "theorems": [
    "C47_order_independent",
    "C47_volume_tags"
   ],
   "note": "Numbers of nodes and elements are 0, 1, ... in some order and tags with the same number are the same; an element with several tag numbers of one name is listed as often."
  },
  {
   "property": "C48",
   "status": "proved",
   "theorems": [
    "C48_vtk_cells",
    "C48_no_groups",
    "C48_no_cell_type"
   ],
   "note": "For groups with at least one subelement per element whose subelements have the number of corners of their cell type; for hypercubes this is proved (C90_hypercube_drawable), for simplices it is a property of modepy. For order zero see C94."
  },
  {
   "property": "C49",
   "status": "proved",
   "theorems": [
    "C49_no_boundary_not_in_all_refuted"
   ],
   "note": "the property is false; the theorem is a counterexample"
  },
  {
   "property": "C50",
   "status": "proved",
   "theorems": [
    "C50_copy_history_independent_refuted"
   ],
   "note": "the property is false; the theorem is a counterexample"
  },
  {
   "property": "C51",
   "status": "partial",
   "theorems": [
    "C51_as_python_partial",
    "C51_as_python_refuted",
    "C51_other_tags"
   ],
   "note": "False for meshes with other boundary tags (names not imported by the snippet), and only for these; proved for BTAG_NONE/ALL/REALLY_ALL. The model of C51 copies arrays as they are; C214-C217 are about their text."
  },
  {
   "property": "C52",
   "status": "proved",
   "theorems": [
    "C52_repeated_element_rejected_refuted"
   ],
   "note": "The property is false of the code; the theorem is the refutation (finding F5 in DESIGN.md)."
  },
  {
   "property": "C53",
   "status": "proved",
   "theorems": [
    "C53_bounding_box_contains_nodes_refuted"
   ],
   "note": "the property is false; the theorem refutes it (DESIGN.md F6)"
  },
  {
   "property": "C54",
   "status": "proved",
   "theorems": [
    "C54_forced_orientation_keeps_tags_refuted"
   ],
   "note": "the property is false; the theorem refutes it (DESIGN.md F7)"
  },
  {
   "property": "C55",
   "status": "proved",
   "theorems": [
    "C55_merge_history_independent_refuted"
   ],
   "note": "the property is false; the theorem refutes it (DESIGN.md F8)"
  },
  {
   "property": "C56",
   "status": "proved",
   "theorems": [
    "C56_map_mesh"
   ],
   "note": ""
  },
  {
   "property": "C57",
   "status": "proved",
   "theorems": [
    "C57_forced_orientation_of_simplices",
    "C57_orientation_is_determinant"
   ],
   "note": "exact arithmetic; tensor product elements are not covered"
  },
  {
   "property": "C58",
   "status": "proved",
   "theorems": [
    "C58_mesh_grid",
    "C58_default_offset",
    "C58_copies_separated"
   ],
   "note": "The displacement of each copy is given explicitly; with the default offsets (from the bounding box) copies do not touch."
  },
  {
   "property": "C59",
   "status": "proved",
   "theorems": [
    "C59_grid_origin_refuted"
   ],
   "note": "The property is false: refuted (finding F11)."
  },
  {
   "property": "C60",
   "status": "partial",
   "theorems": [
    "C60_affine_map_equality_refuted",
    "C60_equality_same_shape_partial"
   ],
   "note": "False in general (finding F12); true when both maps have the same components."
  },
  {
   "property": "C61",
   "status": "proved",
   "theorems": [
    "C61_axis_rotation",
    "C61_rotate_mesh",
    "C61_random_rotation"
   ],
   "note": ""
  },
  {
   "property": "C62",
   "status": "proved",
   "theorems": [
    "C62_disjoint_sets_refuted",
    "C62_coincident_points_never_terminate",
    "C62_coincident_points_refuted",
    "C62_dimension_zero_refuted"
   ],
   "note": "property is false: refuted (F13); C21_small_sets_have_result gives the part that holds"
  },
  {
   "property": "C63",
   "status": "proved",
   "theorems": [
    "C63_small_sets_nearest",
    "C63_nearest_refuted"
   ],
   "note": "property is false beyond the leaf size: refuted (F14); proved up to it"
  },
  {
   "property": "C64",
   "status": "proved",
   "theorems": [
    "C64_permutation",
    "C64_separated_targets_one_to_one",
    "C64_permutation_refuted"
   ],
   "note": "None-case and closeness proved; distinctness proved for separated targets and refuted in general (F15)"
  },
  {
   "property": "C65",
   "status": "proved",
   "theorems": [
    "C65_tessellation",
    "C65_simplex",
    "C65_cube"
   ],
   "note": "modepy's node tuples and submesh are arguments, specified by their contents"
  },
  {
   "property": "C66",
   "status": "proved",
   "theorems": [
    "C66_face_centres_refuted"
   ],
   "note": "The property is false: refuted (finding F19)."
  },
  {
   "property": "C67",
   "status": "proved",
   "theorems": [
    "C67_uniform",
    "C67_needs_conforming"
   ],
   "note": ""
  },
  {
   "property": "C68",
   "status": "proved",
   "theorems": [
    "C68_two_groups_refuted"
   ],
   "note": "The property is false: refuted (finding F18); C27 gives the part that holds."
  },
  {
   "property": "C69",
   "status": "proved",
   "theorems": [
    "C69_rec_map_structure",
    "C69_rec_map_leaves",
    "C69_rec_map_identity",
    "C69_rec_map_composition"
   ],
   "note": ""
  },
  {
   "property": "C70",
   "status": "proved",
   "theorems": [
    "C70_frozen_arrays_refuted"
   ],
   "note": "The property is false: refuted (finding F20)."
  },
  {
   "property": "C71",
   "status": "proved",
   "theorems": [
    "C71_linear"
   ],
   "note": ""
  },
  {
   "property": "C72",
   "status": "proved",
   "theorems": [
    "C72_same_mesh",
    "C72_other_cases"
   ],
   "note": ""
  },
  {
   "property": "C73",
   "status": "proved",
   "theorems": [
    "C32_groups_refuted",
    "C32_identities_refuted",
    "C32_lossy_refuted"
   ],
   "note": "The property is false: refuted (finding F22)."
  },
  {
   "property": "C74",
   "status": "proved",
   "theorems": [
    "C30_duplicate_targets_refuted",
    "C30_empty_refuted",
    "C30_identity_refuted"
   ],
   "note": "The property is false: refuted (finding F23)."
  },
  {
   "property": "C75",
   "status": "proved",
   "theorems": [
    "C29_many_lists_refuted"
   ],
   "note": "The property is false: refuted (finding F21)."
  },
  {
   "property": "C76",
   "status": "proved",
   "theorems": [
    "C76_unused_vertices_refuted"
   ],
   "note": "The property is false: refuted (finding F24)."
  },
  {
   "property": "C77",
   "status": "proved",
   "theorems": [
    "C77_face_order_refuted"
   ],
   "note": "The property is false: refuted (finding F25)."
  },
  {
   "property": "C78",
   "status": "proved",
   "theorems": [
    "C78_all_faces_refuted"
   ],
   "note": "The property is false: refuted (finding F26)."
  },
  {
   "property": "C79",
   "status": "proved",
   "theorems": [
    "C79_connected",
    "C79_symmetric"
   ],
   "note": ""
  },
  {
   "property": "C80",
   "status": "proved",
   "theorems": [
    "C80_distributed"
   ],
   "note": "The helper has the boundary group factory of the restrictions. Nodes of the two sides coincide or the Newton search succeeds."
  },
  {
   "property": "C81",
   "status": "proved",
   "theorems": [
    "C81_refuted"
   ],
   "note": "Refuted: a mesh without interior adjacency group (one element) raises ValueError in np.hstack (F27)."
  },
  {
   "property": "C82",
   "status": "proved",
   "theorems": [
    "C82_sends",
    "C82_refuted"
   ],
   "note": "First half proved (C82_sends). Second half refuted: a rank whose part has no elements is sent nothing and blocks in receive_mesh_part; the manager gets None (F28)."
  },
  {
   "property": "C83",
   "status": "proved",
   "theorems": [
    "C83_box_conforming"
   ],
   "note": ""
  },
  {
   "property": "C84",
   "status": "proved",
   "theorems": [
    "C84_box_tiling"
   ],
   "note": "A point is in a simplex if replacing a vertex by the point never gives a negative determinant, in the interior if the determinants are positive; tensor product elements are boxes."
  },
  {
   "property": "C85",
   "status": "proved",
   "theorems": [
    "C85_argument_unchanged_refuted",
    "C85_periodic_tags"
   ],
   "note": "Refuted: entries for the periodic sides are added to the dictionary of the caller, and turn into boundary tags of a box made later with the same dictionary (F29)."
  },
  {
   "property": "C86",
   "status": "proved",
   "theorems": [
    "C86_torus_closed",
    "C86_torus_parametrization",
    "C86_on_torus"
   ],
   "note": "cos and sin are arbitrary functions with the period and the Pythagorean identity as hypotheses."
  },
  {
   "property": "C87",
   "status": "proved",
   "theorems": [
    "C87_revolution_conforming"
   ],
   "note": ""
  },
  {
   "property": "C88",
   "status": "proved",
   "theorems": [
    "C88_revolution_orientation_refuted",
    "C88_revolution_never_oriented"
   ],
   "note": "Refuted (F32): the two triangles of every cell traverse the diagonal in the same direction."
  },
  {
   "property": "C89",
   "status": "proved",
   "theorems": [
    "C89_curve_accepts",
    "C89_curve_elements",
    "C89_curve_faces",
    "C89_curve_parameters"
   ],
   "note": ""
  },
  {
   "property": "C90",
   "status": "proved",
   "theorems": [
    "C90_hypercube_submesh",
    "C90_hypercube_drawable"
   ],
   "note": ""
  },
  {
   "property": "C91",
   "status": "proved",
   "theorems": [
    "C91_shrink_refuted",
    "C91_points_after"
   ],
   "note": "Refuted (F33): shrinking overwrites the memoized nodes, so elements are shrunk by the product of all factors used so far (C91_points_after)."
  },
  {
   "property": "C92",
   "status": "proved",
   "theorems": [
    "C92_lagrange_cells"
   ],
   "note": "The permutation to the order of VTK comes from pyvisfile and is an argument."
  },
  {
   "property": "C93",
   "status": "proved",
   "theorems": [
    "C93_vtkhdf_refuted",
    "C93_vtkhdf_cells"
   ],
   "note": "Refuted (F34) for meshes with exactly three connectivity entries, e.g. one triangle; holds for all others (C93_vtkhdf_cells)."
  },
  {
   "property": "C94",
   "status": "proved",
   "theorems": [
    "C94_order_zero_refuted",
    "C48_vtk_cells"
   ],
   "note": "Refuted for order zero (F35); C48_vtk_cells covers positive orders."
  },
  {
   "property": "C95",
   "status": "proved",
   "theorems": [
    "C95_xdmf_connectivity"
   ],
   "note": ""
  },
  {
   "property": "C96",
   "status": "proved",
   "theorems": [
    "C96_elements",
    "C96_accepted"
   ],
   "note": "Checks of make_group and make_mesh are not modelled. A file with tags is only accepted if no three faces coincide."
  },
  {
   "property": "C97",
   "status": "proved",
   "theorems": [
    "C97_face_tags"
   ],
   "note": "For meshes in which no three faces coincide, with one group or dimension at most two (others are taken to be non-conforming)."
  },
  {
   "property": "C98",
   "status": "proved",
   "theorems": [
    "C98_tag_numbers"
   ],
   "note": "Gmsh numbers tags of each dimension separately, so files with names for groups of different dimensions and the same number are legal but rejected (F36)."
  },
  {
   "property": "C99",
   "status": "proved",
   "theorems": [
    "C99_own_dimension_refuted"
   ],
   "note": "Refuted (F37): the dimension of tags is ignored when elements are collected."
  }
 ]
}
