{
 "claims": [
  {
   "property": "C01",
   "status": "proved",
   "theorems": [
    "C01_dir_rev",
    "C01_axis_names",
    "C01_dir_names"
   ],
   "note": "Index and name lookup; string comparison is exact."
  },
  {
   "property": "C02",
   "status": "proved",
   "theorems": [
    "C02_normalize3",
    "C02_normalize3_fail",
    "C02_normalize2",
    "C02_normalize2_fail",
    "C02_div"
   ],
   "note": "Over exact reals; the tolerance tests are those of the code."
  },
  {
   "property": "C03",
   "status": "proved",
   "theorems": [
    "C03_proj",
    "C03_orthogonalize",
    "C03_proj_refuse",
    "C03_proj2",
    "C03_orthonormal_space",
    "C03_orthonormal",
    "C03_orthospace",
    "C03_orthonormal_gap_refuted"
   ],
   "note": "The orthonormal builders are proved for vectors of at least three tolerances; a shorter non-negligible vector that is refused is exhibited."
  },
  {
   "property": "C04",
   "status": "proved",
   "theorems": [
    "C04_rot_isometry",
    "C04_rot_rodrigues",
    "C04_rot_matrix",
    "C04_rot_add"
   ],
   "note": ""
  },
  {
   "property": "C05",
   "status": "proved",
   "theorems": [
    "C05_2d_adj_det",
    "C05_2d_inv",
    "C05_2d_solve_vec",
    "C05_2d_solve_mat",
    "C05_2d_refused",
    "C05_adj",
    "C05_det",
    "C05_inv",
    "C05_solve_vec",
    "C05_solve_mat",
    "C05_sound"
   ],
   "note": "3D part proved for every well-conditioned matrix (the code refuses others); 2D part proved for every determinant the code accepts, and refusal proved for the rest."
  },
  {
   "property": "C06",
   "status": "proved",
   "theorems": [
    "C06_singular_unreported"
   ],
   "note": "Exact characterisation of the fault: no error is ever returned for a singular matrix."
  },
  {
   "property": "C07",
   "status": "proved",
   "theorems": [
    "C07_zyx_elementary",
    "C07_zyx_roundtrip",
    "C07_zyx_recover"
   ],
   "note": ""
  },
  {
   "property": "C08",
   "status": "proved",
   "theorems": [
    "C08_zyz_elementary",
    "C08_zyz_roundtrip",
    "C08_zyz_recover"
   ],
   "note": ""
  },
  {
   "property": "C09",
   "status": "proved",
   "theorems": [
    "C09_aa_matrix",
    "C09_aa_roundtrip",
    "C09_aa_recover",
    "C09_aa_recover_pi"
   ],
   "note": "Matrix round trip proved for rotations whose skew part is zero or at least four tolerances."
  },
  {
   "property": "C10",
   "status": "proved",
   "theorems": [
    "C10_matrix",
    "C10_roundtrip",
    "C10_cascade",
    "C10_normalize",
    "C10_aa",
    "C10_aa_back"
   ],
   "note": ""
  },
  {
   "property": "C11",
   "status": "proved",
   "theorems": [
    "C11_slerp",
    "C11_slerp_arc",
    "C11_slerp_matrix"
   ],
   "note": ""
  },
  {
   "property": "C12",
   "status": "proved",
   "theorems": [
    "C12_zyx",
    "C12_zyz",
    "C12_ep",
    "C12_zyx_back",
    "C12_zyz_back",
    "C12_singular",
    "C12_ep_back"
   ],
   "note": ""
  },
  {
   "property": "C13",
   "status": "proved",
   "theorems": [
    "C13_rpy",
    "C13_sequence"
   ],
   "note": ""
  },
  {
   "property": "C14",
   "status": "proved",
   "theorems": [
    "C14_points",
    "C14_group",
    "C14_relative",
    "C14_twist_error"
   ],
   "note": "Attitudes must be proper rotations for the inverse laws, as the header requires."
  },
  {
   "property": "C15",
   "status": "proved",
   "theorems": [
    "C15_dh",
    "C15_roundtrip",
    "C15_rigid"
   ],
   "note": "The angle-axis round trip has the same condition on the skew part as C09."
  },
  {
   "property": "C16",
   "status": "proved",
   "theorems": [
    "C16_shift",
    "C16_dual",
    "C16_group"
   ],
   "note": ""
  },
  {
   "property": "C17",
   "status": "proved",
   "theorems": [
    "C17_mulvec",
    "C17_mulmat",
    "C17_entries",
    "C17_div",
    "C17_rowcol",
    "C17_badindex",
    "C17_ext"
   ],
   "note": ""
  },
  {
   "property": "C18",
   "status": "proved",
   "theorems": [
    "C18_act",
    "C18_correspond",
    "C18_coord_group",
    "C18_frame_act",
    "C18_frame_inv",
    "C18_frame_closed",
    "C18_angle",
    "C18_roundtrip",
    "C18_error",
    "C18_rot",
    "C18_interdiv"
   ],
   "note": "Angles are not wrapped by the coordinate operations; the round trip from a coordinate needs the angle in (-pi,pi]."
  },
  {
   "property": "C19",
   "status": "proved",
   "theorems": [
    "C19_vec_any_overlap",
    "C19_mat_any_overlap",
    "C19_drc2_any_overlap",
    "C19_same_or_apart",
    "C19_rpy_drc",
    "C19_vec2_inplace",
    "C19_interdiv2_inplace",
    "C19_mulvec2_inplace",
    "C19_mat2_inplace",
    "C19_cascade2",
    "C19_eprot",
    "C19_zyxvel_inplace",
    "C19_rpy_inplace",
    "C19_mat6_inplace",
    "C19_adjvec_inplace",
    "C19_cascade_drc_refuted",
    "C19_rot90_refuted"
   ],
   "note": "Explicit flat memory; pointers may overlap in any way. The in-place failures are stated as exact equivalences."
  },
  {
   "property": "C20",
   "status": "proved",
   "theorems": [
    "C20_decomposition",
    "C20_residual",
    "C20_terminates",
    "C20_min"
   ],
   "note": "Termination in exact arithmetic proved as well."
  },
  {
   "property": "C21",
   "status": "proved",
   "theorems": [
    "C21_closest3",
    "C21_closest2",
    "C21_weights3",
    "C21_weights2",
    "C21_degenerate",
    "C21_margin",
    "C21_nearest_end"
   ],
   "note": ""
  },
  {
   "property": "C22",
   "status": "proved",
   "theorems": [
    "C22_closest3",
    "C22_closest2",
    "C22_weights3",
    "C22_weights2",
    "C22_sliver",
    "C22_unwritten3",
    "C22_flat2",
    "C22_inside2",
    "C22_create",
    "C22_signed",
    "C22_margin",
    "C22_nearest_vertex",
    "C22_flip"
   ],
   "note": "Includes slivers, fully degenerate triangles, creation, area, signed distance and the margin test."
  },
  {
   "property": "C23",
   "status": "proved",
   "theorems": [
    "C23_closest",
    "C23_inside",
    "C23_weights"
   ],
   "note": ""
  },
  {
   "property": "C24",
   "status": "proved",
   "theorems": [
    "C24_feet",
    "C24_distance",
    "C24_upper",
    "C24_near_parallel_refuted",
    "C24_create",
    "C24_projection",
    "C24_margin",
    "C24_meet2",
    "C24_create2",
    "C24_two_points2",
    "C24_two_points",
    "C24_projection2",
    "C24_margin2",
    "C24_edge_line"
   ],
   "note": "The tolerance band of nearly parallel lines is refuted by a witness."
  },
  {
   "property": "C25",
   "status": "proved",
   "theorems": [
    "C25_create",
    "C25_projection",
    "C25_meet",
    "C25_dangling_origin",
    "C25_parallel",
    "C25_on_plane_test",
    "C25_on_plane_distance_refuted"
   ],
   "note": "The dangling origin and the angle comparison are proved as exact characterisations."
  },
  {
   "property": "C26",
   "status": "proved",
   "theorems": [
    "C26_barycentre",
    "C26_circumcentre",
    "C26_circumcentre2",
    "C26_circumcentre_flat",
    "C26_incentre",
    "C26_incentre2",
    "C26_orthocentre",
    "C26_orthocentre2",
    "C26_cone_circumcentre"
   ],
   "note": "2D and 3D; also the circumcentre of the tetrahedron with the origin."
  },
  {
   "property": "C27",
   "status": "proved",
   "theorems": [
    "C27_create",
    "C27_create2",
    "C27_size",
    "C27_size2",
    "C27_merge",
    "C27_merge2",
    "C27_enlarge",
    "C27_enlarge2",
    "C27_expand",
    "C27_expand2",
    "C27_closest",
    "C27_closest2",
    "C27_inside",
    "C27_inside2",
    "C27_vertices",
    "C27_vertices2",
    "C27_volume",
    "C27_area",
    "C27_overlap",
    "C27_overlap_solid",
    "C27_intersection",
    "C27_touching_refuted"
   ],
   "note": "3D and 2D. The half-open (3D) and open (2D) inside tests are characterised exactly."
  },
  {
   "property": "C28",
   "status": "proved",
   "theorems": [
    "C28_bounds",
    "C28_extremes",
    "C28_empty",
    "C28_bounds2",
    "C28_extremes2",
    "C28_xform",
    "C28_common_box"
   ],
   "note": "3D, transformed and 2D variants, any length."
  },
  {
   "property": "C29",
   "status": "proved",
   "theorems": [
    "C29_closest",
    "C29_inside",
    "C29_create",
    "C29_copy",
    "C29_xform",
    "C29_mirror",
    "C29_from_aligned",
    "C29_to_aligned",
    "C29_vertices"
   ],
   "note": ""
  },
  {
   "property": "C30",
   "status": "proved",
   "theorems": [
    "C30_no_miss",
    "C30_separate",
    "C30_exact",
    "C30_touching_refuted"
   ],
   "note": "Full separating-axis theorem for boxes, proved from completeness of the reals; axes within the tolerance of parallel are outside the exact theorem but inside the other two."
  },
  {
   "property": "C31",
   "status": "proved",
   "theorems": [
    "C31_aligned",
    "C31_oriented"
   ],
   "note": ""
  },
  {
   "property": "C32",
   "status": "proved",
   "theorems": [
    "C32_closest",
    "C32_inside",
    "C32_from2",
    "C32_from3",
    "C32_from4",
    "C32_disk_from2",
    "C32_disk_from3",
    "C32_disk_inside",
    "C32_xform",
    "C32_mirror",
    "C32_xform_closest"
   ],
   "note": "3D and 2D."
  },
  {
   "property": "C33",
   "status": "proved",
   "theorems": [
    "C33_closest",
    "C33_inside",
    "C33_axial",
    "C33_axial_unique",
    "C33_xform",
    "C33_mirror"
   ],
   "note": "The sign flip above the second cap is part of the exact characterisation."
  },
  {
   "property": "C34",
   "status": "proved",
   "theorems": [
    "C34_closest",
    "C34_inside",
    "C34_zero_margin_refuted",
    "C34_far_refuted"
   ],
   "note": "The two failures of the inside test are proved as well."
  },
  {
   "property": "C35",
   "status": "proved",
   "theorems": [
    "C35_inside",
    "C35_closest",
    "C35_xform",
    "C35_mirror"
   ],
   "note": "Points within the tolerance of the axis but not on it are excluded from the closest-point theorem."
  },
  {
   "property": "C36",
   "status": "proved",
   "theorems": [
    "C36_apex",
    "C36_xform",
    "C36_xforminv",
    "C36_flip",
    "C36_mirror",
    "C36_scale"
   ],
   "note": ""
  },
  {
   "property": "C37",
   "status": "proved",
   "theorems": [
    "C37_tetra"
   ],
   "note": "Integrals are iterated Riemann integrals (Coquelicot)."
  },
  {
   "property": "C38",
   "status": "proved",
   "theorems": [
    "C38_mesh",
    "C38_shape",
    "C38_density",
    "C38_symmetric"
   ],
   "note": "All shape kinds of the library including polyhedra."
  },
  {
   "property": "C39",
   "status": "proved",
   "theorems": [
    "C39_box",
    "C39_cylinder",
    "C39_elliptic_cylinder",
    "C39_cone"
   ],
   "note": "Index computations, vertex positions and outward convexity are proved for all division numbers."
  },
  {
   "property": "C40",
   "status": "proved",
   "theorems": [
    "C40_sphere",
    "C40_ellipsoid",
    "C40_capsule",
    "C40_capsule_refuted"
   ],
   "note": "C40_sphere and C40_ellipsoid characterise the mesh as it is, including the inverted caps; C40_capsule_refuted covers division numbers that are not multiples of four."
  },
  {
   "property": "C41",
   "status": "proved",
   "theorems": [
    "C41_torus",
    "C41_lathe_refuted",
    "C41_volume"
   ],
   "note": "C41_lathe_refuted records the inverted last cap for every rim; the prism and pyramid generators are treated separately."
  },
  {
   "property": "C42",
   "status": "proved",
   "theorems": [
    "C42_list",
    "C42_array",
    "C42_reference",
    "C42_any",
    "C42_array_overwrite",
    "C42_array_refuted",
    "C42_cpp_address_list_refuted"
   ],
   "note": ""
  },
  {
   "property": "C43",
   "status": "proved",
   "theorems": [
    "C43_nearest_3d",
    "C43_nearest_2d",
    "C43_nearest_empty",
    "C43_vicinity_3d",
    "C43_vicinity_2d",
    "C43_support_3d",
    "C43_support_2d"
   ],
   "note": ""
  },
  {
   "property": "C44",
   "status": "proved",
   "theorems": [
    "C44_nearest",
    "C44_partition",
    "C44_empty"
   ],
   "note": "Undefined behaviour on an empty tree is part of the statements."
  },
  {
   "property": "C45",
   "status": "proved",
   "theorems": [
    "C45_vicinity",
    "C45_export",
    "C45_add_data",
    "C45_to_data"
   ],
   "note": ""
  },
  {
   "property": "C46",
   "status": "proved",
   "theorems": [
    "C46_history",
    "C46_tolerance",
    "C46_data",
    "C46_box_count",
    "C46_auto"
   ],
   "note": "Recursion that creates octants carries a depth limit; the theorems hold for every sufficiently large limit, i.e. the recursion terminates."
  },
  {
   "property": "C47",
   "status": "proved",
   "theorems": [
    "C47_unify",
    "C47_loss_refuted",
    "C47_hidden_refuted"
   ],
   "note": "C47_loss_refuted and C47_hidden_refuted are the losses; C47_unify is what can be relied on."
  },
  {
   "property": "C48",
   "status": "proved",
   "theorems": [
    "C48_barycentre",
    "C48_covariance",
    "C48_together",
    "C48_order",
    "C48_components",
    "C48_bary_components",
    "C48_frame",
    "C48_normal",
    "C48_plane",
    "C48_empty"
   ],
   "note": ""
  },
  {
   "property": "C49",
   "status": "proved",
   "theorems": [
    "C49_set",
    "C49_multiply",
    "C49_blend",
    "C49_grey",
    "C49_to_hsv",
    "C49_from_hsv",
    "C49_round_trip",
    "C49_hsv_round_trip",
    "C49_hue_refuted",
    "C49_hex",
    "C49_hex_long",
    "C49_hex_short_refuted",
    "C49_names",
    "C49_ratio"
   ],
   "note": ""
  },
  {
   "property": "C50",
   "status": "proved",
   "theorems": [
    "C50_blend",
    "C50_multiply",
    "C50_create",
    "C50_copy",
    "C50_init_refuted",
    "C50_print_read",
    "C50_ztk_read",
    "C50_ztk_refuted"
   ],
   "note": ""
  },
  {
   "property": "C51",
   "status": "proved",
   "theorems": [
    "C51_cell",
    "C51_cell_order",
    "C51_unique",
    "C51_ident",
    "C51_travs",
    "C51_out_refuted",
    "C51_height",
    "C51_flat_refuted",
    "C51_edge_refuted",
    "C51_column_refuted",
    "C51_zrange",
    "C51_region"
   ],
   "note": ""
  },
  {
   "property": "C52",
   "status": "proved",
   "theorems": [
    "C52_edge_plane_check",
    "C52_edge_plane",
    "C52_edge_plane_flat",
    "C52_tri_plane_check",
    "C52_tri_plane",
    "C52_tri_plane_flat",
    "C52_tri_plane_count",
    "C52_tri_plane_cut",
    "C52_edge_tri",
    "C52_edge_tri_refuted",
    "C52_tri_tri",
    "C52_tri_tri_found",
    "C52_tri_tri_check",
    "C52_overrun_refuted",
    "C52_self_refuted",
    "C52_coplanar_refuted"
   ],
   "note": ""
  },
  {
   "property": "C53",
   "status": "proved",
   "theorems": [
    "C53_plane_points",
    "C53_plane_check",
    "C53_plane_count",
    "C53_plane_decides",
    "C53_plane_refuted",
    "C53_tri",
    "C53_tri_sound",
    "C53_pierce_refuted"
   ],
   "note": ""
  },
  {
   "property": "C54",
   "status": "proved",
   "theorems": [
    "C54_plane",
    "C54_plane_recursive",
    "C54_plane_recursive_refuted",
    "C54_space",
    "C54_space_recursive",
    "C54_space_recursive_refuted",
    "C54_space_refuted",
    "C54_empty_plane",
    "C54_empty_space"
   ],
   "note": ""
  },
  {
   "property": "C55",
   "status": "proved",
   "theorems": [
    "C55_hull",
    "C55_degenerate",
    "C55_polyhedron",
    "C55_closest",
    "C55_closest_two",
    "C55_inside_refuted",
    "C55_closest_refuted"
   ],
   "note": ""
  },
  {
   "property": "C56",
   "status": "proved",
   "theorems": [
    "C56_count",
    "C56_tiling",
    "C56_convex",
    "C56_tiling_refuted",
    "C56_align",
    "C56_copy"
   ],
   "note": ""
  },
  {
   "property": "C57",
   "status": "proved",
   "theorems": [
    "C57_convert",
    "C57_convert_back",
    "C57_trunc_good",
    "C57_trunc_pieces",
    "C57_trunc_sound",
    "C57_trunc_complete",
    "C57_trunc_exact",
    "C57_trunc_tight",
    "C57_trunc_planes",
    "C57_trunc_undef",
    "C57_merge",
    "C57_merge_good",
    "C57_merge_dangling",
    "C57_merge_refuted",
    "C57_ph_trunc",
    "C57_ph_intersect",
    "C57_in_box",
    "C57_fast",
    "C57_fast_refuted"
   ],
   "note": ""
  },
  {
   "property": "C58",
   "status": "proved",
   "theorems": [
    "C58_least",
    "C58_closest",
    "C58_exists",
    "C58_refuted",
    "C58_inside",
    "C58_inside_union",
    "C58_contig",
    "C58_contig_undefined",
    "C58_vertices",
    "C58_ball",
    "C58_octree",
    "C58_octree_empty"
   ],
   "note": ""
  },
  {
   "property": "C59",
   "status": "proved",
   "theorems": [
    "C59_support",
    "C59_support_max",
    "C59_pair",
    "C59_ends",
    "C59_single",
    "C59_point",
    "C59_point_ends",
    "C59_missed_refuted",
    "C59_false_alarm_refuted",
    "C59_mpr_no",
    "C59_minkowski_refuted",
    "C59_hit",
    "C59_polyhedra_hit",
    "C59_polyhedra_pair"
   ],
   "note": ""
  },
  {
   "property": "C60",
   "status": "proved",
   "theorems": [
    "C60_alloc",
    "C60_defined",
    "C60_hull",
    "C60_corner",
    "C60_xform",
    "C60_xforminv",
    "C60_mirror",
    "C60_tangent",
    "C60_mesh",
    "C60_closest",
    "C60_closest_refuted",
    "C60_ellipsoid",
    "C60_sphere",
    "C60_torus",
    "C60_cone",
    "C60_ecyl",
    "C60_ecyl_refuted",
    "C60_cyl",
    "C60_box",
    "C60_box_refuted"
   ],
   "note": ""
  },
  {
   "property": "C61",
   "status": "proved",
   "theorems": [
    "C61_translate",
    "C61_rotate",
    "C61_rotate_noaxis",
    "C61_lookat",
    "C61_lookat_documented_axis_refuted",
    "C61_gaze"
   ],
   "note": "The documented x axis direction is refuted; the direction actually taken is proved."
  },
  {
   "property": "C62",
   "status": "proved",
   "theorems": [
    "C62_create",
    "C62_put",
    "C62_constructor",
    "C62_print"
   ],
   "note": "Exact characterisation of the exchanged blocks."
  },
  {
   "property": "C63",
   "status": "proved",
   "theorems": [
    "C63_ellipse_closest",
    "C63_ellipse_inside",
    "C63_ellipsoid_inside",
    "C63_ellipsoid_closest",
    "C63_ellipsoid_xform",
    "C63_ellipsoid_mirror",
    "C63_sphere_to_ellipsoid",
    "C63_ecyl_axes",
    "C63_ecyl_axes_null_refuted",
    "C63_ecyl_inside",
    "C63_ecyl_closest",
    "C63_ecyl_xform",
    "C63_ecyl_mirror"
   ],
   "note": "The polynomial solver of the ZM library is not modelled: it is a parameter with the contract that its (nearly) real answers are roots. The elliptic-cylinder closest point needs a height between the tolerance and 1e6."
  },
  {
   "property": "C64",
   "status": "proved",
   "theorems": [
    "C64_closest",
    "C64_inside",
    "C64_contig",
    "C64_aabb",
    "C64_surface_refuted",
    "C64_aabb_refuted"
   ],
   "note": "Includes the two failures (coplanar neighbouring faces; box always reaching the origin)."
  },
  {
   "property": "C65",
   "status": "proved",
   "theorems": [
    "C65_box",
    "C65_sphere",
    "C65_ellipsoid",
    "C65_cylinder",
    "C65_elliptic_cylinder",
    "C65_capsule",
    "C65_cone"
   ],
   "note": "Integrals are iterated Riemann integrals in coordinates sweeping the solid (Coquelicot)."
  },
  {
   "property": "C66",
   "status": "proved",
   "theorems": [
    "C66_angle",
    "C66_angle_about",
    "C66_antisymmetric",
    "C66_angle2",
    "C66_error",
    "C66_error_parallel",
    "C66_error_opposite_refuted",
    "C66_polar",
    "C66_quarter_turn"
   ],
   "note": "Includes the failure of the documented effect for opposite vectors."
  },
  {
   "property": "C67",
   "status": "proved",
   "theorems": [
    "C67_difference",
    "C67_integrate",
    "C67_differentiate",
    "C67_cascade",
    "C67_error",
    "C67_change_of_basis"
   ],
   "note": ""
  },
  {
   "property": "C68",
   "status": "proved",
   "theorems": [
    "C68_orthonormalize",
    "C68_check_orthonormal",
    "C68_check_righthand",
    "C68_rotations_pass",
    "C68_lefthand_refuted"
   ],
   "note": ""
  },
  {
   "property": "C69",
   "status": "proved",
   "theorems": [
    "C69_vec3",
    "C69_equal",
    "C69_vec6",
    "C69_mat3",
    "C69_vec2",
    "C69_mat2",
    "C69_ep"
   ],
   "note": ""
  },
  {
   "property": "C70",
   "status": "proved",
   "theorems": [
    "C70_prism",
    "C70_pyramid",
    "C70_prism_inside",
    "C70_pyramid_inside",
    "C70_open_refuted",
    "C70_small"
   ],
   "note": ""
  },
  {
   "property": "C71",
   "status": "proved",
   "theorems": [
    "C71_binary",
    "C71_single_precision",
    "C71_single_exact",
    "C71_text",
    "C71_file",
    "C71_text_file",
    "C71_text_ends",
    "C71_unfinished",
    "C71_no_faces_binary",
    "C71_no_faces_text",
    "C71_unnamed_refuted",
    "C71_truncated_refuted",
    "C71_stale_root_refuted"
   ],
   "note": "Splitting a text into words and the digits of printed numbers are left abstract; allocation succeeds."
  },
  {
   "property": "C72",
   "status": "proved",
   "theorems": [
    "C72_box",
    "C72_least",
    "C72_volume_refuted",
    "C72_null",
    "C72_data"
   ],
   "note": "In C72_box, C72_least, C72_volume_refuted and C72_null the three-dimensional convex hull routine is a parameter of which only the stated facts are used; C72_data is about the modelled routine of C76."
  },
  {
   "property": "C73",
   "status": "proved",
   "theorems": [
    "C73_svd",
    "C73_svd_done",
    "C73_done",
    "C73_result",
    "C73_null",
    "C73_best",
    "C73_loose",
    "C73_recover",
    "C73_flat",
    "C73_scale_refuted"
   ],
   "note": "One container passed as both arguments is not modelled. The error bounds are those of the Jacobi iteration of C20, in real arithmetic."
  },
  {
   "property": "C74",
   "status": "proved",
   "theorems": [
    "C74_normals",
    "C74_tree",
    "C74_none",
    "C74_zero",
    "C74_zero_octree"
   ],
   "note": "Warnings about too few or too many points are left out."
  },
  {
   "property": "C75",
   "status": "proved",
   "theorems": [
    "C75_converged",
    "C75_full",
    "C75_done",
    "C75_empty",
    "C75_nan",
    "C75_first",
    "C75_shift",
    "C75_few",
    "C75_nosample",
    "C75_worse_refuted"
   ],
   "note": "Random numbers are an arbitrary sequence; C75_worse_refuted has a sequence of numbers between 0 and 1."
  },
  {
   "property": "C76",
   "status": "proved",
   "theorems": [
    "C76_hull",
    "C76_extreme",
    "C76_place",
    "C76_line",
    "C76_plane"
   ],
   "note": "Memory allocation succeeds. Point sets with four points in a plane (but not all in one) are not covered by C76_hull. The sum over rounds is bounded by a fuel argument that is at least the number of points."
  },
  {
   "property": "C77",
   "status": "proved",
   "theorems": [
    "C77_delaunay",
    "C77_fails",
    "C77_outer",
    "C77_none_refuted",
    "C77_fails_refuted",
    "C77_flat_refuted",
    "C77_dangling_refuted"
   ],
   "note": "Memory allocation succeeds. Point sets with three points nearly on a line (also with outer corners) are outside C77_delaunay. A triangle whose circle contains an outer corner may be missing (C77_flat_refuted), so the union of the triangles need not be the convex hull of the points."
  },
  {
   "property": "C78",
   "status": "proved",
   "theorems": [
    "C78_voronoi",
    "C78_fails",
    "C78_none_refuted",
    "C78_cut_refuted"
   ],
   "note": "Memory allocation succeeds. Point sets with three points nearly on a line (also with outer corners) are outside C78_voronoi. The nodes carry addresses of triangles that are freed before the function returns; the model keeps the addresses and nothing reads them."
  },
  {
   "property": "C79",
   "status": "proved",
   "theorems": [
    "C79_region",
    "C79_intersection",
    "C79_defined",
    "C79_shallow",
    "C79_exact_refuted",
    "C79_hull"
   ],
   "note": "zGJKDepth and zVec3DDataConvexHull are parameters; C79_region states on which two lists the hull has to be right (C79_hull: the modelled hull is right for points in general position). Memory allocation succeeds."
  },
  {
   "property": "C80",
   "status": "proved",
   "theorems": [
    "C80_round_trip",
    "C80_placement",
    "C80_auto_axis",
    "C80_auto_first_refuted",
    "C80_mirror",
    "C80_sweep",
    "C80_face_numbers",
    "C80_faces_first_refuted"
   ],
   "note": "The tokeniser and the key loop of ZEDA are assumptions. Numbers are reals (the code prints ten digits). NURBS surfaces, imported files (stl, ply, obj) and arcs in loops are left out."
  },
  {
   "property": "C81",
   "status": "proved",
   "theorems": [
    "C81_file_round_trip",
    "C81_texture_round_trip",
    "C81_bump_refuted",
    "C81_failure_refuted",
    "C81_copy",
    "C81_copy_refuted",
    "C81_texture_copy_refuted"
   ],
   "note": "As for C80; image files, identifiers and image sizes of textures are left out. Memory allocation succeeds. C81_copy_refuted does not distinguish the null pointer from undefined behaviour for shapes that cannot be copied."
  },
  {
   "property": "C82",
   "status": "proved",
   "theorems": [
    "C82_text_round_trip",
    "C82_binary_round_trip",
    "C82_triangles",
    "C82_polygons",
    "C82_polygons_refuted",
    "C82_square_refuted",
    "C82_missing_refuted",
    "C82_beyond",
    "C82_faces_first_refuted",
    "C82_properties",
    "C82_elements",
    "C82_unfinished",
    "C82_lists",
    "C82_grid_refuted",
    "C82_types_refuted"
   ],
   "note": "The division of a file into lines and words is not modelled; the host is little-endian; whole numbers of binary files are not negative. Reading behind the end of the file is taken as undefined."
  },
  {
   "property": "C83",
   "status": "proved",
   "theorems": [
    "C83_triangles",
    "C83_general",
    "C83_order_refuted",
    "C83_square_refuted",
    "C83_beyond"
   ],
   "note": "Division of a file into lines and words (fgets, zSTokenSkim) and atof are outside the model, as is int overflow in atoi; every line fits into the buffer of BUFSIZ bytes. Memory allocation succeeds."
  },
  {
   "property": "C84",
   "status": "proved",
   "theorems": [
    "C84_text_round_trip",
    "C84_binary_round_trip",
    "C84_text",
    "C84_binary",
    "C84_binary_refuted",
    "C84_blank_refuted",
    "C84_zero_refuted",
    "C84_compressed_refuted",
    "C84_unknown",
    "C84_order",
    "C84_untyped",
    "C84_forever"
   ],
   "note": "The division of a file into lines and words, atof, the decompression and the code of floating-point numbers by bytes are parameters; numbers that are not finite are one value. Round trips of binary files are for points that eight bytes keep (doubles do). Memory allocation succeeds; a message about an unknown size is left out."
  },
  {
   "property": "C85",
   "status": "proved",
   "theorems": [
    "C85_inside",
    "C85_edge",
    "C85_corner",
    "C85_acute",
    "C85_obtuse_refuted"
   ],
   "note": "Degenerate triangles (negligible sides, tiny angles) make the function read values that are not written or divide by zero; the model has no result for them. Real arithmetic."
  },
  {
   "property": "C86",
   "status": "proved",
   "theorems": [
    "C86_lines",
    "C86_round_trip",
    "C86_again",
    "C86_height_refuted",
    "C86_travs_refuted",
    "C86_forgets",
    "C86_order_refuted",
    "C86_refused",
    "C86_section",
    "C86_type",
    "C86_accepted",
    "C86_net",
    "C86_net_refuted",
    "C86_net_empty"
   ],
   "note": "As for C80: the tokeniser, the key loop and the counting of tags of ZEDA are assumptions, numbers are reals (the code prints ten digits). Negative grid sizes and int overflow are left out; memory allocation succeeds."
  },
  {
   "property": "C87",
   "status": "proved",
   "theorems": [
    "C87_exact",
    "C87_stationary",
    "C87_plane",
    "C87_none"
   ],
   "note": "zLESolveErrorMin of ZM is a parameter with the least-squares property for systems of full rank; the maximum number of steps is a parameter. Real arithmetic; memory allocation succeeds."
  },
  {
   "property": "C88",
   "status": "proved",
   "theorems": [
    "C88_read",
    "C88_shown",
    "C88_placements",
    "C88_matrix",
    "C88_standard",
    "C88_matrix_iff",
    "C88_order_refuted",
    "C88_polygon_refuted",
    "C88_undefined",
    "C88_empty"
   ],
   "note": "The XML tree (libxml2) and its division of contents into words are given; zXMLFindNodeElement looks among siblings, zXMLCheckElementAndExec either passes a failure on or not (both cases are proved). Attribute names of an element are distinct, counts are not negative. Turns have a unit axis and an angle that is zero or not negligible. Memory allocation succeeds. C88_polygon_refuted is one document."
  },
  {
   "property": "C89",
   "status": "proved",
   "theorems": [
    "C89_dominant",
    "C89_stop",
    "C89_near",
    "C89_least",
    "C89_singular",
    "C89_start_refuted",
    "C89_opposite_refuted"
   ],
   "note": "For matrices with orthogonal eigenvectors (symmetric ones); the random start, the number of steps and the memory are parameters. C89_start_refuted and C89_opposite_refuted show that the documented largest eigenvalue is not always returned."
  },
  {
   "property": "C90",
   "status": "proved",
   "theorems": [
    "C90_round",
    "C90_points",
    "C90_read",
    "C90_few",
    "C90_early",
    "C90_beyond",
    "C90_missing",
    "C90_nosize_refuted",
    "C90_curve_refuted"
   ],
   "note": "zVecFromZTK and zVecFPrint belong to ZM and are parameters with the hypothesis that the one inverts the other. C90_nosize_refuted and C90_curve_refuted show what goes wrong."
  },
  {
   "property": "C91",
   "status": "proved",
   "theorems": [
    "C91_tetra",
    "C91_depth",
    "C91_found",
    "C91_ends",
    "C91_twice_refuted",
    "C91_false",
    "C91_point",
    "C91_inside",
    "C91_small"
   ],
   "note": "In C91_tetra, C91_depth and C91_found the hull is a parameter that is right on lists of distinct differences (specification right_hull); C91_point, C91_inside and C91_small use the modelled hull, which is proved right for points in general position, so for one point against a set (differences of two sets with two points each always have four in a plane). Starts from an edge or a triangle are covered by C91_depth if the points collected are distinct and surround the origin; with an edge the code can collect a point twice. Left out: a hull without faces or with a face that is one point."
  },
  {
   "property": "C92",
   "status": "proved",
   "theorems": [
    "C92_depth",
    "C92_portal",
    "C92_answer",
    "C92_more",
    "C92_least_refuted"
   ],
   "note": "Results are those of runs that end without a division by zero: a portal that touches the origin gives dir by 0/0 in the code and is outside the statements. The number of rounds of the first two loops, which have no bound in the code, is a fuel argument; that they always end is not claimed. That the weights of pos are not negative is not claimed."
  },
  {
   "property": "C93",
   "status": "proved",
   "theorems": [
    "C93_lifo",
    "C93_empty",
    "C93_contents",
    "C93_left",
    "C93_closest",
    "C93_array",
    "C93_contig",
    "C93_contig_undefined"
   ],
   "note": "A pointer to a shape is its shape; memory allocation succeeds; freeing cells and printing are left out."
  }
 ]
}