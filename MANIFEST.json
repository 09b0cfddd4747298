{
 "claims": [
  {
   "property": "C01",
   "status": "proved",
   "theorems": [
    "C01_rdf_round_trip",
    "C01_rdf_any_file"
   ],
   "note": "std::stod is an arbitrary function; identifiers are int, hence at most 2^31 triangles"
  },
  {
   "property": "C02",
   "status": "proved",
   "theorems": [
    "C02_obj_round_trip"
   ],
   "note": "as C01"
  },
  {
   "property": "C03",
   "status": "proved",
   "theorems": [
    "C03_success_well_formed",
    "C03_success_meaning",
    "C03_malformed_rejected"
   ],
   "note": "data_lines is the independent reading of the sections"
  },
  {
   "property": "C04",
   "status": "proved",
   "theorems": [
    "C04_loaded_friction",
    "C04_bad_element_rejected",
    "C04_bad_face_rejected",
    "C04_index_reading"
   ],
   "note": ""
  },
  {
   "property": "C05",
   "status": "partial",
   "theorems": [
    "C05_index_safety_refuted",
    "C05_undefined_exactly",
    "C05_obj_undefined_exactly",
    "C05_least_index_refuted"
   ],
   "note": "false of the code: refuted by concrete files; C05_undefined_exactly (RDF) and C05_obj_undefined_exactly (OBJ) give the exact condition"
  },
  {
   "property": "C06",
   "status": "partial",
   "theorems": [
    "C06_blank_lines_refuted",
    "C06_blank_line_in_section_throws",
    "C06_rdf_ignored_lines",
    "C06_obj_ignored_lines"
   ],
   "note": "false of the code inside sections: refuted; the lines that really may be inserted are characterised"
  },
  {
   "property": "C07",
   "status": "partial",
   "theorems": [
    "C07_all_or_nothing_refuted",
    "C07_second_load_never_succeeds",
    "C07_failed_load_keeps_answers"
   ],
   "note": "false of the code: refuted (size changes, a second load never succeeds); true part: failed loads do not change answers"
  },
  {
   "property": "C08",
   "status": "proved",
   "theorems": [
    "C08_ids_are_positions"
   ],
   "note": ""
  },
  {
   "property": "C09",
   "status": "proved",
   "theorems": [
    "C09_tree_build"
   ],
   "note": ""
  },
  {
   "property": "C10",
   "status": "proved",
   "theorems": [
    "C10_query_exact"
   ],
   "note": ""
  },
  {
   "property": "C11",
   "status": "proved",
   "theorems": [
    "C11_query_order_independent"
   ],
   "note": ""
  },
  {
   "property": "C12",
   "status": "proved",
   "theorems": [
    "C12_pairs_exact"
   ],
   "note": ""
  },
  {
   "property": "C13",
   "status": "proved",
   "theorems": [
    "C13_collision_exact"
   ],
   "note": ""
  },
  {
   "property": "C14",
   "status": "partial",
   "theorems": [
    "C14_nan_hides_refuted",
    "C14_nan_first_hides_everything"
   ],
   "note": "false of the code: refuted"
  },
  {
   "property": "C15",
   "status": "partial",
   "theorems": [
    "C15_history_refuted",
    "C15_load_histories",
    "C15_empty_tree_undefined"
   ],
   "note": "false of the code for default construction, copy and clear: refuted; proved for all load histories"
  },
  {
   "property": "C16",
   "status": "partial",
   "theorems": [
    "C16_vector_ids_refuted",
    "C16_vector_with_position_ids"
   ],
   "note": "false of the code when ids differ from positions: refuted; proved when they agree"
  },
  {
   "property": "C17",
   "status": "proved",
   "theorems": [
    "C17_triangle_in_bbox",
    "C17_triangle_bbox"
   ],
   "note": "any arithmetic for the queries; exact arithmetic for the containment of the triangle in its box"
  },
  {
   "property": "C18",
   "status": "proved",
   "theorems": [
    "C18_normal",
    "C18_vertex_order"
   ],
   "note": "exact arithmetic, non-degenerate triangles"
  },
  {
   "property": "C19",
   "status": "proved",
   "theorems": [
    "C19_throws_exactly",
    "C19_stored"
   ],
   "note": ""
  },
  {
   "property": "C20",
   "status": "partial",
   "theorems": [
    "C20_flat_copy",
    "C20_rib_copy_refuted",
    "C20_triangle_copy_refuted",
    "C20_copies"
   ],
   "note": "false of the code: rib::copy keeps the old y, triangleground::copy keeps the old id (refuted); everything else is copied"
  },
  {
   "property": "C21",
   "status": "proved",
   "theorems": [
    "C21_throws_exactly",
    "C21_on_hyperellipse",
    "C21_even",
    "C21_non_increasing"
   ],
   "note": "exact arithmetic"
  },
  {
   "property": "C22",
   "status": "proved",
   "theorems": [
    "C22_derivative",
    "C22_odd",
    "C22_near_zero"
   ],
   "note": "exact arithmetic"
  },
  {
   "property": "C23",
   "status": "partial",
   "theorems": [
    "C23_angle",
    "C23_angle_refuted"
   ],
   "note": "false of the code at the edge of a full ellipse, where the slope is infinite: refuted; proved inside"
  },
  {
   "property": "C24",
   "status": "proved",
   "theorems": [
    "C24_slices",
    "C24_resize",
    "C24_tiling"
   ],
   "note": "exact arithmetic"
  },
  {
   "property": "C25",
   "status": "proved",
   "theorems": [
    "C25_never_throws",
    "C25_radii",
    "C25_ribs_good"
   ],
   "note": "exact arithmetic"
  },
  {
   "property": "C26",
   "status": "proved",
   "theorems": [
    "C26_resize_zero_throws",
    "C26_resize_history_independent",
    "C26_resize_defined"
   ],
   "note": ""
  },
  {
   "property": "C27",
   "status": "proved",
   "theorems": [
    "C27_moves_keep_rigid",
    "C27_axis_must_be_unit"
   ],
   "note": "exact arithmetic; the unit axis is necessary"
  },
  {
   "property": "C28",
   "status": "partial",
   "theorems": [
    "C28_determinant_only_refuted",
    "C28_transform_unchecked_refuted",
    "C28_volume_test",
    "C28_rigid_accepted",
    "C28_mirror_rejected",
    "C28_matrix_test",
    "C28_matrix_of_pose",
    "C28_last_row_refuted"
   ],
   "note": "false of the code: only the determinant is tested, the last row of a 4x4 matrix is not looked at, and transform ignores the test (refuted); what both overloads decide is proved"
  },
  {
   "property": "C29",
   "status": "partial",
   "theorems": [
    "C29_inside_the_sphere",
    "C29_outside_the_sphere",
    "C29_round_shapes",
    "C29_box_refuted"
   ],
   "note": "false of the code for wide shells: refuted, with a sharp criterion"
  },
  {
   "property": "C30",
   "status": "proved",
   "theorems": [
    "C30_candidates_exact"
   ],
   "note": "exact arithmetic"
  },
  {
   "property": "C31",
   "status": "proved",
   "theorems": [
    "C31_nothing_lost",
    "C31_nothing_lost_round"
   ],
   "note": "exact arithmetic after a successful load"
  },
  {
   "property": "C32",
   "status": "proved",
   "theorems": [
    "C32_mesh_setup_history_independent",
    "C32_flat_setup_history_independent"
   ],
   "note": "reachable: construction, successful resizes, pose changes, any setup; a resize that throws is excluded"
  },
  {
   "property": "C33",
   "status": "proved",
   "theorems": [
    "C33_mesh_setup_reports"
   ],
   "note": ""
  },
  {
   "property": "C34",
   "status": "partial",
   "theorems": [
    "C34_flat_setup_refuted",
    "C34_flat_setup_reports_last",
    "C34_flat_setup_stores_every_rib"
   ],
   "note": "false of the code: refuted; the flag is exactly that of the last rib"
  },
  {
   "property": "C35",
   "status": "proved",
   "theorems": [
    "C35_no_contact_totals",
    "C35_no_contact_mesh",
    "C35_no_contact_flat",
    "C35_no_contact_setup"
   ],
   "note": ""
  },
  {
   "property": "C36",
   "status": "proved",
   "theorems": [
    "C36_method_validated",
    "C36_flat_setup_validates",
    "C36_mesh_setup_in_range_validates"
   ],
   "note": ""
  },
  {
   "property": "C37",
   "status": "partial",
   "theorems": [
    "C37_method_refuted"
   ],
   "note": "false of the code out of range of the mesh: refuted; in range and for flat grounds see C36"
  },
  {
   "property": "C38",
   "status": "proved",
   "theorems": [
    "C38_contact_point"
   ],
   "note": "exact arithmetic; the contact normal turns out to be the ground normal"
  },
  {
   "property": "C39",
   "status": "proved",
   "theorems": [
    "C39_detection",
    "C39_no_false_contact",
    "C39_chord"
   ],
   "note": "exact arithmetic, thresholds explicit"
  },
  {
   "property": "C40",
   "status": "proved",
   "theorems": [
    "C40_area",
    "C40_volume",
    "C40_reported_flat",
    "C40_reported_sampling"
   ],
   "note": "exact arithmetic"
  },
  {
   "property": "C41",
   "status": "partial",
   "theorems": [
    "C41_lowering",
    "C41_lowering_refuted"
   ],
   "note": "false of the code once the wheel center is below the ground: refuted; proved above it"
  },
  {
   "property": "C42",
   "status": "proved",
   "theorems": [
    "C42_sampling_friction",
    "C42_geometric_friction"
   ],
   "note": "geometric method: any arithmetic; sampling method: exact arithmetic"
  },
  {
   "property": "C43",
   "status": "proved",
   "theorems": [
    "C43_sampling_flat",
    "C43_normal_side"
   ],
   "note": "exact arithmetic"
  },
  {
   "property": "C44",
   "status": "proved",
   "theorems": [
    "C44_highest_hit",
    "C44_fails_iff_no_hit"
   ],
   "note": ""
  },
  {
   "property": "C45",
   "status": "proved",
   "theorems": [
    "C45_hit_sound",
    "C45_hit_complete"
   ],
   "note": "exact arithmetic, with the tolerance of the code made explicit"
  },
  {
   "property": "C46",
   "status": "proved",
   "theorems": [
    "C46_bounds"
   ],
   "note": "exact arithmetic, any pose including NaN and infinities"
  },
  {
   "property": "C47",
   "status": "proved",
   "theorems": [
    "C47_no_uninitialised_data"
   ],
   "note": ""
  },
  {
   "property": "C48",
   "status": "proved",
   "theorems": [
    "C48_mesh_output_bounds"
   ],
   "note": "exact arithmetic, positive volume; see C50 for volume 0"
  },
  {
   "property": "C49",
   "status": "partial",
   "theorems": [
    "C49_order_refuted",
    "C49_order_clean_cuts"
   ],
   "note": "false of the code: a cut shorter than the tolerance ends the scan (refuted); proved when every triangle is missed or cut cleanly"
  },
  {
   "property": "C50",
   "status": "partial",
   "theorems": [
    "C50_finite_refuted",
    "C50_finite_or_no_volume"
   ],
   "note": "false of the code: contact with NaN data on radial cuts (refuted); otherwise all data are finite"
  },
  {
   "property": "C51",
   "status": "partial",
   "theorems": [
    "C51_plane_plane",
    "C51_parallel",
    "C51_plane_plane_refuted"
   ],
   "note": "false of the code for planes that are nearly parallel: refuted; exact when the squared sine reaches the tolerance"
  },
  {
   "property": "C52",
   "status": "partial",
   "theorems": [
    "C52_chord",
    "C52_miss",
    "C52_tangent",
    "C52_chord_refuted"
   ],
   "note": "false of the code near tangency: refuted; exact when the squared half chord exceeds the tolerance"
  },
  {
   "property": "C53",
   "status": "partial",
   "theorems": [
    "C53_part_of_segment",
    "C53_clip",
    "C53_tangent",
    "C53_clip_refuted"
   ],
   "note": "false of the code for short segments: refuted; exact above the tolerance"
  },
  {
   "property": "C54",
   "status": "partial",
   "theorems": [
    "C54_triangle_disk",
    "C54_in_disk_refuted",
    "C54_plane_cut_exact",
    "C54_disk_cut_exact"
   ],
   "note": "a tiny triangle far from the disk can be reported (refuted in binary64); away from the tolerances the reported segment is exactly the set of common points (exact arithmetic)"
  },
  {
   "property": "C55",
   "status": "proved",
   "theorems": [
    "C55_volume_is_sum",
    "C55_friction_between",
    "C55_depth_between",
    "C55_point_in_hull",
    "C55_normal_side",
    "C55_flat_setup_data"
   ],
   "note": "exact arithmetic; for the area total see C56 and for the depth of a weightless contact see C57"
  },
  {
   "property": "C56",
   "status": "partial",
   "theorems": [
    "C56_total_area_refuted",
    "C56_total_area_is_friction_sum"
   ],
   "note": "false of the code: refuted; it returns the sum of the frictions"
  },
  {
   "property": "C57",
   "status": "partial",
   "theorems": [
    "C57_total_depth_refuted",
    "C57_total_depth_value"
   ],
   "note": "false of the code: refuted; exact value given"
  },
  {
   "property": "C58",
   "status": "proved",
   "theorems": [
    "C58_accessors_agree",
    "C58_vectors_defined"
   ],
   "note": ""
  },
  {
   "property": "C59",
   "status": "proved",
   "theorems": [
    "C59_rib_frame",
    "C59_total_frame"
   ],
   "note": "exact arithmetic"
  },
  {
   "property": "C60",
   "status": "partial",
   "theorems": [
    "C60_contact_storage_refuted"
   ],
   "note": "false of the code: the vector stays empty for every reachable shell; the model treats the reserved storage as memory"
  },
  {
   "property": "C61",
   "status": "partial",
   "theorems": [
    "C61_room_refuted",
    "C61_every_large_shell_overflows",
    "C61_room_up_to_200",
    "C61_data_after_setup"
   ],
   "note": "false of the code above 200 ribs: refuted for every valid shape; proved up to 200"
  },
  {
   "property": "C62",
   "status": "partial",
   "theorems": [
    "C62_short_vectors_refuted",
    "C62_frames_filled",
    "C62_angles_filled"
   ],
   "note": "false of the code for short vectors: undefined behaviour; proved for vectors long enough"
  },
  {
   "property": "C63",
   "status": "proved",
   "theorems": [
    "C63_bus"
   ],
   "note": ""
  },
  {
   "property": "C64",
   "status": "proved",
   "theorems": [
    "C64_fallback",
    "C64_flat_selected",
    "C64_invalid_inputs_throw"
   ],
   "note": ""
  },
  {
   "property": "C65",
   "status": "proved",
   "theorems": [
    "C65_arrays_are_column_major",
    "C65_decode_inverts",
    "C65_encode_inverts"
   ],
   "note": "the last row of the hub matrix is not read"
  },
  {
   "property": "C66",
   "status": "partial",
   "theorems": [
    "C66_mesh_matches_flat",
    "C66_mesh_equals_flat",
    "C66_wall_behind_refuted"
   ],
   "note": "exact arithmetic; false of the code for a chord that straddles the backward direction of the wheel (refuted)"
  },
  {
   "property": "C67",
   "status": "partial",
   "theorems": [
    "C67_euler_angles",
    "C67_relative_angles",
    "C67_rounded_yaw_refuted"
   ],
   "note": "exact arithmetic; with rounding the yaw jumps to pi (refuted in binary64)"
  },
  {
   "property": "C68",
   "status": "partial",
   "theorems": [
    "C68_rib_angles",
    "C68_rib_attitude",
    "C68_rib_attitude_refuted"
   ],
   "note": "false of the code: the inclination of the rib is subtracted from the angle about the normal (refuted); the values are proved"
  },
  {
   "property": "C69",
   "status": "partial",
   "theorems": [
    "C69_flat_returns",
    "C69_sampling_returns",
    "C69_geometric_returns",
    "C69_geometric_refuted"
   ],
   "note": "false of the code for the geometric method when a rib plane runs within the tolerance of a vertex (refuted in binary64); the rest is proved"
  },
  {
   "property": "C70",
   "status": "proved",
   "theorems": [
    "C70_box_from_corners",
    "C70_order_check"
   ],
   "note": "any totally ordered arithmetic"
  },
  {
   "property": "C71",
   "status": "proved",
   "theorems": [
    "C71_common_part"
   ],
   "note": "any totally ordered arithmetic"
  },
  {
   "property": "C72",
   "status": "partial",
   "theorems": [
    "C72_distance_to_box",
    "C72_farthest_distance",
    "C72_distance_refuted",
    "C72_flat_box_nan"
   ],
   "note": "exact arithmetic; false of the code for flat boxes (NaN, refuted)"
  },
  {
   "property": "C73",
   "status": "partial",
   "theorems": [
    "C73_disk_refuted",
    "C73_disk_exchanged",
    "C73_ball",
    "C73_segment",
    "C73_triangle_perimeter",
    "C73_triangle_area"
   ],
   "note": "false of the code: disk area and perimeter are exchanged (refuted); the others are proved"
  },
  {
   "property": "C76",
   "status": "proved",
   "theorems": [
    "C76_three_planes"
   ],
   "note": "exact arithmetic"
  },
  {
   "property": "C77",
   "status": "partial",
   "theorems": [
    "C77_line_ball",
    "C77_ray_ball",
    "C77_segment_ball_refuted",
    "C77_unit_segment_ball"
   ],
   "note": "exact arithmetic; false of the code for segments unless their length is one (refuted)"
  },
  {
   "property": "C78",
   "status": "proved",
   "theorems": [
    "C78_plane_ball"
   ],
   "note": "exact arithmetic, every plane and ball"
  },
  {
   "property": "C79",
   "status": "partial",
   "theorems": [
    "C79_ray_plane",
    "C79_ray_from_plane_refuted",
    "C79_plane_segment"
   ],
   "note": "exact arithmetic; false of the code for a ray starting on the plane (refuted)"
  },
  {
   "property": "C80",
   "status": "proved",
   "theorems": [
    "C80_ray_triangle",
    "C80_segment_triangle",
    "C80_line_disk",
    "C80_ray_disk",
    "C80_segment_disk"
   ],
   "note": "exact arithmetic"
  },
  {
   "property": "C81",
   "status": "partial",
   "theorems": [
    "C81_line_line",
    "C81_ray_ray",
    "C81_line_ray",
    "C81_ray_segment",
    "C81_segment_segment",
    "C81_skew_refuted"
   ],
   "note": "exact arithmetic; false of the code for skew pairs, where the closest point is returned (refuted)"
  },
  {
   "property": "C74",
   "status": "partial",
   "theorems": [
    "C74_transform_rigid",
    "C74_transform_straight",
    "C74_translate",
    "C74_rotate",
    "C74_transform_refuted"
   ],
   "note": "exact arithmetic; false of the code for planes and disks under maps that are not rigid (refuted)"
  },
  {
   "property": "C75",
   "status": "partial",
   "theorems": [
    "C75_encloses",
    "C75_smallest",
    "C75_disk",
    "C75_unbounded",
    "C75_flag",
    "C75_disk_refuted"
   ],
   "note": "exact arithmetic; false of the code for disks, whose box is the one of a ball (refuted)"
  },
  {
   "property": "C82",
   "status": "partial",
   "theorems": [
    "C82_parallel",
    "C82_orthogonal",
    "C82_line_plane",
    "C82_line_plane_refuted",
    "C82_collinear",
    "C82_on_one_line",
    "C82_rays",
    "C82_rays_refuted",
    "C82_coplanar",
    "C82_in_one_plane",
    "C82_vector",
    "C82_vector_as_line"
   ],
   "note": "exact arithmetic; false of the code for the orthogonality of a line and a plane and for the collinearity of two rays (refuted)"
  },
  {
   "property": "C83",
   "status": "partial",
   "theorems": [
    "C83_undefined",
    "C83_plane_disk_refuted",
    "C83_order",
    "C83_answers",
    "C83_no_answer",
    "C83_exceptions",
    "C83_dimension",
    "C83_plane_triangle_refuted",
    "C83_coplanar_triangles",
    "C83_coplanar_unsupported"
   ],
   "note": "any arithmetic; false of the code for (plane, disk), undefined, and (plane, triangle), order dependent (refuted); the other pairs are proved"
  },
  {
   "property": "C84",
   "status": "partial",
   "theorems": [
    "C84_common_points",
    "C84_apart_rays",
    "C84_apart_rays_refuted",
    "C84_oblique_rays_refuted"
   ],
   "note": "exact arithmetic; false of the code for rays (refuted); the rest is proved"
  },
  {
   "property": "C85",
   "status": "partial",
   "theorems": [
    "C85_is",
    "C85_contain",
    "C85_contain_refuted",
    "C85_are",
    "C85_are_refuted",
    "C85_count",
    "C85_count_refuted",
    "C85_odd_methods",
    "C85_counts",
    "C85_number_unique",
    "C85_remove_kind",
    "C85_without_unique",
    "C85_remove_then_count_refuted",
    "C85_map",
    "C85_null_entity",
    "C85_remove",
    "C85_remove_refuted",
    "C85_boxes",
    "C85_boxes_exist",
    "C85_candidates",
    "C85_candidates_complete"
   ],
   "note": "any arithmetic for the queries by kind, exact arithmetic for the candidates; false of the code for remove, areSegment, containDegenerated and countNonClampable (refuted)"
  },
  {
   "property": "C86",
   "status": "proved",
   "theorems": [
    "C86_same_points",
    "C86_ray_halves"
   ],
   "note": "exact arithmetic"
  },
  {
   "property": "C87",
   "status": "partial",
   "theorems": [
    "C87_flat_geometric",
    "C87_flat_sampling",
    "C87_mesh_sampling",
    "C87_mesh_geometric",
    "C87_setup",
    "C87_mesh_geometric_refuted"
   ],
   "note": "exact arithmetic; false of the code for the geometric method on triangles with a vertex within the tolerance of the rib plane (refuted in binary64)"
  },
  {
   "property": "C88",
   "status": "partial",
   "theorems": [
    "C88_flat_geometric",
    "C88_mesh_geometric",
    "C88_mesh_geometric_refuted",
    "C88_sampling_refuted"
   ],
   "note": "exact arithmetic; proved for the geometric method on a plane and for triangles cut below the axle in both poses; false of the code otherwise (refuted)"
  },
  {
   "property": "C89",
   "status": "partial",
   "theorems": [
    "C89_wrong_class_rejected",
    "C89_not_a_handle_rejected",
    "C89_wrong_second_rejected",
    "C89_stale_rejected_refuted"
   ],
   "note": "any arithmetic; false of the code for deleted handles, which are undefined behaviour (refuted); the rest is proved"
  },
  {
   "property": "C90",
   "status": "partial",
   "theorems": [
    "C90_isolation",
    "C90_reading",
    "C90_errors",
    "C90_resize_empties",
    "C90_all_errors_refuted"
   ],
   "note": "any arithmetic; isolation and queries proved; false of the code for errors of resize (refuted); errors of other commands than the five listed keep every object"
  },
  {
   "property": "C91",
   "status": "proved",
   "theorems": [
    "C91_new_shell",
    "C91_new_shell_refused",
    "C91_new_flat",
    "C91_new_triangle",
    "C91_delete",
    "C91_round_trip",
    "C91_distinct"
   ],
   "note": "any arithmetic"
  },
  {
   "property": "C92",
   "status": "partial",
   "theorems": [
    "C92_total",
    "C92_locked",
    "C92_triangle_locked_refuted",
    "C92_unlocked_refuted"
   ],
   "note": "any arithmetic; false of the code per file (refuted); total and lower bound proved"
  },
  {
   "property": "C93",
   "status": "partial",
   "theorems": [
    "C93_transform_read_back",
    "C93_rotation_refuted",
    "C93_translate",
    "C93_setup_flat",
    "C93_setup_mesh"
   ],
   "note": "any arithmetic; transformation is read back for a last row of 0 0 0 1, rotation in terms of the rotation factor found by Eigen (not modelled, an arbitrary function); false of the code for rotation, which is transposed (refuted); the rest is proved"
  },
  {
   "property": "C94",
   "status": "partial",
   "theorems": [
    "C94_translate_shapes",
    "C94_transform_shapes",
    "C94_vectors_checked_refuted",
    "C94_poses_checked_refuted"
   ],
   "note": "any arithmetic; false of the code (refuted); the exact behaviour for every shape is proved"
  },
  {
   "property": "C95",
   "status": "partial",
   "theorems": [
    "C95_resize",
    "C95_size",
    "C95_truncation",
    "C95_int8",
    "C95_all_sizes_refuted",
    "C95_not_scalar"
   ],
   "note": "any arithmetic; false of the code for values above int and for int8 (refuted)"
  },
  {
   "property": "C96",
   "status": "partial",
   "theorems": [
    "C96_unknown",
    "C96_check_refuted",
    "C96_load_refuted",
    "C96_load_loads",
    "C96_flat_new_refuted",
    "C96_missing_refuted",
    "C96_others_succeed",
    "C96_load_others"
   ],
   "note": "any arithmetic (exact for flat new); false of the code for checkTransformation, load, flat new without arguments and four commands the MATLAB classes call (refuted); the others succeed in a binary64 session"
  },
  {
   "property": "C97",
   "status": "partial",
   "theorems": [
    "C97_points_stay",
    "C97_new_objects_returned",
    "C97_losing_calls",
    "C97_all_freed_refuted"
   ],
   "note": "any arithmetic; false of the code (refuted); which calls lose objects is proved"
  },
  {
   "property": "C98",
   "status": "partial",
   "theorems": [
    "C98_flats_sound",
    "C98_setters_refuted"
   ],
   "note": "exact arithmetic; false of the code for setNormal and setFriction (refuted); proved for sessions without them"
  },
  {
   "property": "C99",
   "status": "partial",
   "theorems": [
    "C99_ribs",
    "C99_contacts",
    "C99_averages",
    "C99_triangles",
    "C99_vertices",
    "C99_triangle_fields",
    "C99_rib_range_refuted",
    "C99_triangle_range_refuted",
    "C99_triangle_id_refuted"
   ],
   "note": "any arithmetic; false of the code for indices out of range and for the id of a triangle (refuted); the rest is proved"
  },
  {
   "property": "C100",
   "status": "proved",
   "theorems": [
    "C100_contact",
    "C100_no_contact",
    "C100_friction_range"
   ],
   "note": "exact arithmetic; hits within the tolerance of a triangle count, triangles seen edge-on are ignored (as in the statement of roof)"
  },
  {
   "property": "C101",
   "status": "partial",
   "theorems": [
    "C101_candidates",
    "C101_nearest_kept",
    "C101_within_distance",
    "C101_least_farthest",
    "C101_flat_never",
    "C101_nearest_refuted",
    "C101_empty_refuted"
   ],
   "note": "exact arithmetic; proved for boxes with extent along every axis; false of the code for flat boxes, whose distance is NaN, and undefined for the empty tree (refuted)"
  },
  {
   "property": "C102",
   "status": "partial",
   "theorems": [
    "C102_profile_area_volume",
    "C102_split_invariant",
    "C102_point_in_hull",
    "C102_depth_below_flat",
    "C102_triangulation_refuted"
   ],
   "note": "exact arithmetic; area, volume, friction and flag proved independent of the triangulation; false of the code for contact point and depth (refuted); segments shorter than the tolerance or not below the axle are excluded (see C49, C66)"
  },
  {
   "property": "C103",
   "status": "partial",
   "theorems": [
    "C103_boxes",
    "C103_one_box",
    "C103_boxes_complete",
    "C103_no_boxes_refuted",
    "C103_intersections",
    "C103_intersections_return",
    "C103_intersections_refuted"
   ],
   "note": "exact arithmetic for boxes, any arithmetic for the list of intersections; false of the code for an empty list of boxes and for collections with a ball or none (refuted)"
  },
  {
   "property": "C104",
   "status": "partial",
   "theorems": [
    "C104_move_counts",
    "C104_move_once",
    "C104_move_frame",
    "C104_move_refuted",
    "C104_move_null",
    "C104_candidates",
    "C104_query",
    "C104_query_boxes",
    "C104_query_this",
    "C104_query_other_refuted",
    "C104_intersections",
    "C104_intersections_this",
    "C104_copy",
    "C104_copy_frame",
    "C104_edit",
    "C104_copy_refuted",
    "C104_moved_from",
    "C104_stale_refuted"
   ],
   "note": "any arithmetic (exact for the candidates after building); false of the code for entities listed twice, for copies, for results stored in an argument and for trees not rebuilt (refuted); reference counts not modelled"
  },
  {
   "property": "C105",
   "status": "proved",
   "theorems": [
    "C105_sound_calls",
    "C105_objects_live",
    "C105_distinct",
    "C105_delete",
    "C105_session",
    "C105_total"
   ],
   "note": "any arithmetic and allocator; ACME classes that take over a handle are assumed to copy its object and to leave the handle; an object passed where an array is expected reaches the gateway as an array of no known class"
  },
  {
   "property": "C106",
   "status": "partial",
   "theorems": [
    "C106_shell",
    "C106_per_rib",
    "C106_transform",
    "C106_setup_flat",
    "C106_setup_mesh",
    "C106_setup_wrong",
    "C106_flat",
    "C106_triangle",
    "C106_mesh",
    "C106_dead_refuted",
    "C106_flat_copy_refuted",
    "C106_flat_new_refuted",
    "C106_triangle_number_refuted",
    "C106_forwarded",
    "C106_arity",
    "C106_type",
    "C106_flat_shows",
    "C106_triangle_shows"
   ],
   "note": "any arithmetic (exact for enve_flat()); false of the code for surfaceWidthBound, setVertex1-3, copy of a flat ground, enve_flat() and the number of a triangle (refuted); the rest is proved"
  },
  {
   "property": "C107",
   "status": "partial",
   "theorems": [
    "C107_accounting",
    "C107_all_freed_refuted",
    "C107_clean"
   ],
   "note": "any arithmetic; false of the code (refuted); the exact number of objects left is proved"
  },
  {
   "property": "C108",
   "status": "partial",
   "theorems": [
    "C108_refused",
    "C108_rdf",
    "C108_rdf_pose",
    "C108_obj",
    "C108_obj_pose",
    "C108_loaded_refuted",
    "C108_pose_checked_refuted"
   ],
   "note": "any arithmetic; false of the code for OBJ files without a coefficient, OBJ poses that are not 4x4, and RDF poses with fewer than 16 entries (refuted); the exact behaviour is proved"
  },
  {
   "property": "C109",
   "status": "proved",
   "theorems": [
    "C109_shape",
    "C109_surface",
    "C109_rotate",
    "C109_flat_setters",
    "C109_flat_getters",
    "C109_mesh",
    "C109_triangle"
   ],
   "note": "any arithmetic"
  },
  {
   "property": "C110",
   "status": "partial",
   "theorems": [
    "C110_points",
    "C110_entities",
    "C110_grounds",
    "C110_reflexive_symmetric",
    "C110_origin_refuted",
    "C110_moved_refuted",
    "C110_zero_tolerance_refuted",
    "C110_ground_tolerance_refuted",
    "C110_rib_number_refuted"
   ],
   "note": "exact arithmetic; false of the code: agreement of points is relative to the world origin, disks and balls differ from themselves for a null tolerance, grounds ignore the tolerance for their geometry, rib numbers are compared as measures (refuted); the exact test is proved for every class"
  },
  {
   "property": "C111",
   "status": "partial",
   "theorems": [
    "C111_thin",
    "C111_one_point",
    "C111_flat_triangle_refuted",
    "C111_box",
    "C111_box_refuted"
   ],
   "note": "exact arithmetic; false of the code for triangles without area and for boxes (refuted); the exact condition is proved for every kind"
  },
  {
   "property": "C112",
   "status": "partial",
   "theorems": [
    "C112_exact",
    "C112_complete",
    "C112_near",
    "C112_segment_near",
    "C112_segment_refuted",
    "C112_line_refuted",
    "C112_flat_triangle_refuted"
   ],
   "note": "exact arithmetic, unit directions and normals; false of the code for lines, rays, segments and triangles without area (refuted); what is accepted is proved for every kind"
  },
  {
   "property": "C113",
   "status": "partial",
   "theorems": [
    "C113_angle",
    "C113_angle_null",
    "C113_angle_rounded_refuted",
    "C113_plane",
    "C113_box"
   ],
   "note": "exact arithmetic; in double precision the argument of acos can exceed 1 (refuted)"
  },
  {
   "property": "C114",
   "status": "partial",
   "theorems": [
    "C114_started",
    "C114_started_rdf",
    "C114_failed_start",
    "C114_session",
    "C114_start_anywhere",
    "C114_output",
    "C114_not_started",
    "C114_in_force",
    "C114_never_freed",
    "C114_failed_start_leaks",
    "C114_two_blocks_refuted"
   ],
   "note": "any arithmetic; false of the code for two blocks in one process, which share the objects of the last initialisation (refuted), and for the freeing of the objects (C114_never_freed states what holds)"
  },
  {
   "property": "C115",
   "status": "partial",
   "theorems": [
    "C115_mesh",
    "C115_mesh_on_tread",
    "C115_shape",
    "C115_shape_on_tread",
    "C115_shape_static",
    "C115_profile",
    "C115_ribs",
    "C115_ribs_static",
    "C115_bands",
    "C115_bands_static",
    "C115_band_of_rib_refuted",
    "C115_frames"
   ],
   "note": "exact arithmetic; MATLAB's colon and cylinder after their documentation; false of the code for the place of the band drawn for a given rib (refuted); the figure as a whole is proved right"
  },
  {
   "property": "C116",
   "status": "partial",
   "theorems": [
    "C116_shape",
    "C116_flat",
    "C116_triangle",
    "C116_title_refuted",
    "C116_mesh",
    "C116_mesh_file",
    "C116_tree",
    "C116_entities",
    "C116_shell_returns",
    "C116_shell",
    "C116_angle_names_refuted"
   ],
   "note": "any arithmetic (exact for the refutation of the angle names); false of the code for the title of a plane and for the names of the relative angles (refuted); digits, brackets and line ends are left out"
  },
  {
   "property": "C117",
   "status": "partial",
   "theorems": [
    "C117_vertex",
    "C117_segment",
    "C117_edge",
    "C117_ground_vertex",
    "C117_vertex_refuted",
    "C117_swap",
    "C117_kept",
    "C117_points",
    "C117_defined",
    "C117_shifted",
    "C117_shifted_back",
    "C117_turned_refuted",
    "C117_query",
    "C117_query_refuted",
    "C117_clear"
   ],
   "note": "any arithmetic for indices, what is kept and queries, exact for the rest; false of the code for negative indices, the normal of a turned triangle and the box of a moved one (refuted); the exact condition for the box under shifts is proved"
  },
  {
   "property": "C118",
   "status": "partial",
   "theorems": [
    "C118_geometric",
    "C118_sampling",
    "C118_sampling_depth",
    "C118_geometric_depth",
    "C118_area_volume",
    "C118_total_volume",
    "C118_continuous_refuted",
    "C118_methods",
    "C118_sampling_turned",
    "C118_geometric_turned",
    "C118_total_turned",
    "C118_turned_refuted"
   ],
   "note": "exact arithmetic, any two rigid poses; false of the code for the geometric method at the onset of contact, where area and depth jump (refuted; the size of the jump is bounded in C118_geometric_depth and C118_geometric_turned), and for the sampling method at a quarter turn of the wheel, where contact is lost (refuted)"
  },
  {
   "property": "C119",
   "status": "proved",
   "theorems": [
    "C119_contact",
    "C119_same",
    "C119_cut",
    "C119_wheel_contact",
    "C119_wheel_same",
    "C119_level"
   ],
   "note": "exact arithmetic; ground not within the tolerance of vertical; triangles whose horizontal projection is below the tolerance do not count as ground"
  },
  {
   "property": "C120",
   "status": "partial",
   "theorems": [
    "C120_sampling_flat",
    "C120_sampling_triangles",
    "C120_geometric_flat",
    "C120_far_refuted"
   ],
   "note": "IEEE binary64 with rounding; radius and width at most 2^300; operations in the order written, without fused multiply-add; false of the code for the geometric method far from the origin (refuted); geometric method on triangles not covered"
  },
  {
   "property": "C121",
   "status": "partial",
   "theorems": [
    "C121_triangles",
    "C121_uniform",
    "C121_flat",
    "C121_geometric_refuted"
   ],
   "note": "IEEE binary64 with rounding; frictions at most 2^1000 in magnitude; false of the code for the geometric method on triangles (refuted)"
  },
  {
   "property": "C122",
   "status": "proved",
   "theorems": [
    "C122_places",
    "C122_construction"
   ],
   "note": "IEEE binary64 with rounding; half widths from 2^-300 to 2^300 and at most 2^20 ribs; operations in the order written"
  },
  {
   "property": "C123",
   "status": "proved",
   "theorems": [
    "C123_range",
    "C123_falls",
    "C123_even",
    "C123_ribs"
   ],
   "note": "IEEE binary64 with rounding; measures from 2^-300 to 2^300, half width at most Ry, a pow that keeps [0,1] (and is monotone there for C123_falls)"
  },
  {
   "property": "C124",
   "status": "partial",
   "theorems": [
    "C124_friction",
    "C124_depth",
    "C124_volume",
    "C124_friction_refuted"
   ],
   "note": "IEEE binary64 with rounding; volumes and figures of the ribs from 0 to 2^300; exact bounds are false of the code (refuted), bounds up to rounding are proved; the depth only when the total volume is at least the tolerance (C57); volumes are assumed not negative, which a contact of a depth of about one rounding unit need not meet (C125)"
  },
  {
   "property": "C125",
   "status": "partial",
   "theorems": [
    "C125_sampling_flat",
    "C125_sampling_triangles",
    "C125_geometric_flat",
    "C125_positive_refuted"
   ],
   "note": "IEEE binary64 with rounding; radius and width from 2^-300 to 2^300; arccosine right up to 2^-50; reported depth between 0 and the diameter (for the geometric method: not negative); geometric method on triangles not covered; that the volume is not negative is false of the code (refuted)"
  },
  {
   "property": "C126",
   "status": "partial",
   "theorems": [
    "C126_ground",
    "C126_light",
    "C126_light_refuted"
   ],
   "note": "exact arithmetic; when the total volume is below EPSILON_ENVE the claim is false of the code (refuted) and the friction is computed instead"
  },
  {
   "property": "C127",
   "status": "partial",
   "theorems": [
    "C127_point",
    "C127_point_on",
    "C127_two_points",
    "C127_in_plane",
    "C127_triangle_in_plane",
    "C127_same_plane",
    "C127_disk",
    "C127_disk_tangent",
    "C127_disk_refuted"
   ],
   "note": "exact arithmetic; for the disk a tolerance of at most 1 and the radius; unit normals and directions where stated; a triangle is returned whole only with the plane first (C83_plane_triangle_refuted); exactly at the tolerance the claim is false of the code (refuted)"
  },
  {
   "property": "C128",
   "status": "partial",
   "theorems": [
    "C128_range",
    "C128_sampling",
    "C128_spreads",
    "C128_refuted"
   ],
   "note": "exact arithmetic; the geometric method only when no rib reports an undefined friction, since otherwise the claim is false of the code (refuted)"
  },
  {
   "property": "C129",
   "status": "partial",
   "theorems": [
    "C129_flat",
    "C129_mesh",
    "C129_sampling",
    "C129_refuted"
   ],
   "note": "exact arithmetic; meshes with the geometric method only when no rib reports an undefined friction, since otherwise the claim is false of the code (refuted)"
  },
  {
   "property": "C130",
   "status": "proved",
   "theorems": [
    "C130_mesh",
    "C130_flat"
   ],
   "note": "exact arithmetic; sampling method; the vertical axis of the wheel is not horizontal"
  },
  {
   "property": "C131",
   "status": "proved",
   "theorems": [
    "C131_mesh",
    "C131_flat",
    "C131_rib"
   ],
   "note": "exact arithmetic; sampling method; for the wheel as a whole the axle is level and the vertical axis is not"
  },
  {
   "property": "C132",
   "status": "partial",
   "theorems": [
    "C132_flat",
    "C132_mesh",
    "C132_geometric_refuted"
   ],
   "note": "exact arithmetic; flat ground with both methods, meshes with the sampling method; with the geometric method on a mesh the claim is false, since stacked triangles are each counted (C132_geometric_refuted: a rib of radius 1 and width 1 reports a volume above any bound, finding 71)"
  },
  {
   "property": "C133",
   "status": "proved",
   "theorems": [
    "C133_rib",
    "C133_wheel"
   ],
   "note": "exact arithmetic; while the center of the rib, or the axle, stays above the ground: past it the depth decreases again (C41_lowering_refuted)"
  },
  {
   "property": "C134",
   "status": "proved",
   "theorems": [
    "C134_mesh",
    "C134_flat"
   ],
   "note": "exact arithmetic; for meshes the clearance includes three times EPSILON_ENVE times the height range of the mesh, the margin hits may have outside a triangle"
  },
  {
   "property": "C135",
   "status": "proved",
   "theorems": [
    "C135_rib",
    "C135_wheel",
    "C135_level"
   ],
   "note": "exact arithmetic; sampling method; for the shell only when its contact volume is at least EPSILON_ENVE, since otherwise ribs without contact count too"
  },
  {
   "property": "C136",
   "status": "proved",
   "theorems": [
    "C136_cut",
    "C136_rib",
    "C136_wheel"
   ],
   "note": "exact arithmetic; ribs with axis along y, as every shell builds them; ground at least EPSILON_ENVE under the axle in the frame of the wheel; a rib that reports volume 0 and contact has an undefined point; for the shell only when its contact volume is at least EPSILON_ENVE"
  },
  {
   "property": "C137",
   "status": "proved",
   "theorems": [
    "C137_rib",
    "C137_wheel",
    "C137_sampling_rib",
    "C137_sampling_wheel"
   ],
   "note": "exact arithmetic; both methods on meshes; with the geometric method the ground is at least EPSILON_ENVE under the axle in the frame of the wheel and, for the shell, every rib reports a defined friction; for the shell only when its contact volume is at least EPSILON_ENVE"
  }
 ]
}