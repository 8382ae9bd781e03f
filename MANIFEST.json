{
 "claims": [
  {
   "property": "C01",
   "status": "proved",
   "theorems": [
    "C01_boundary_index_encoding"
   ],
   "note": ""
  },
  {
   "property": "C02",
   "status": "proved",
   "theorems": [
    "C02_face_records_two_cells"
   ],
   "note": ""
  },
  {
   "property": "C03",
   "status": "proved",
   "theorems": [
    "C03_other_cell"
   ],
   "note": ""
  },
  {
   "property": "C04",
   "status": "proved",
   "theorems": [
    "C04_successor_is_last_written"
   ],
   "note": ""
  },
  {
   "property": "C05",
   "status": "proved",
   "theorems": [
    "C05_bounded_subelements",
    "C05_unbounded_subelements"
   ],
   "note": ""
  },
  {
   "property": "C06",
   "status": "proved",
   "theorems": [
    "C06_setupBoundaryCells",
    "C06_topology_kept"
   ],
   "note": ""
  },
  {
   "property": "C07",
   "status": "proved",
   "theorems": [
    "C07_clear_empties",
    "C07_clear_keeps_boundary_cells"
   ],
   "note": "clear() empties every element vector (proved); the boundary cells survive (proved, with the observable stale-cell history)"
  },
  {
   "property": "C08",
   "status": "proved",
   "theorems": [
    "C08_apply_visits_chains",
    "C08_apply_order"
   ],
   "note": ""
  },
  {
   "property": "C09",
   "status": "proved",
   "theorems": [
    "C09_boundary_walk"
   ],
   "note": ""
  },
  {
   "property": "C10",
   "status": "proved",
   "theorems": [
    "C10_apply_transpose",
    "C10_apply_incidence"
   ],
   "note": ""
  },
  {
   "property": "C11",
   "status": "proved",
   "theorems": [
    "C11_connections_down"
   ],
   "note": ""
  },
  {
   "property": "C12",
   "status": "proved",
   "theorems": [
    "C12_connections_up"
   ],
   "note": ""
  },
  {
   "property": "C13",
   "status": "proved",
   "theorems": [
    "C13_connections_original"
   ],
   "note": ""
  },
  {
   "property": "C14",
   "status": "proved",
   "theorems": [
    "C14_neighbors",
    "C14_neighbors_symmetric",
    "C14_neighbors_original"
   ],
   "note": ""
  },
  {
   "property": "C15",
   "status": "proved",
   "theorems": [
    "C15_greedy_proper"
   ],
   "note": ""
  },
  {
   "property": "C16",
   "status": "proved",
   "theorems": [
    "C16_greedy_least"
   ],
   "note": ""
  },
  {
   "property": "C17",
   "status": "proved",
   "theorems": [
    "C17_random_proper"
   ],
   "note": ""
  },
  {
   "property": "C18",
   "status": "proved",
   "theorems": [
    "C18_keys_identify"
   ],
   "note": ""
  },
  {
   "property": "C19",
   "status": "proved",
   "theorems": [
    "C19_fpma_faces",
    "C19_overflow_throws"
   ],
   "note": ""
  },
  {
   "property": "C20",
   "status": "proved",
   "theorems": [
    "C20_fpma_cells",
    "C20_fpma_wf"
   ],
   "note": ""
  },
  {
   "property": "C21",
   "status": "proved",
   "theorems": [
    "C21_fpma_face_polygon"
   ],
   "note": ""
  },
  {
   "property": "C22",
   "status": "proved",
   "theorems": [
    "C22_fpma_roundtrip"
   ],
   "note": ""
  },
  {
   "property": "C23",
   "status": "proved",
   "theorems": [
    "C23_fpma_keeps_old_edges",
    "C23_vtk2_replaces",
    "C23_vtk3_replaces"
   ],
   "note": "The VTK readers depend only on the file, except for boundary cells left by clear() (proved); for the FPMA reader the claim is false and the theorems show the old edges surviving"
  },
  {
   "property": "C24",
   "status": "proved",
   "theorems": [
    "C24_vtk2_read",
    "C24_vtk2_wf"
   ],
   "note": ""
  },
  {
   "property": "C25",
   "status": "proved",
   "theorems": [
    "C25_cell_polygon",
    "C25_vtk2_text",
    "C25_vtk2_roundtrip"
   ],
   "note": ""
  },
  {
   "property": "C26",
   "status": "proved",
   "theorems": [
    "C26_types2",
    "C26_types3"
   ],
   "note": ""
  },
  {
   "property": "C27",
   "status": "proved",
   "theorems": [
    "C27_cells_closed"
   ],
   "note": ""
  },
  {
   "property": "C28",
   "status": "proved",
   "theorems": [
    "C28_vtk3_read",
    "C28_vtk3_wf"
   ],
   "note": ""
  },
  {
   "property": "C29",
   "status": "proved",
   "theorems": [
    "C29_tessellation",
    "C29_exact_centres",
    "C29_text",
    "C29_total"
   ],
   "note": "Tessellation, backward map, text layout; centres are identified by their 6-decimal key as in the code (exact when keys are injective on points)"
  },
  {
   "property": "C30",
   "status": "proved",
   "theorems": [
    "C30_column_order",
    "C30_column_values"
   ],
   "note": ""
  },
  {
   "property": "C31",
   "status": "proved",
   "theorems": [
    "C31_data3_roundtrip",
    "C31_data2_roundtrip",
    "C31_mesh_text_plain",
    "C31_missing_column"
   ],
   "note": ""
  },
  {
   "property": "C32",
   "status": "proved",
   "theorems": [
    "C32_fpma",
    "C32_vtk2",
    "C32_vtk3_types_ignored",
    "C32_vtk3"
   ],
   "note": "As stated the claim is false: proved when the text is right, that the 3D VTK writer ignores changed types, and counterexamples for every hash function (stale index, index spoiled by a throwing write)"
  },
  {
   "property": "C33",
   "status": "proved",
   "theorems": [
    "C33_signature3",
    "C33_signature2",
    "C33_blind_spots"
   ],
   "note": ""
  },
  {
   "property": "C34",
   "status": "proved",
   "theorems": [
    "C34_lookup_first",
    "C34_allocate",
    "C34_access",
    "C34_history"
   ],
   "note": ""
  },
  {
   "property": "C35",
   "status": "proved",
   "theorems": [
    "C35_init",
    "C35_other_container",
    "C35_realloc_keeps"
   ],
   "note": "On an empty container every slot gets the value; on reallocation existing slots keep theirs (documented initialisation does not happen, proved)"
  },
  {
   "property": "C36",
   "status": "proved",
   "theorems": [
    "C36_scalars",
    "C36_bool_not_checked"
   ],
   "note": "All integer widths, bit patterns, bool; the checking overload for bool is unreachable (proved consequence)"
  },
  {
   "property": "C37",
   "status": "proved",
   "theorems": [
    "C37_roundtrip",
    "C37_any_target",
    "C37_untraited_member_kept",
    "C37_unique"
   ],
   "note": ""
  },
  {
   "property": "C38",
   "status": "proved",
   "theorems": [
    "C38_fifo",
    "C38_interleaved",
    "C38_interleaved_growth_ub",
    "C38_stale_until_clear",
    "C38_file_roundtrip",
    "C38_load_keeps_position"
   ],
   "note": "FIFO for write-all-then-read and for interleavings without reallocation; a reallocation after the first read makes later reads undefined, loadFromFile keeps the old read position (both proved)"
  },
  {
   "property": "C39",
   "status": "proved",
   "theorems": [
    "C39_map_merge",
    "C39_set_union",
    "C39_target_wins"
   ],
   "note": "Exact merge semantics proved; the written value is returned only for an empty target"
  },
  {
   "property": "C40",
   "status": "proved",
   "theorems": [
    "C40_truncated",
    "C40_scalar_exact",
    "C40_empty"
   ],
   "note": "As stated false: every truncated value is read with undefined behaviour (proved for all types)"
  },
  {
   "property": "C41",
   "status": "proved",
   "theorems": [
    "C41_gram_schmidt",
    "C41_gram_schmidt_normalised",
    "C41_norms_are_volumes",
    "C41_empty"
   ],
   "note": "Exact real arithmetic, any dimension and number of vectors"
  },
  {
   "property": "C42",
   "status": "proved",
   "theorems": [
    "C42_vector_space",
    "C42_scalar_product",
    "C42_vector_product",
    "C42_initializer_list"
   ],
   "note": "Exact real arithmetic"
  },
  {
   "property": "C43",
   "status": "proved",
   "theorems": [
    "C43_division_by_int"
   ],
   "note": "operator/ with an int divisor proved to give the zero vector for |s|>1 whatever the coordinate type"
  },
  {
   "property": "C44",
   "status": "proved",
   "theorems": [
    "C44_normals2",
    "C44_normals2_ignore_cells",
    "C44_normals3",
    "C44_tessellated"
   ],
   "note": "Exact real arithmetic. 2D: the direction depends only on the edge's own direction, not on the left/right cells (C44_normals2_ignore_cells). Generic code for dimension >= 4 is treated separately"
  },
  {
   "property": "C45",
   "status": "proved",
   "theorems": [
    "C45_measures2"
   ],
   "note": "Exact real arithmetic"
  },
  {
   "property": "C46",
   "status": "proved",
   "theorems": [
    "C46_centers",
    "C46_translation",
    "C46_hull",
    "C46_tessellated"
   ],
   "note": "Exact real arithmetic, any dimension; METHOD_TESSELLATED faces are the area-weighted centroid of the fan of triangles"
  },
  {
   "property": "C47",
   "status": "proved",
   "theorems": [
    "C47_edge2",
    "C47_edge3",
    "C47_table"
   ],
   "note": "Exact real arithmetic"
  },
  {
   "property": "C48",
   "status": "proved",
   "theorems": [
    "C48_distance",
    "C48_difference",
    "C48_missing_side_throws"
   ],
   "note": "Exact real arithmetic. The sign convention differs when the left side is missing and there are no boundary cells (proved); a missing side in a mesh that has boundary cells throws (proved)"
  },
  {
   "property": "C49",
   "status": "proved",
   "theorems": [
    "C49_measures3",
    "C49_polyhedron",
    "C49_tetrahedron"
   ],
   "note": "Exact real arithmetic. The Method parameter of computeMeasures is dropped for 3D (finding), so one model covers both"
  },
  {
   "property": "C50",
   "status": "proved",
   "theorems": [
    "C50_first_match",
    "C50_default",
    "C50_never_another_class",
    "C50_specialised_default"
   ],
   "note": "Compile-time selection as a function on lists of (class, traits)"
  },
  {
   "property": "C51",
   "status": "proved",
   "theorems": [
    "C51_plus",
    "C51_minus",
    "C51_star",
    "C51_scalar",
    "C51_assign",
    "C51_laws",
    "C51_finding_power_swapped"
   ],
   "note": "Exact real arithmetic; direct member references; rvalue overloads modelled. Findings proved: const - temporary undefined, nested untraited members lost, pow(number, object) swapped"
  },
  {
   "property": "C52",
   "status": "proved",
   "theorems": [
    "C52_max",
    "C52_min",
    "C52_sum",
    "C52_finding_empty"
   ],
   "note": "Exact real arithmetic"
  },
  {
   "property": "C53",
   "status": "proved",
   "theorems": [
    "C53_total",
    "C53_faithful",
    "C53_readable",
    "C53_json",
    "C53_stdio",
    "C53_finding_unsigned",
    "C53_bound_traits"
   ],
   "note": "Floating point numbers enter as integers (decimal printing of doubles is not modelled). C53_finding_unsigned: printf of unsigned int appends d"
  },
  {
   "property": "C54",
   "status": "proved",
   "theorems": [
    "C54_json_log",
    "C54_unambiguous",
    "C54_log_read",
    "C54_no_call",
    "C54_groups",
    "C54_call_limit",
    "C54_finding_recreate",
    "C54_finding_destroy_twice"
   ],
   "note": "Opening files succeeds; buffering not modelled; fewer than 2^31 calls. Values enter as exported text with its JSON value (C53_json)"
  },
  {
   "property": "C55",
   "status": "proved",
   "theorems": [
    "C55_json_doubling",
    "C55_json_complete",
    "C55_html_doubling",
    "C55_doubling_injective"
   ],
   "note": "The JSON logger part holds for names without backslash among the first two characters (proved iff)"
  },
  {
   "property": "C56",
   "status": "proved",
   "theorems": [
    "C56_file_name",
    "C56_file_name_full",
    "C56_settings",
    "C56_reset",
    "C56_colours",
    "C56_lines",
    "C56_messages",
    "C56_variables",
    "C56_stdio_variables",
    "C56_finding_stdio"
   ],
   "note": "Non-Windows branch"
  },
  {
   "property": "C57",
   "status": "proved",
   "theorems": [
    "C57_ascending",
    "C57_default_and_empty",
    "C57_descending",
    "C57_finding_overflow",
    "C57_members"
   ],
   "note": "Template instantiation depth is the fuel"
  },
  {
   "property": "C58",
   "status": "proved",
   "theorems": [
    "C58_selector"
   ],
   "note": ""
  },
  {
   "property": "C59",
   "status": "proved",
   "theorems": [
    "C59_names",
    "C59_finding_overflow"
   ],
   "note": "The full claim 'every part is named dim N' is false; the exact set of dimensions for which it holds is proved (all dimensions the code admits, < 1000)"
  },
  {
   "property": "C60",
   "status": "proved",
   "theorems": [
    "C60_html_log",
    "C60_call_limit",
    "C60_finding_name"
   ],
   "note": "The fixed script texts are parameters; HTML tokenisation (a name containing </script>) not modelled"
  },
  {
   "property": "C61",
   "status": "proved",
   "theorems": [
    "C61_missing",
    "C61_fpma",
    "C61_vtk",
    "C61_unknown",
    "C61_finding_both"
   ],
   "note": "Generic in the readers; streams are token lists"
  },
  {
   "property": "C62",
   "status": "proved",
   "theorems": [
    "C62_others",
    "C62_vtk",
    "C62_fpma",
    "C62_new",
    "C62_finding_unknown",
    "C62_finding_nodot",
    "C62_no_open"
   ],
   "note": "Generic in the writers; what is in the file after an exception of a writer is arbitrary"
  },
  {
   "property": "C63",
   "status": "proved",
   "theorems": [
    "C63_fpma",
    "C63_vtk2"
   ],
   "note": "h0 <> signature: the uninitialised lastHash of a new writer must differ from the hash of the mesh (finding of C32)"
  },
  {
   "property": "C64",
   "status": "proved",
   "theorems": [
    "C64_native_cell",
    "C64_native_mesh",
    "C64_finding_no_base"
   ],
   "note": "The orientation (which side of the base is listed first) is not claimed: indexFace starts with vertex B only for a left cell with positive orientation"
  },
  {
   "property": "C65",
   "status": "proved",
   "theorems": [
    "C65_vtk3_roundtrip",
    "C65_file"
   ],
   "note": "The signature of the mesh must not be 0 (initial lastHash), see C32"
  },
  {
   "property": "C66",
   "status": "proved",
   "theorems": [
    "C66_for_each",
    "C66_pairs",
    "C66_odd",
    "C66_finding_counts",
    "C66_debug",
    "C66_named_trait",
    "C66_attribute_trait"
   ],
   "note": "Macro expansion is modelled on argument lists (token sequences between top level commas); the preprocessor itself is trusted"
  },
  {
   "property": "C67",
   "status": "proved",
   "theorems": [
    "C67_after_first",
    "C67_sequential",
    "C67_finding_race"
   ],
   "note": "Steps of threads are interleaved; a data race is itself undefined behaviour in C++"
  },
  {
   "property": "C68",
   "status": "proved",
   "theorems": [
    "C68_access",
    "C68_get_after_set",
    "C68_compiles",
    "C68_introspection"
   ],
   "note": "Functions are pure except for the object"
  },
  {
   "property": "C69",
   "status": "proved",
   "theorems": [
    "C69_get",
    "C69_put"
   ],
   "note": ""
  },
  {
   "property": "C70",
   "status": "proved",
   "theorems": [
    "C70_normals",
    "C70_simplex"
   ],
   "note": "Exact real arithmetic; frames in general position"
  },
  {
   "property": "C71",
   "status": "proved",
   "theorems": [
    "C71_measures",
    "C71_height"
   ],
   "note": "Exact real arithmetic; frames in general position"
  },
  {
   "property": "C72",
   "status": "proved",
   "theorems": [
    "C72_simplex",
    "C72_volume"
   ],
   "note": "Exact real arithmetic"
  },
  {
   "property": "C73",
   "status": "proved",
   "theorems": [
    "C73_conservation",
    "C73_interior_cancels",
    "C73_fpma",
    "C73_vtk2",
    "C73_vtk3",
    "C73_boundary_cells"
   ],
   "note": "Fluxes are real-valued (exact arithmetic); the readers are the modelled ones of C19-C29"
  },
  {
   "property": "C74",
   "status": "proved",
   "theorems": [
    "C74_gauss2",
    "C74_left_to_right",
    "C74_total_area"
   ],
   "note": "Exact real arithmetic; star-shaped cells"
  },
  {
   "property": "C75",
   "status": "proved",
   "theorems": [
    "C75_total",
    "C75_gauss3",
    "C75_left_to_right",
    "C75_total_volume"
   ],
   "note": "Exact real arithmetic; star-shaped cells with planar faces"
  },
  {
   "property": "C76",
   "status": "proved",
   "theorems": [
    "C76_initializeCenters",
    "C76_boundary_centers",
    "C76_boundary_without_centers",
    "C76_geometry_kept",
    "C76_distances_kept"
   ],
   "note": "Exact real arithmetic for centres and distances; the invariance of measures and normals holds for any number type"
  },
  {
   "property": "C77",
   "status": "proved",
   "theorems": [
    "C77_convex2",
    "C77_vtk2",
    "C77_file"
   ],
   "note": "Exact real arithmetic"
  },
  {
   "property": "C78",
   "status": "proved",
   "theorems": [
    "C78_convex3",
    "C78_fpma",
    "C78_fpma_volumes",
    "C78_vtk3",
    "C78_vtk3_volumes",
    "C78_fpma_text",
    "C78_vtk3_text",
    "C78_tets_text",
    "C78_tets"
   ],
   "note": "Exact real arithmetic; in the text theorems the coordinates are the real values of the numbers nearest to the decimals of the file"
  },
  {
   "property": "C79",
   "status": "proved",
   "theorems": [
    "C79_index",
    "C79_coordinate",
    "C79_exact",
    "C79_again",
    "C79_finding_six_digits"
   ],
   "note": "Finite numbers, unbounded exponent range, no negative zero; includes the finding on precision"
  },
  {
   "property": "C80",
   "status": "proved",
   "theorems": [
    "C80_fpma_characters"
   ],
   "note": "Characters of the stream as in C79"
  },
  {
   "property": "C81",
   "status": "proved",
   "theorems": [
    "C81_vtk2_characters",
    "C81_vtk3_text",
    "C81_vtk3_characters",
    "C81_finding_name"
   ],
   "note": "Characters of the stream as in C79; includes the finding on names"
  },
  {
   "property": "C82",
   "status": "proved",
   "theorems": [
    "C82_fpma_cut",
    "C82_fpma_empty"
   ],
   "note": "Characters of the stream as in C79; the finding is an Example (C82_finding_wrong_mesh)"
  },
  {
   "property": "C83",
   "status": "proved",
   "theorems": [
    "C83_header",
    "C83_finding_no_points",
    "C83_finding_no_count",
    "C83_finding_points3",
    "C83_finding_points2",
    "C83_cells2",
    "C83_cells3",
    "C83_finding_types2",
    "C83_finding_types3",
    "C83_layout2",
    "C83_layout3"
   ],
   "note": "Characters of the stream as in C79; C83_layout2/3 show that the writers write files of the layout cut; a cut inside the last row is only shown by computation (C83_instance)"
  },
  {
   "property": "C84",
   "status": "proved",
   "theorems": [
    "C84_keys_apart",
    "C84_exact_centres",
    "C84_finding_small_mesh"
   ],
   "note": "Coordinates have a rational value (val), as in C79"
  },
  {
   "property": "C85",
   "status": "proved",
   "theorems": [
    "C85_fpma_layout",
    "C85_fpma_same_numbers"
   ],
   "note": "The meaning of decimal notation is S_Layout.v; istream >> is M_Stream.v"
  },
  {
   "property": "C86",
   "status": "proved",
   "theorems": [
    "C86_vtk2_layout",
    "C86_vtk3_layout"
   ],
   "note": "As C85; grids as in C24 and C28"
  },
  {
   "property": "C87",
   "status": "proved",
   "theorems": [
    "C87_lengths",
    "C87_distances",
    "C87_normals2"
   ],
   "note": "Standard model of floating point arithmetic (S_Round.rounds): relative error u of each operation, no overflow or underflow; instance: 53 bits, round to nearest even"
  },
  {
   "property": "C88",
   "status": "proved",
   "theorems": [
    "C88_areas"
   ],
   "note": "As C87"
  },
  {
   "property": "C89",
   "status": "proved",
   "theorems": [
    "C89_centers"
   ],
   "note": "As C87"
  },
  {
   "property": "C90",
   "status": "proved",
   "theorems": [
    "C90_edge2",
    "C90_edge3"
   ],
   "note": "As C87"
  },
  {
   "property": "C91",
   "status": "proved",
   "theorems": [
    "C91_finding_sizes2",
    "C91_finding_sizes3",
    "C91_data2",
    "C91_data3",
    "C91_after_mesh",
    "C91_file2",
    "C91_finding_integers2",
    "C91_finding_blank"
   ],
   "note": "Stream operations of M_Stream; C91_file2 is a whole 2D file; C91_after_mesh with C91_data3 gives the same in 3D"
  },
  {
   "property": "C92",
   "status": "proved",
   "theorems": [
    "C92_same_bytes",
    "C92_read_as",
    "C92_into_array",
    "C92_into_set",
    "C92_into_map",
    "C92_into_number_array"
   ],
   "note": "sizeof(size_t) = 8 for the sizes of all containers"
  },
  {
   "property": "C93",
   "status": "proved",
   "theorems": [
    "C93_readable",
    "C93_roundtrip",
    "C93_any_type",
    "C93_choice",
    "C93_finding_to_bool",
    "C93_finding_list"
   ],
   "note": "Types given by what they offer (caps); class members are types of the same universe"
  },
  {
   "property": "C94",
   "status": "proved",
   "theorems": [
    "C94_default",
    "C94_bound",
    "C94_finding_secondary"
   ],
   "note": "Values without sets and maps (C39 for those); traits that name a member twice are not modelled"
  },
  {
   "property": "C95",
   "status": "proved",
   "theorems": [
    "C95_mixed_calls",
    "C95_finding_swap",
    "C95_finding_same_cell",
    "C95_direct",
    "C95_one_side"
   ],
   "note": "tidy: no direct setting of the cells and no swap, successors for registered cells only"
  },
  {
   "property": "C96",
   "status": "proved",
   "theorems": [
    "C96_total",
    "C96_extends",
    "C96_same",
    "C96_finding_literal",
    "C96_finding_pointer",
    "C96_finding_small",
    "C96_finding_class",
    "C96_dump",
    "C96_dump_length",
    "C96_dump_digits",
    "C96_priority",
    "C96_contrast",
    "C96_json_log",
    "C96_finding_json_tuple",
    "C96_reaches",
    "C96_finding_html_tuple",
    "C96_console",
    "C96_html",
    "C96_null_pointer",
    "C96_char",
    "C96_finding_literal_logs",
    "C96_finding_check"
   ],
   "note": "Types given by what they offer; text of addresses and of user functions is arbitrary"
  },
  {
   "property": "C97",
   "status": "proved",
   "theorems": [
    "C97_six_digits",
    "C97_number",
    "C97_same_text",
    "C97_read_back",
    "C97_unambiguous",
    "C97_json_iff",
    "C97_log_iff"
   ],
   "note": "float and double are printed alike; texts and names of members in plain characters"
  },
  {
   "property": "C98",
   "status": "proved",
   "theorems": [
    "C98_history",
    "C98_copy_independent",
    "C98_moved_from",
    "C98_by_position"
   ],
   "note": "All containers of a program have the same type; sizes of allocation from meshes"
  },
  {
   "property": "C99",
   "status": "proved",
   "theorems": [
    "C99_export",
    "C99_computed_centres",
    "C99_fpma"
   ],
   "note": "Exact real arithmetic; no cell has a native type; no two centres have the same key (the key prints six decimals, C29/C84) C99_fpma composes it with the FPMA reader: from the file to the volumes of the exported tetrahedra."
  },
  {
   "property": "C100",
   "status": "proved",
   "theorems": [
    "C100_cut2",
    "C100_kept2",
    "C100_finding_repeat2",
    "C100_finding_absent2",
    "C100_cut3",
    "C100_kept3",
    "C100_finding_absent3"
   ],
   "note": "One column is read; the number where the file is cut may be read as a shorter number and is then the repeated value"
  },
  {
   "property": "C101",
   "status": "proved",
   "theorems": [
    "C101_roundtrip",
    "C101_any_target",
    "C101_chosen",
    "C101_types",
    "C101_finding_half",
    "C101_finding_half_value",
    "C101_finding_enum"
   ],
   "note": "The functions of the user are arbitrary functions on values and bytes; a user specialisation of Interface::Compact is not modelled"
  },
  {
   "property": "C102",
   "status": "proved",
   "theorems": [
    "C102_centres",
    "C102_measures2",
    "C102_measures3",
    "C102_vtk2",
    "C102_fpma"
   ],
   "note": "Geometry in exact real arithmetic on the stored numbers (its rounding: C87-C90). No bound for volumes of cells (they divide by the area of the first triangle of a face), normals and the tessellated method. Areas of spatial faces need what computeMeasures needs to answer (C49), for both meshes."
  },
  {
   "property": "C103",
   "status": "proved",
   "theorems": [
    "C103_characters",
    "C103_unsigned",
    "C103_int",
    "C103_real",
    "C103_malformed",
    "C103_malformed_exponent",
    "C103_failed",
    "C103_vtk2_range",
    "C103_vtk3_range",
    "C103_fpma_range",
    "C103_vtk_keywords",
    "C103_fpma_faces"
   ],
   "note": "The characters are those of the \"C\" locale; operator>> follows libstdc++ (2011 rules: the variable becomes 0 or the nearest limit on failure). Overflow of a real number is part of the conversion K (C18)."
  },
  {
   "property": "C104",
   "status": "proved",
   "theorems": [
    "C104_fpma_shared",
    "C104_vtk2_shared",
    "C104_vtk3_shared"
   ],
   "note": "Files in which a cell lists a missing face are in C103, files with at most two cells at a face in C19, C20, C85."
  },
  {
   "property": "C105",
   "status": "proved",
   "theorems": [
    "C105_memory",
    "C105_layout",
    "C105_roundtrip",
    "C105_nested",
    "C105_nested_roundtrip",
    "C105_unique",
    "C105_short",
    "C105_array_other_size",
    "C105_without_padding",
    "C105_numbers",
    "C105_with_padding",
    "C105_not_interchangeable",
    "C105_selected"
   ],
   "note": "The layout of classes is that of the x86-64 System V ABI for standard layout classes without bases and bit-fields."
  },
  {
   "property": "C106",
   "status": "proved",
   "theorems": [
    "C106_centers",
    "C106_normals3",
    "C106_normals3_tess",
    "C106_normals2",
    "C106_measures3",
    "C106_measures2",
    "C106_distance",
    "C106_any",
    "C106_left2",
    "C106_orientation",
    "C106_centers_tess",
    "C106_convex_spread"
   ],
   "note": "Over real coordinates. The tessellated centres need faces with an area around their mean point, which meshes of convex polyhedra have."
  },
  {
   "property": "C107",
   "status": "proved",
   "theorems": [
    "C107_wf",
    "C107_apply",
    "C107_connections",
    "C107_neighbors",
    "C107_centers",
    "C107_normals2",
    "C107_space",
    "C107_measures2",
    "C107_distance",
    "C107_any"
   ],
   "note": "The order of the boundary of each element and the first face of each cell are kept; boundary cells keep their numbers. Colouring is not included (it is about numbers)."
  },
  {
   "property": "C108",
   "status": "proved",
   "theorems": [
    "C108_rows",
    "C108_groups",
    "C108_mixed",
    "C108_finding_line",
    "C108_stale_rows",
    "C108_stale_groups",
    "C108_log",
    "C108_table"
   ],
   "note": "The script of the page as a program on the rows of the log; JavaScript comparisons of a value with a text are parameters. A mixed choice can show a row twice (C108_instance)."
  },
  {
   "property": "C109",
   "status": "proved",
   "theorems": [
    "C109_convex3",
    "C109_file",
    "C109_gradient2",
    "C109_convex2",
    "C109_gradient3"
   ],
   "note": "Exact real arithmetic; builds on C45, C49, C74, C75, C77, C78. The centre of a non-triangular face with the default (not tessellated) method is not its centroid in general, so the claim is restricted accordingly."
  },
  {
   "property": "C110",
   "status": "proved",
   "theorems": [
    "C110_nearest",
    "C110_vtk2",
    "C110_fpma",
    "C110_convex3"
   ],
   "note": "Computations in exact real arithmetic on the numbers of both meshes; file layer as in C81 and C80. keeps K is satisfied by any type whose reading returns the nearest value. Edge measures are those of the renumbered edges and are not compared here."
  },
  {
   "property": "C111",
   "status": "proved",
   "theorems": [
    "C111_vtk2",
    "C111_vtk2_text",
    "C111_vtk2_iff",
    "C111_vtk2_settles"
   ],
   "note": "Planar meshes. Without a common orientation a row can be turned by a rewriting; C111_vtk2_iff says when, C111_vtk2_settles that this ends. The FPMA writer may start the polygons of faces at other vertices (C22)."
  },
  {
   "property": "C112",
   "status": "proved",
   "theorems": [
    "C112_fpma_turned",
    "C112_fpma_never_settles"
   ],
   "note": "Tokens. The rows of the other faces are the same polygons (same_polygon), which of them are turned is not stated."
  }
 ]
}