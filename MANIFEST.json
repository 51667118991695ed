{
 "claims": [
  {
   "property": "C01",
   "status": "proved",
   "theorems": [
    "C01_row_codec_roundtrip"
   ],
   "note": ""
  },
  {
   "property": "C02",
   "status": "proved",
   "theorems": [
    "C02_decompress_safe",
    "C02_decompress_all_q1_safe",
    "C02_decompress_all_q2_safe"
   ],
   "note": ""
  },
  {
   "property": "C03",
   "status": "proved",
   "theorems": [
    "C03_compressed_size"
   ],
   "note": ""
  },
  {
   "property": "C04",
   "status": "proved",
   "theorems": [
    "C04_bitset_codec_roundtrip"
   ],
   "note": ""
  },
  {
   "property": "C05",
   "status": "proved",
   "theorems": [
    "C05_header",
    "C05_state_file_roundtrip"
   ],
   "note": ""
  },
  {
   "property": "C06",
   "status": "partial",
   "theorems": [
    "C06_crash_safety_partial",
    "C06_first_save_refuted",
    "C06_nostate_refuted",
    "C06_leftover_tmp_refuted"
   ],
   "note": "Full claim is false of the code. Proved: once a complete state exists, any crash in any later save leaves a complete one. Refuted: crash in the first save, -nostate runs, leftover temporary file after a finished -fast run."
  },
  {
   "property": "C07",
   "status": "partial",
   "theorems": [
    "C07_decoder_safe_partial",
    "C07_zero_count_refuted",
    "C07_short_buffer_refuted",
    "C07_length_field_refuted"
   ],
   "note": "Full claim is false of the code: a zero run count, a stream needing more than the buffer, and an oversized length field each access memory out of bounds. Proved: safe when run counts are at least one and the buffer is twice the bit set."
  },
  {
   "property": "C08",
   "status": "proved",
   "theorems": [
    "C08_leafbits_is_a_set"
   ],
   "note": ""
  },
  {
   "property": "C09",
   "status": "proved",
   "theorems": [
    "C09_base_vis_is_reachability"
   ],
   "note": "The geometric tests of BasePortalThread enter as an arbitrary bit vector portalsee."
  },
  {
   "property": "C10",
   "status": "proved",
   "theorems": [
    "C10_full_vis_within_base"
   ],
   "note": "All geometry (clipping, separators, IterativeTargetChecks) and the bits read from other portals enter as an arbitrary oracle; the floating-point tests themselves are not modelled."
  },
  {
   "property": "C11",
   "status": "proved",
   "theorems": [
    "C11_each_portal_once",
    "C11_next_is_least"
   ],
   "note": "Each fetch, PortalFlow entry and completion is one atomic step (portal_mutex). Assumes the might-see counts lie in [0, INT_MAX), which C12 provides. Progress of tbb::parallel_for itself is not modelled."
  },
  {
   "property": "C12",
   "status": "proved",
   "theorems": [
    "C12_mightsee_history",
    "C12_completion_effect"
   ],
   "note": "Assumes each portal is on one leaf, which LoadPortals establishes (vis.cc:632-665)."
  },
  {
   "property": "C13",
   "status": "proved",
   "theorems": [
    "C13_unfinished",
    "C13_vis_lump_rows",
    "C13_vis_lump_in_order"
   ],
   "note": "Portal rows are the portals' visbits; statistics not modelled. Assumes the worst-case lump fits in 2^31 bytes (offsets are int32)."
  },
  {
   "property": "C14",
   "status": "partial",
   "theorems": [
    "C14_phs_rows_partial",
    "C14_phs_whole_words_partial",
    "C14_trailing_bytes_refuted"
   ],
   "note": "The claim is false of the code: the trailing (n+7)/8 mod sizeof(long) bytes of each row are never or-ed (refuted for 4- and 8-byte longs). Proved: exactly what is stored, and the full claim when a row is a whole number of machine words."
  },
  {
   "property": "C15",
   "status": "proved",
   "theorems": [
    "C15_clip_outcome",
    "C15_pool_operations",
    "C15_flow_never_exhausts"
   ],
   "note": "Which side of a plane each point lies on is an arbitrary oracle; coordinates are not modelled. Assumes portal windings have at most 64 points, which LoadPrtFile checks."
  },
  {
   "property": "C16",
   "status": "proved",
   "theorems": [
    "C16_tokenizer_in_bounds",
    "C16_tokenizer_progress",
    "C16_false_only_at_end",
    "C16_word",
    "C16_quoted"
   ],
   "note": ""
  },
  {
   "property": "C17",
   "status": "proved",
   "theorems": [
    "C17_peek",
    "C17_peek_then_parse",
    "C17_peek_command_line",
    "C17_command_line"
   ],
   "note": ""
  },
  {
   "property": "C18",
   "status": "proved",
   "theorems": [
    "C18_entity_text_roundtrip",
    "C18_entity_text_roundtrip_escapes"
   ],
   "note": "Strings with escapes are covered by the second theorem."
  },
  {
   "property": "C19",
   "status": "proved",
   "theorems": [
    "C19_ordered_map"
   ],
   "note": ""
  },
  {
   "property": "C20",
   "status": "partial",
   "theorems": [
    "C20_rename_partial",
    "C20_rename_onto_existing_refuted"
   ],
   "note": "False of the code when the new name already exists (duplicate key, old value wins). Proved for a free new name."
  },
  {
   "property": "C21",
   "status": "partial",
   "theorems": [
    "C21_leading_blanks_partial",
    "C21_trailing_blank_refuted"
   ],
   "note": "False of the code: a trailing blank or an empty key reads before the string. Proved for leading blanks."
  },
  {
   "property": "C22",
   "status": "proved",
   "theorems": [
    "C22_prt1_roundtrip",
    "C22_prt2_roundtrip",
    "C22_integers",
    "C22_no_integer",
    "C22_reals",
    "C22_first_line"
   ],
   "note": "PRT1 and PRT2 text written by qbsp is read back to the same portals and (for PRT2) clusters. Coordinates are kept as the written text (the text grammar of number output); conversion of text to double is not modelled. PRT1-AM is only read, never written."
  },
  {
   "property": "C23",
   "status": "partial",
   "theorems": [
    "C23_leaf_range_partial",
    "C23_last_leaf_refuted"
   ],
   "note": "Proved: accepted leaf numbers lie in 0..portalleafs. Refuted: the check uses > so a leaf number equal to portalleafs is accepted and LoadPortals then writes past the leaf table."
  },
  {
   "property": "C24",
   "status": "proved",
   "theorems": [
    "C24_numbering",
    "C24_clusters_dense"
   ],
   "note": ""
  },
  {
   "property": "C25",
   "status": "proved",
   "theorems": [
    "C25_cluster_table",
    "C25_needs_pruning"
   ],
   "note": "On trees made by PruneNodes. A second theorem shows that pruning is needed: otherwise an internal error is reported."
  },
  {
   "property": "C26",
   "status": "proved",
   "theorems": [
    "C26_leaf_numbers_agree"
   ],
   "note": "Quake-style targets (solid leafs share leaf 0)."
  },
  {
   "property": "C27",
   "status": "partial",
   "theorems": [
    "C27_draw_tree_partial",
    "C27_export_succeeds",
    "C27_single_leaf_refuted"
   ],
   "note": "Proved for every tree with at least one node, after any later export; successful export on pruned trees. Refuted for a model whose tree is one leaf: its head node does not exist or is the next model's. Points are judged against the planes as written (float)."
  },
  {
   "property": "C28",
   "status": "proved",
   "theorems": [
    "C28_clip_hull"
   ],
   "note": ""
  },
  {
   "property": "C29",
   "status": "proved",
   "theorems": [
    "C29_planes_exported_once"
   ],
   "note": ""
  },
  {
   "property": "C30",
   "status": "proved",
   "theorems": [
    "C30_prune"
   ],
   "note": "For Quake-style targets a detail wall leaf counts as solid after pruning, as the code intends; the theorem says so explicitly."
  },
  {
   "property": "C31",
   "status": "proved",
   "theorems": [
    "C31_point_in_leaf"
   ],
   "note": "Planes enter only through the side the point is on."
  },
  {
   "property": "C32",
   "status": "proved",
   "theorems": [
    "C32_flood_from_occupied",
    "C32_flood_from_void"
   ],
   "note": "Portal graphs satisfy graph_ok (each portal is in the lists of the two leafs it joins)."
  },
  {
   "property": "C33",
   "status": "proved",
   "theorems": [
    "C33_fill_exact"
   ],
   "note": "For the outside fill type the void leaf must not seal (the code asserts this)."
  },
  {
   "property": "C34",
   "status": "proved",
   "theorems": [
    "C34_leak_line"
   ],
   "note": ""
  },
  {
   "property": "C35",
   "status": "proved",
   "theorems": [
    "C35_integer_cast"
   ],
   "note": ""
  },
  {
   "property": "C36",
   "status": "partial",
   "theorems": [
    "C36_float_cast_partial",
    "C36_bounds_cast_partial",
    "C36_undefined_refuted",
    "C36_nearest",
    "C36_special"
   ],
   "note": "NaN and types wider than the significand are undefined behaviour; otherwise proved"
  },
  {
   "property": "C37",
   "status": "partial",
   "theorems": [
    "C37_nodes",
    "C37_faces",
    "C37_q1_leafs",
    "C37_q2_leafs_partial",
    "C37_q2_leaf_box_refuted",
    "C37_others",
    "C37_missing_members"
   ],
   "note": "Q2 leaf upper corner is rounded inwards (refuted with 100.5); all other conversions proved"
  },
  {
   "property": "C38",
   "status": "proved",
   "theorems": [
    "C38_clipnode_children"
   ],
   "note": ""
  },
  {
   "property": "C39",
   "status": "proved",
   "theorems": [
    "C39_records_roundtrip",
    "C39_sizes"
   ],
   "note": ""
  },
  {
   "property": "C40",
   "status": "proved",
   "theorems": [
    "C40_lump_directory"
   ],
   "note": "proved for files below 2 GiB (offsets are int32_t); the load half is C70"
  },
  {
   "property": "C41",
   "status": "partial",
   "theorems": [
    "C41_bspx_partial",
    "C41_long_names_refuted"
   ],
   "note": "names of at most 23 characters survive; refuted for longer names, which are truncated and may collide"
  },
  {
   "property": "C42",
   "status": "partial",
   "theorems": [
    "C42_accepted_files_partial",
    "C42_outside_refuted"
   ],
   "note": "proved: an accepted file has whole-record lumps inside the file. Refuted: lumps outside the file, BSPX ends beyond 2^32, an empty lump at offset -4 and a truncated header are read out of bounds or uninitialized instead of refused"
  },
  {
   "property": "C43",
   "status": "partial",
   "theorems": [
    "C43_textures_partial",
    "C43_short_data_refuted"
   ],
   "note": "proved for textures that are missing, empty or carry a whole header; refuted for 1-39 bytes of data (header read past the end)"
  },
  {
   "property": "C44",
   "status": "partial",
   "theorems": [
    "C44_visibility_partial",
    "C44_bit_offsets",
    "C44_bits_without_clusters_refuted"
   ],
   "note": "proved for lumps with clusters; refuted: bits without clusters are dropped"
  },
  {
   "property": "C45",
   "status": "proved",
   "theorems": [
    "C45_round_trip",
    "C45_planes_modulo"
   ],
   "note": "numfaces of the model is written from the brushes, so the round trip requires it to equal their face total."
  },
  {
   "property": "C46",
   "status": "proved",
   "theorems": [
    "C46_quake_native",
    "C46_written_value"
   ],
   "note": ""
  },
  {
   "property": "C47",
   "status": "proved",
   "theorems": [
    "C47_quake2_native",
    "C47_flags_kept"
   ],
   "note": ""
  },
  {
   "property": "C48",
   "status": "partial",
   "theorems": [
    "C48_leaf_contents",
    "C48_combine_laws",
    "C48_cluster_contents",
    "C48_detail_solid_in_sky_refuted"
   ],
   "note": "Order and multiplicity independence proved with an exact description of the result for leafs and clusters. The part \"a solid contribution keeps it solid\" holds for structural solid; for detail solid it is refuted in Quake: sky overlapping a detail brush replaces it."
  },
  {
   "property": "C49",
   "status": "proved",
   "theorems": [
    "C49_portal_vis",
    "C49_quake_rule",
    "C49_opaque",
    "C49_empty"
   ],
   "note": "Symmetry, blocking by solid and by visblockers, and transparency of equal non-solid contents, for both games and whole clusters; for Quake the complete rule."
  },
  {
   "property": "C50",
   "status": "partial",
   "theorems": [
    "C50_invisible_difference_partial",
    "C50_opaque_refuted",
    "C50_translucent_refuted"
   ],
   "note": "Refuted in both directions: the last test of the Quake II function is inverted, so opaque contents never block and translucent contents block against contents with only invisible flags. What holds is proved."
  },
  {
   "property": "C51",
   "status": "partial",
   "theorems": [
    "C51_export_partial",
    "C51_visblocker_refuted",
    "C51_quake2_face",
    "C51_entity_class",
    "C51_hulls"
   ],
   "note": "Proved from entity keys, options and face contents for Quake, and for Quake II without func_illusionary_visblocker, whose brushes cannot be written in Quake II (refuted). Texture-name comparison is abstracted to a classification."
  },
  {
   "property": "C52",
   "status": "proved",
   "theorems": [
    "C52_history",
    "C52_strongest_last",
    "C52_order_irrelevant",
    "C52_weaker_source_ignored",
    "C52_map_after_command_line"
   ],
   "note": "setting_value history, container parse and map keys; setting_set accumulates values instead of replacing them and is modelled that way."
  },
  {
   "property": "C53",
   "status": "partial",
   "theorems": [
    "C53_int_range",
    "C53_int_exact",
    "C53_out_of_range_refuted",
    "C53_float_range_partial",
    "C53_float_nan_refuted",
    "C53_no_digits",
    "C53_enum_label",
    "C53_enum_number"
   ],
   "note": "Integer settings stay in range and in-range decimals are stored exactly. Refuted: an integer above 2^32 is reduced modulo 2^32 before clamping (settings.hh:308), so it can land inside the range; \"nan\" passes both comparisons of std::clamp and is stored in a float setting. std::stod is a parameter of the model."
  },
  {
   "property": "C54",
   "status": "partial",
   "theorems": [
    "C54_hyphens",
    "C54_underscores_plain",
    "C54_underscore_no_refuted"
   ],
   "note": "Proved for hyphens and for the plain name with underscores. Refuted for every invertible setting: find_setting strips underscores but setting_invertible_bool::parse looks at the unstripped name, so the map key \"_noX\" turns X on."
  },
  {
   "property": "C55",
   "status": "partial",
   "theorems": [
    "C55_parallel_for",
    "C55_exclusive_partial",
    "C55_finishing_overlap_refuted"
   ],
   "note": "Proved for parallel_for/parallel_for_each loops, where the finishing call comes after all others. Refuted for the API in general: the failed compare-exchange leaves expected == true, so a waiting finishing call enters while another thread is inside (log.cc:197-199)."
  },
  {
   "property": "C56",
   "status": "proved",
   "theorems": [
    "C56_ccitt",
    "C56_incremental"
   ],
   "note": ""
  },
  {
   "property": "C57",
   "status": "partial",
   "theorems": [
    "C57_requests_that_fit_partial",
    "C57_overrun_refuted"
   ],
   "note": "proved for requests that fit; refuted for every longer request (memcpy uses n, not the clamped count)"
  },
  {
   "property": "C58",
   "status": "partial",
   "theorems": [
    "C58_asymmetric",
    "C58_no_leading_zeros_partial",
    "C58_transitive_refuted",
    "C58_case_insensitive_less",
    "C58_characters"
   ],
   "note": "Asymmetric for all strings; strict weak order for strings whose numbers have no leading zeros; refuted otherwise by a cycle."
  },
  {
   "property": "C59",
   "status": "partial",
   "theorems": [
    "C59_hash_agrees",
    "C59_equality_is_up_to_case",
    "C59_embedded_nul_refuted"
   ],
   "note": "Proved for strings without NUL, which covers every C string; refuted with an embedded NUL, where strcasecmp stops and the hash does not."
  },
  {
   "property": "C60",
   "status": "partial",
   "theorems": [
    "C60_newline_terminated_file_partial",
    "C60_unterminated_file_refuted"
   ],
   "note": "False of the code: refuted with three file images. Proved: a file ending in a newline is read outside only where the terminated text would be rejected."
  },
  {
   "property": "C61",
   "status": "partial",
   "theorems": [
    "C61_token_is_verbatim_partial",
    "C61_line_numbers_refuted"
   ],
   "note": "Newlines inside quoted tokens are not counted (refuted). Proved: token text, skipped text, and the line number in terms of skipped newlines. char is signed (x86)."
  },
  {
   "property": "C62",
   "status": "proved",
   "theorems": [
    "C62_undefined_only_for_blank_ends",
    "C62_entity_parser_terminates"
   ],
   "note": "Termination is proved for all texts. Outcomes other than entities and errors (blank keys) are the subject of C21."
  },
  {
   "property": "C63",
   "status": "partial",
   "theorems": [
    "C63_other_loops_end_partial",
    "C63_truncated_hangs_refuted",
    "C63_missing_portal_undefined_refuted",
    "C63_am_overflow_refuted",
    "C63_first_line",
    "C63_am_table"
   ],
   "note": "Proved: all loops other than the skip to the end of a winding line end. Refuted: a file truncated inside a winding makes the skip loop run forever; a missing portal count leaves the values of the scan used uninitialised; PRT1-AM cluster numbers overflow the table."
  },
  {
   "property": "C64",
   "status": "proved",
   "theorems": [
    "C64_leaf_count",
    "C64_portal_pairs"
   ],
   "note": "The leaf numbers have to be below the number of leafs (C23 shows the reader lets one larger through). Planes are abstract with an opposite operation."
  },
  {
   "property": "C65",
   "status": "proved",
   "theorems": [
    "C65_all_counted",
    "C65_portal_count"
   ],
   "note": "Holds when leafs' portals are those of vis nodes (vis_portals)."
  },
  {
   "property": "C66",
   "status": "partial",
   "theorems": [
    "C66_merge_keeps_brushes_partial",
    "C66_duplicate_brush_refuted"
   ],
   "note": "Proved: no brush is lost; each is kept once when distinct brushes have distinct map brushes. Refuted: two brushes cut from one map brush can leave a duplicate since the list is sorted by map brush but compared by brush."
  },
  {
   "property": "C67",
   "status": "proved",
   "theorems": [
    "C67_leaf_faces_tile"
   ],
   "note": ""
  },
  {
   "property": "C68",
   "status": "proved",
   "theorems": [
    "C68_detail_fill"
   ],
   "note": ""
  },
  {
   "property": "C69",
   "status": "proved",
   "theorems": [
    "C69_visible_sides"
   ],
   "note": "Coplanarity is an abstract relation."
  },
  {
   "property": "C70",
   "status": "partial",
   "theorems": [
    "C70_save_then_load_partial",
    "C70_other_game_refuted",
    "C70_hexen2_guess"
   ],
   "note": "proved unless the model count makes the lump size a multiple of both record sizes; refuted there: Quake BSPs with 0 or 5 models load as Hexen II"
  },
  {
   "property": "C71",
   "status": "proved",
   "theorems": [
    "C71_visible_portal_has_brush",
    "C71_strongest_change",
    "C71_faces"
   ],
   "note": "Leaf contents as combined from brushes (before outside filling). Geometric matching of brush sides is not modelled."
  },
  {
   "property": "C72",
   "status": "partial",
   "theorems": [
    "C72_remainder",
    "C72_unnamed_unchanged",
    "C72_unknown_throws",
    "C72_hyphens_only_refuted",
    "C72_summary_refuted",
    "C72_help",
    "C72_summary"
   ],
   "note": "Refuted parts: a token of hyphens only calls front() on an empty string (settings.cc:674); any number is accepted for an enum setting and print_summary then throws std::exception for a value without a label."
  },
  {
   "property": "C73",
   "status": "proved",
   "theorems": [
    "C73_facenormals",
    "C73_decoupled_lm"
   ],
   "note": ""
  },
  {
   "property": "C74",
   "status": "partial",
   "theorems": [
    "C74_models",
    "C74_contents",
    "C74_quake_contents",
    "C74_quake_total",
    "C74_quake2_liquids_refuted",
    "C74_model_key_refuted",
    "C74_world_twice_refuted"
   ],
   "note": "Refuted parts: Quake II liquids are written as solid; a non-numeric \"*...\" model key throws; a \"*0\" model key repeats the world brush entities. Computation of bounds and plane types is an input of the model."
  },
  {
   "property": "C75",
   "status": "partial",
   "theorems": [
    "C75_truncated_partial",
    "C75_count_uninitialised_refuted",
    "C75_terminates",
    "C75_negative_count"
   ],
   "note": "Refuted: a cut between the version and the end of the brush count uses the count uninitialised. All other cuts are proved."
  },
  {
   "property": "C78",
   "status": "proved",
   "theorems": [
    "C78_no_junction_left",
    "C78_in_order",
    "C78_keeps_vertices"
   ],
   "note": "Positions along the edge are an oracle; which vertices are near an edge (FindEdgeVerts_FaceBounds) is not modelled."
  },
  {
   "property": "C79",
   "status": "proved",
   "theorems": [
    "C79_mwt_fragments",
    "C79_mwt_no_degenerate",
    "C79_mwt_minimal"
   ],
   "note": "Hypotheses on the doubles (absorbs, sums_grow, adds_at_most) are shown to hold for faces with integer coordinates. The 2D projection is an oracle."
  },
  {
   "property": "C80",
   "status": "partial",
   "theorems": [
    "C80_never_asserts",
    "C80_rotate",
    "C80_max_edges_partial",
    "C80_max_edges_refuted",
    "C80_only_first_split"
   ],
   "note": "Partial: refuted for faces that are already cut into several fans, because only the first face of the list is cut to the limit. Assertion freedom, rotation and single faces are proved."
  },
  {
   "property": "C81",
   "status": "partial",
   "theorems": [
    "C81_retopologize_partial",
    "C81_lost_triangle_refuted",
    "C81_degenerate_refuted"
   ],
   "note": "Partial: termination and covering are proved for runs that do not wrap around the array; the wrap-around branch loses a triangle, and a zero-area triangle can be left where it could be avoided (refuted with a concrete face). The lost triangle needs tests that are inconsistent with exact convex geometry."
  },
  {
   "property": "C76",
   "status": "partial",
   "theorems": [
    "C76_face_loops",
    "C76_face_fields",
    "C76_node_ranges",
    "C76_same_contents",
    "C76_one_forward_use",
    "C76_maxedges",
    "C76_terminates",
    "C76_edge_of_two_faces_refuted"
   ],
   "note": "Partial only in that \"an edge belongs to at most two faces\" is refuted: the reversed use is not limited. Counts below 2^31. Contents merging by texture (edge contents) as in the code; the tree is a value."
  },
  {
   "property": "C77",
   "status": "proved",
   "theorems": [
    "C77_skipped",
    "C77_texinfo_export",
    "C77_texture_name",
    "C77_plane_export"
   ],
   "note": "The texture table is a list of names and values; the vectors are opaque."
  },
  {
   "property": "C82",
   "status": "partial",
   "theorems": [
    "C82_vertices",
    "C82_again",
    "C82_close_corners_refuted"
   ],
   "note": "Partial: the spatial hash is an oracle that finds some vertex in the box whenever there is one; that close corners always become one vertex is refuted with three positions on a line. The rounding to float is a function."
  },
  {
   "property": "C83",
   "status": "partial",
   "theorems": [
    "C83_roundtrip_partial",
    "C83_no_phong_refuted",
    "C83_hintskip_refuted",
    "C83_mismatch_refuted",
    "C83_nonfinite_refuted",
    "C83_name_refuted"
   ],
   "note": "Partial: proved for tables with distinct export numbers, finite floats, valid UTF-8 names and no no_phong flag; the fields that are lost or swapped are refuted one by one. nlohmann::json is modelled as a value of objects and its dump and parse are inverse."
  },
  {
   "property": "C84",
   "status": "partial",
   "theorems": [
    "C84_find_texinfo",
    "C84_animation_partial",
    "C84_animation_refuted"
   ],
   "note": "Partial: FindTexinfo is proved for all graphs; loading frames of Quake 2 textures is proved to end when the chain ends or returns to its start, and proved to hang for a chain that enters a ring later."
  },
  {
   "property": "C85",
   "status": "proved",
   "theorems": [
    "C85_base",
    "C85_flow",
    "C85_run"
   ],
   "note": "The separating planes and the windings are oracles constrained to accept the lines of sight; a line of sight enters no leaf twice and can be followed backwards. Bits read from other portals may come from any earlier state of the run. A flow reads its own might-see set once, as it does not change while the portal is being worked on."
  },
  {
   "property": "C86",
   "status": "partial",
   "theorems": [
    "C86_archives_partial",
    "C86_overrun_refuted"
   ],
   "note": "Proved for archives whose entries lie inside the file. Refuted otherwise: an entry past the end sets failbit of the shared stream, which nothing clears, so every later load of that archive delivers zeros."
  },
  {
   "property": "C87",
   "status": "partial",
   "theorems": [
    "C87_refused_partial",
    "C87_not_added",
    "C87_opened",
    "C87_opens",
    "C87_malformed_refuted"
   ],
   "note": "Proved: refused exactly for a wrong magic number in a file of at least twelve bytes. Refuted: shorter files, truncated directories and names without NUL are used uninitialised or read past an array; the theorem says exactly when."
  },
  {
   "property": "C88",
   "status": "partial",
   "theorems": [
    "C88_order",
    "C88_load",
    "C88_add",
    "C88_split",
    "C88_direct",
    "C88_directory_hides_refuted"
   ],
   "note": "Order, recency and splitting proved for all reachable states. Refuted part: a directory called like the file hides it, because the lookup in directories does not exclude directories as the lookup of loose files does."
  },
  {
   "property": "C89",
   "status": "proved",
   "theorems": [
    "C89_wal",
    "C89_mip"
   ],
   "note": ""
  },
  {
   "property": "C90",
   "status": "partial",
   "theorems": [
    "C90_wal_refuted",
    "C90_mip_partial",
    "C90_pixel_count_refuted"
   ],
   "note": "Refuted: the theorems say exactly when a WAL or miptex file leads to a read outside the buffer or the use of uninitialised data (WAL has no check at all; the check of miptex files is made modulo 2^32), and when a miptex is refused. The pixel count is width*height modulo 2^32. The Half-Life palette branch is covered for well-formed files by C89 only."
  },
  {
   "property": "C91",
   "status": "partial",
   "theorems": [
    "C91_average_partial",
    "C91_no_pixel_refuted"
   ],
   "note": "Mean, rounding and bounds proved for textures with a pixel of alpha >= 127; without one - in particular for textures whose image is missing - the code converts 0/0 to bytes, which is undefined."
  },
  {
   "property": "C92",
   "status": "partial",
   "theorems": [
    "C92_middle",
    "C92_lookup",
    "C92_partition",
    "C92_overflow_refuted"
   ],
   "note": "Proved for all grids of positive size with fewer than 2^31 points; from 2^31 points on the int arithmetic of the point count overflows (refuted). Header floats are carried as bit patterns."
  },
  {
   "property": "C93",
   "status": "partial",
   "theorems": [
    "C93_leaf_partial",
    "C93_exact_partial",
    "C93_two_negative_refuted",
    "C93_clipnodes_refuted"
   ],
   "note": "Exact rational arithmetic; the search for equal planes is any function that returns planes within the tolerances. Proved for 0, 1 or 3 negative factors; with exactly two the planes are turned the wrong way (the condition is flip_faces instead of flip_faces & 1) and every walk takes the other child (refuted). Clipnodes are not given the new plane numbers at all, so clip hulls change even with factors 1 1 1 (refuted)."
  },
  {
   "property": "C94",
   "status": "partial",
   "theorems": [
    "C94_front_partial",
    "C94_corners",
    "C94_chain_refuted"
   ],
   "note": "Corners proved for all factors; front sides except with exactly two negative factors (inside out); the edges of a face no longer follow each other when an odd number of factors is negative, since they are reordered but not negated (refuted). Premise: faces do not share surfedges."
  },
  {
   "property": "C95",
   "status": "partial",
   "theorems": [
    "C95_texture_coordinates",
    "C95_bounds",
    "C95_grid_partial",
    "C95_grid_refuted"
   ],
   "note": "Texture coordinates and bounds proved; the light grid only for factors that are not negative: on an axis with a negative factor the grid is displaced by its extent (refuted). Exact rational arithmetic."
  },
  {
   "property": "C96",
   "status": "partial",
   "theorems": [
    "C96_no_space",
    "C96_stored_partial",
    "C96_space",
    "C96_plain_offset_refuted",
    "C96_two_scales_refuted",
    "C96_overrun_refuted",
    "C96_abort_refuted",
    "C96_stale_refuted",
    "C96_overflow_refuted"
   ],
   "note": "Pixels are parameters; sizes below a third of INT_MAX (above, id.lightofs * 3 overflows an int: refuted). Proved for plain, decoupled and scaled lightmaps where the scale is that of the model or -novanilla is used. Refuted: with scaled lightmaps the offset of the face itself is always -1 for the plain scale (copied before it is set); with another scale both lightmaps are written to one offset, may overrun the block into the lightmap of another face or stop the program; faces without styles keep the offset of the input file."
  },
  {
   "property": "C97",
   "status": "partial",
   "theorems": [
    "C97_brightest",
    "C97_style16_refuted",
    "C97_face_styles",
    "C97_sup_styles",
    "C97_style255_refuted"
   ],
   "note": "Brightness as exact integers. No style above 255 is ever saved, in spite of the message that LMSTYLE16 will hold it (refuted); a light of style 255 ends the list of styles engines read (refuted), otherwise all saved styles are used."
  },
  {
   "property": "C98",
   "status": "partial",
   "theorems": [
    "C98_sums",
    "C98_order",
    "C98_merge",
    "C98_slots",
    "C98_fifth",
    "C98_brightest_refuted",
    "C98_order_refuted"
   ],
   "note": "Colours as exact integers; operator/= not modelled. Up to four styles proved; a fifth replaces the dimmest even when it is dimmer (refuted), and the sums then depend on the order (refuted)."
  },
  {
   "property": "C99",
   "status": "proved",
   "theorems": [
    "C99_flood_fill",
    "C99_downsample",
    "C99_mean",
    "C99_blur",
    "C99_sizes"
   ],
   "note": "One colour channel as exact rationals, alpha 0 or 1. An image with more pixels than width times height that is all transparent would be filled without end (C99_sizes; callers pass matching sizes)."
  },
  {
   "property": "C100",
   "status": "partial",
   "theorems": [
    "C100_palette_partial",
    "C100_short_refuted",
    "C100_header_refuted"
   ],
   "note": "Proved for files of at least 768 bytes. Shorter files of 70 bytes or more with the right first bytes are read from before their start (767 bytes: a black palette), and files shorter than 16 bytes leave the header uninitialised (refuted). Files of 16 to 69 bytes are not characterised."
  },
  {
   "property": "C101",
   "status": "partial",
   "theorems": [
    "C101_leaf_contents",
    "C101_unresolved_refuted"
   ],
   "note": "Proved for all points at which the split oracle is exact and the bounds are sound. Refuted: a hundred brushes ending less than one unit beyond a plane make its value at most -99999, so no plane is chosen and the leaf mixes contents."
  },
  {
   "property": "C102",
   "status": "proved",
   "theorems": [
    "C102_builds",
    "C102_leaf"
   ],
   "note": "Proved without any hypothesis on the geometry."
  },
  {
   "property": "C103",
   "status": "partial",
   "theorems": [
    "C103_chop",
    "C103_ends",
    "C103_intersecting_refuted",
    "C103_count"
   ],
   "note": "Everything except \"non-intersecting\" is proved (termination for geometry with finitely many cells). Refuted: after a brush was cut by a later one, its pieces are not compared with the brushes after them, although the comment says the loop restarts with them."
  },
  {
   "property": "C104",
   "status": "partial",
   "theorems": [
    "C104_precise",
    "C104_detail_below",
    "C104_fast_refuted",
    "C104_fast",
    "C104_hint_partial",
    "C104_hint_refuted",
    "C104_value"
   ],
   "note": "Order, best value and separators are proved for the precise method. Refuted: midsplit chooses detail planes without marking the node; hint sides are split because every test of a brush clears hintsplit, so only the last brush counts. The value of a candidate is stated exactly."
  },
  {
   "property": "C105",
   "status": "partial",
   "theorems": [
    "C105_areas",
    "C105_portal_areas",
    "C105_lump",
    "C105_symmetric",
    "C105_ends",
    "C105_leaked",
    "C105_mixed_refuted",
    "C105_third_refuted"
   ],
   "note": "Proved for symmetric portal graphs and distinct area portal numbers, including termination. Refuted: a leaf whose contents are AREAPORTAL and something else stays in no area; a third area that borders on an area portal is not connected."
  },
  {
   "property": "C106",
   "status": "partial",
   "theorems": [
    "C106_styles",
    "C106_full",
    "C106_entities",
    "C106_again",
    "C106_threads_refuted"
   ],
   "note": "Proved for calls one after the other and for the pass over entities. Refuted for surface lights: MakeSurfaceLightsThread calls LightStyleForTargetname from several threads without a lock."
  },
  {
   "property": "C107",
   "status": "partial",
   "theorems": [
    "C107_escape",
    "C107_kept",
    "C107_again_refuted",
    "C107_path_refuted"
   ],
   "note": "The first two claims are proved. Refuted: a second run can find new escape sequences; \"c:\\base.wad\" is changed."
  },
  {
   "property": "C108",
   "status": "partial",
   "theorems": [
    "C108_round_trip",
    "C108_ends",
    "C108_etp_refuted",
    "C108_primitives_refuted",
    "C108_info_refuted",
    "C108_name_refuted",
    "C108_key_refuted",
    "C108_quark"
   ],
   "note": "The round trip is proved for plain and Valve 220 sides; termination and bounds are proved for texts without quotes. Refuted: sides with //TX1 or //TX2 come back as plain ones; no brush primitives are read or written; sides with one or two numbers of surface information print indeterminate values; quoted texture names lose their quotes; empty or blank keys read before the string."
  },
  {
   "property": "C109",
   "status": "partial",
   "theorems": [
    "C109_shape",
    "C109_valve",
    "C109_quaked_valve",
    "C109_etp",
    "C109_degenerate_refuted",
    "C109_quaked",
    "C109_wall_refuted",
    "C109_mirror_refuted"
   ],
   "note": "Proved over the real numbers: conversion to Valve 220, the shape of quaked and QuArK projections, and conversion back to quaked when the uninitialised plane of evalTexDefAtPoint has the axes of the face. Refuted: with a zero plane walls get a wrong shift; strongly scaled mirrored sides lose the mirroring; degenerate QuArK sides become Valve sides with scale 0. Not covered: brush primitives, the texture size in normalizeShift, projections with shear (they are changed on purpose), rounding. The rotation of converted Valve sides is never set and printed as it is."
  },
  {
   "property": "C110",
   "status": "partial",
   "theorems": [
    "C110_no_error",
    "C110_ends",
    "C110_inside",
    "C110_box",
    "C110_node",
    "C110_winding",
    "C110_lists",
    "C110_tiny_refuted"
   ],
   "note": "Proved for all trees with clipping as a parameter: no error, the ends of portals, their lists; that portals lie in their leafs and cover boxes and nodes holds if clipping is exact. Refuted when a piece is taken for tiny: the rest of the portal is kept unclipped, so it reaches into a leaf that has no portal there. Not covered: CalcTreeBounds_r, rounding, FError when the box is clipped away."
  },
  {
   "property": "C111",
   "status": "partial",
   "theorems": [
    "C111_list",
    "C111_grow",
    "C111_left_over_refuted",
    "C111_stack_refuted",
    "C111_stack",
    "C111_stack_resize",
    "C111_heap"
   ],
   "note": "Proved for all sequences of operations in which no winding grows again over the fixed array after it was shrunk (C111_grow: always so if windings are only built up). Refuted otherwise: clear, resize and assignment leave old elements in the vector, so a later push past the fixed array shows an old point; a push to a full stack winding is counted though it throws."
  },
  {
   "property": "C112",
   "status": "partial",
   "theorems": [
    "C112_cover",
    "C112_inside",
    "C112_convex",
    "C112_same",
    "C112_on",
    "C112_axial_refuted"
   ],
   "note": "Proved over the real numbers (no rounding) for strictly convex polygons and unit normals. Refuted for normals with a component 1 and other components that are not 0: the split points are then off the plane."
  },
  {
   "property": "C113",
   "status": "partial",
   "theorems": [
    "C113_plane",
    "C113_keeps",
    "C113_inside",
    "C113_defined",
    "C113_far_refuted"
   ],
   "note": "Proved over the real numbers (no rounding). Refuted: a winding with a point beyond the extents is dereferenced after it was discarded (brush.cc:286-301)."
  },
  {
   "property": "C114",
   "status": "partial",
   "theorems": [
    "C114_pairs",
    "C114_near",
    "C114_added",
    "C114_separate",
    "C114_again",
    "C114_found",
    "C114_between_refuted",
    "C114_zero_refuted"
   ],
   "note": "Numbers are integers in an arbitrary unit, rounding of the box is not modelled. Proved for planes whose normal has no component 1 or -1, or is axial (C114_near: up to half of the epsilon). Refuted for planes between two stored ones: they have no fixed number, and the opposite may be answered from the other pair; refuted for the normal 0 of degenerate faces: the opposite is answered with the same number."
  },
  {
   "property": "C115",
   "status": "proved",
   "theorems": [
    "C115_snap",
    "C115_faces",
    "C115_behind",
    "C115_edges",
    "C115_complete"
   ],
   "note": "Proved over the real numbers (no rounding). The table of planes is an oracle with the tolerance of C114."
  },
  {
   "property": "C116",
   "status": "partial",
   "theorems": [
    "C116_sides",
    "C116_touches",
    "C116_point",
    "C116_box",
    "C116_contains",
    "C116_short_refuted"
   ],
   "note": "Proved over the real numbers (no rounding), with the table of planes as an oracle with the tolerance of C114. Refuted: a brush with edges shorter than 1/2 gets no bevels for them, and then has points for the hull that are no such sum."
  },
  {
   "property": "C117",
   "status": "partial",
   "theorems": [
    "C117_styles",
    "C117_saved",
    "C117_needed",
    "C117_style255_refuted",
    "C117_negative_refuted",
    "C117_stale_refuted"
   ],
   "note": "Proved when no style is 255 and the file has not been lit before. Refuted: style 255 ends the list; a negative -facestyles saves styles that are not readable; faces without samples keep the styles of an earlier run."
  },
  {
   "property": "C118",
   "status": "partial",
   "theorems": [
    "C118_files",
    "C118_colours",
    "C118_litonly",
    "C118_litonly_refuses",
    "C118_litonly_negative",
    "C118_litonly_overrun_refuted",
    "C118_lit2_refuted",
    "C118_shift",
    "C118_shift_refuted"
   ],
   "note": "Proved for all flags but -lit2 alone. Refuted: a lit2 file has as many samples as the file had before, none for a fresh one, and memory outside the buffers is read otherwise; -litonly writes outside its buffers when lightmaps do not fit the data of the file; shifts above 30 or a short LMSHIFT lump are undefined."
  },
  {
   "property": "C119",
   "status": "partial",
   "theorems": [
    "C119_sign",
    "C119_fades",
    "C119_reach",
    "C119_finite",
    "C119_finite_refuted",
    "C119_fields",
    "C119_angle",
    "C119_cone"
   ],
   "note": "Proved over the real numbers (no rounding). Refuted for the allowed setting \"dist\" 0: lights with delay 1 and 2 divide by 0 at every sample."
  },
  {
   "property": "C120",
   "status": "partial",
   "theorems": [
    "C120_sphere",
    "C120_projected",
    "C120_sphere_refuted",
    "C120_behind",
    "C120_behind_refuted"
   ],
   "note": "Proved over the real numbers for colours of at most 255. Refuted for projected textures, whose colours are doubled: culling drops up to twice the gate (C120_projected: not more); refuted for samples closer than 0.1 to the plane. The test of the bounds of -visapprox rays is not modelled."
  },
  {
   "property": "C121",
   "status": "partial",
   "theorems": [
    "C121_range",
    "C121_monotone",
    "C121_none",
    "C121_full",
    "C121_range_refuted"
   ],
   "note": "Proved over the real numbers for dirtscale of at least 0. Refuted for a negative dirtscale of a light, which is accepted and brightens corners."
  },
  {
   "property": "C122",
   "status": "partial",
   "theorems": [
    "C122_range",
    "C122_brightest",
    "C122_order",
    "C122_proportional",
    "C122_range_refuted"
   ],
   "note": "Proved over the real numbers for lightcolorscale between 0 and 1, maxlight of at least 0 and positive gamma. Refuted for the other values, which are accepted: components become negative or undefined."
  },
  {
   "property": "C123",
   "status": "partial",
   "theorems": [
    "C123_luxel",
    "C123_lux",
    "C123_decoupled_partial",
    "C123_bilinear",
    "C123_decoupled_refuted"
   ],
   "note": "Proved over the real numbers for ordinary lightmaps. For lightmaps sampled from a decoupled one: proved at positions that are not negative; refuted between -1 and 0 (the interpolation extrapolates out of the range of bytes), and the byte in the .bsp is always 0."
  },
  {
   "property": "C124",
   "status": "partial",
   "theorems": [
    "C124_file",
    "C124_leaf",
    "C124_solid",
    "C124_solid_near",
    "C124_solid_refuted",
    "C124_clip",
    "C124_contents",
    "C124_faces",
    "C124_faces_near",
    "C124_visit",
    "C124_file_refuted",
    "C124_light",
    "C124_sample",
    "C124_any_solid",
    "C124_any_solid_refuted"
   ],
   "note": "Proved over the real numbers (no rounding). Refuted: nodes of a file are not checked, so a cyclic or short node lump makes the queries endless, undefined or an error; in a wedge a point counts as solid although the solid is more than the tolerance away; Light_PointInAnySolid does not take off the offset of the own model. BSP_FindNodeAtPoint is not modelled."
  },
  {
   "property": "C125",
   "status": "partial",
   "theorems": [
    "C125_total",
    "C125_cull",
    "C125_unvised",
    "C125_quake",
    "C125_quake2",
    "C125_no_row",
    "C125_world",
    "C125_world_refuted"
   ],
   "note": "Proved for lumps written by the model of vis (C07-C11). Refuted for faces that no leaf marks: they lose all lights as soon as there is visibility data."
  },
  {
   "property": "C126",
   "status": "partial",
   "theorems": [
    "C126_inverse",
    "C126_shift",
    "C126_given",
    "C126_units",
    "C126_world",
    "C126_degenerate",
    "C126_degenerate_refuted",
    "C126_size",
    "C126_size_refuted",
    "C126_sphere",
    "C126_samples",
    "C126_points"
   ],
   "note": "Proved over the real numbers (no rounding; -lux and bspx uses of the matrices are C73). Refuted: texture axes that are parallel in the plane of the face give a lightmap whose points are not numbers, and coordinates of more than 2^31 luxels are converted to int with undefined behaviour."
  },
  {
   "property": "C127",
   "status": "partial",
   "theorems": [
    "C127_texcoord",
    "C127_sample",
    "C127_sample_refuted",
    "C127_none"
   ],
   "note": "Proved for textures with a width and a height and coordinates below 2^32. Refuted for a height of 0 (only the width is checked) and for coordinates of at least 2^32."
  },
  {
   "property": "C128",
   "status": "partial",
   "theorems": [
    "C128_gate",
    "C128_near",
    "C128_none",
    "C128_shape",
    "C128_exact",
    "C128_area",
    "C128_list",
    "C128_regions",
    "C128_exact_refuted",
    "C128_distinct_refuted"
   ],
   "note": "Proved over the real numbers for convex faces whose points are equal or further apart than the tolerances; without that, the area differs by at most the length of an edge times 1/2000. Refuted without that: a merged face can cover points of neither face, and faces with a point in the middle of their common side give a face that has one point twice."
  },
  {
   "property": "C129",
   "status": "partial",
   "theorems": [
    "C129_source",
    "C129_levels",
    "C129_off",
    "C129_order_refuted",
    "C129_volume",
    "C129_own_distance_refuted"
   ],
   "note": "Proved for leafs that are one to a cluster in their order or not as many as the clusters (detail leafs), for BSPs whose face references are in range. Refuted for portal files that number as many clusters as leafs in another order. Slime sounds like water, and distance never matters. The volume at each distance is stated as well; beyond 100 it depends on the distance of the third kind of sound alone."
  },
  {
   "property": "C130",
   "status": "partial",
   "theorems": [
    "C130_wad",
    "C130_load",
    "C130_padding_refuted",
    "C130_palette_refuted"
   ],
   "note": "Proved for textures whose data is as long as width and height say. Refuted for textures read from a BSP file whose size is no multiple of four bytes (the padding is taken for data and shifts the entries behind it) and for Half-Life textures with a palette."
  },
  {
   "property": "C131",
   "status": "partial",
   "theorems": [
    "C131_models",
    "C131_names",
    "C131_onlyents",
    "C131_onlyents_text",
    "C131_lump",
    "C131_numbers",
    "C131_origin_refuted",
    "C131_shift_refuted",
    "C131_trigger_refuted",
    "C131_first_refuted",
    "C131_portal_refuted"
   ],
   "note": "Numbers are proved when the first entity is the world (its class is none whose brushes are merged); otherwise a door becomes model 0 (refuted). -onlyents agrees on all keys but \"origin\", \"_lmscale\" and \"style\", and on the whole text without origin brushes, rotate_ classes, area portals and -lmscale. Refuted: it loses the origin of an origin brush, and entities with only origin brushes or triggers under -notriggermodels shift all numbers behind them. Area portals are numbered anew in each hull (refuted). Region brushes are not modelled."
  },
  {
   "property": "C132",
   "status": "partial",
   "theorems": [
    "C132_points",
    "C132_union",
    "C132_union_empty_refuted",
    "C132_convert",
    "C132_convert_refuted",
    "C132_contains",
    "C132_disjoint",
    "C132_touching",
    "C132_intersect",
    "C132_grow",
    "C132_shrink_refuted",
    "C132_tree",
    "C132_tree_tight",
    "C132_no_portals_refuted",
    "C132_head_refuted",
    "C132_edge_vertices"
   ],
   "note": "Over the real numbers up to the largest number of the type. Proved for boxes whose corners are in order. Refuted: the union with an empty box is everything, an empty box converted to another number type is no longer empty, growing by a negative amount leaves the box. Bounds of nodes are proved for leafs whose portals have an extent in x, and tight if all leafs have; leafs without portals stretch the nodes above them to a corner of an older box, and as a head node dereference a null parent (refuted)."
  },
  {
   "property": "C133",
   "status": "partial",
   "theorems": [
    "C133_two_points",
    "C133_closest",
    "C133_closest_empty",
    "C133_inside",
    "C133_hull",
    "C133_interpolate",
    "C133_seam",
    "C133_overlap",
    "C133_overlap_point_refuted",
    "C133_area",
    "C133_centroid",
    "C133_flat_refuted",
    "C133_short",
    "C133_tangents",
    "C133_perpendicular_refuted",
    "C133_edge",
    "C133_edge_refuted",
    "C133_short_refuted",
    "C133_vertex_refuted"
   ],
   "note": "Over the real numbers, for convex polygons given by coordinates in a plane. Interpolation is proved for fans of triangles that reach the epsilons. Refuted: a triangle with an edge shorter than 0.05 gives no normal at any of its points although the caller relies on one, and points 1000 units beyond the short edge are inside of it; the normal at a corner less than 0.05 outside of an earlier triangle of the fan is not the one of the corner; an edge without length overlaps all edges; the centroid of points on a line is not a number; the two tangents are not perpendicular to each other; the edge chosen past a corner is not the one the point is least past of (the length of the edge is counted beyond its second end)."
  },
  {
   "property": "C134",
   "status": "partial",
   "theorems": [
    "C134_pairs",
    "C134_symmetric_partial",
    "C134_unit",
    "C134_flat",
    "C134_within",
    "C134_seamless",
    "C134_keys",
    "C134_value",
    "C134_edge",
    "C134_seamless_refuted",
    "C134_angle_refuted",
    "C134_symmetric_refuted",
    "C134_keys_refuted"
   ],
   "note": "Over the real numbers, for planes with normals of length 1. Mutual smoothing is proved when the concave angles are the usual ones, common normals for faces smoothed with the same faces at the vertex, the deviation for angles up to 90 degrees. Refuted: with a lesser concave angle a wide face can be smoothed with a narrow one but not the narrow with the wide; two faces smoothed with each other differ along their edge when only one of them is smoothed with a third; angles beyond 180 degrees smooth less, since the cosine grows again; the key of a model smooths faces of other models that have the same texinfo. Tangents are not modelled."
  },
  {
   "property": "C135",
   "status": "partial",
   "theorems": [
    "C135_resave",
    "C135_upgrade",
    "C135_kept",
    "C135_qbsp",
    "C135_other_game_refuted"
   ],
   "note": "Refuted: between the games conversions report success and lose what the other game does not have. If a bound is NaN the conversion to 16 bits is undefined."
  },
  {
   "property": "C136",
   "status": "partial",
   "theorems": [
    "C136_level",
    "C136_override_refuted",
    "C136_min",
    "C136_excluded",
    "C136_local",
    "C136_locals",
    "C136_local_floor_refuted",
    "C136_auto",
    "C136_auto_scaled_twice_refuted",
    "C136_auto_other_style_refuted",
    "C136_floor",
    "C136_surface_scale_refuted",
    "C136_mottle",
    "C136_mottle_repeats",
    "C136_mottle_assert_refuted",
    "C136_table",
    "C136_mottle_range",
    "C136_surface",
    "C136_minscale"
   ],
   "note": "Over the real numbers. Refuted: a model cannot have a lower level than worldspawn, and in Quake its own colour is ignored unless its level is higher; a sample that is bright in one colour is not raised by a local minimum light; autominlight is scaled (and gamma corrected) twice; samples in solid stay black in styles the point does not have; _surflight_minlight_scale of worldspawn counts twice and the key of a brush multiplies it; a debug build stops in the mottled pattern between -4096 and -4080. Rays and culling are oracles."
  },
  {
   "property": "C137",
   "status": "partial",
   "theorems": [
    "C137_warnings",
    "C137_clean",
    "C137_safe",
    "C137_undefined",
    "C137_s32",
    "C137_kids",
    "C137_height",
    "C137_unlit_refuted",
    "C137_unnoticed_refuted",
    "C137_cycle_refuted"
   ],
   "note": "Refuted: a face without a lightmap (-1) and a leaf without a row (-1) are always warned of; a vertex one beyond the last is not noticed and then read; a sum of marks of 2^32 or more, planes of nodes, and roots are not checked; a cycle of nodes is not noticed and the check never ends. Whether vertices are on their planes is not modelled, only which records are read."
  },
  {
   "property": "C138",
   "status": "partial",
   "theorems": [
    "C138_samples",
    "C138_split",
    "C138_sphere_refuted",
    "C138_sun",
    "C138_dirt",
    "C138_world",
    "C138_tilt",
    "C138_circle_refuted",
    "C138_suns",
    "C138_target",
    "C138_mangle_refuted",
    "C138_sun_divided_refuted",
    "C138_dome",
    "C138_domes",
    "C138_entities_refuted"
   ],
   "note": "Over the real numbers. Refuted: the lights of _deviance fill a cube, not the sphere the manual promises; the loop that should keep suns in a circle compares radians with degrees and never repeats; mangle of a sun entity is taken as a vector; a sun with a dividing formula and _deviance is divided twice; only one of the two dome keys counts when both are given to entities; a negative sun entity stays a point light. atan2 is an oracle, dirt of entities an integer."
  },
  {
   "property": "C139",
   "status": "partial",
   "theorems": [
    "C139_scale",
    "C139_scale_refuted",
    "C139_arghrad",
    "C139_arghrad_refuted",
    "C139_names"
   ],
   "note": "Refuted: the value of lightmap_scale is read after its pair is erased, so _lightmap_scale gets the value of the following pair, or undefined behaviour if it was the last; with both _angfade and _angwait the converted value is overridden by the unconverted one. The conversion of numbers is an oracle."
  },
  {
   "property": "C140",
   "status": "partial",
   "theorems": [
    "C140_replace",
    "C140_extract",
    "C140_settexinfo",
    "C140_lumps",
    "C140_convert",
    "C140_settexinfo_refuted",
    "C140_sequence_refuted",
    "C140_extract_refuted"
   ],
   "note": "Refuted: a texinfo number that does not fit destroys the BSP (the failed conversion is ignored, the file truncated); after a command that wrote, another --replace-entities reads a map that was not loaded, most commands throw, --convert writes the old format under the new name; after --extract-entities later commands write the BSP over the extracted text; --extract-entities without entities reads beyond the string; --extract-bspx-lump and --insert-bspx-lump without arguments make a path of a null pointer. Reading again is what C70 says (number of models, sizes); archives of the file system are left out."
  },
  {
   "property": "C141",
   "status": "partial",
   "theorems": [
    "C141_merge",
    "C141_keys",
    "C141_merge_refuted",
    "C141_text",
    "C141_read_ends",
    "C141_read_refuted",
    "C141_errors"
   ],
   "note": "Refuted: too few brush entities are not noticed and shift all later brushes; worldspawn with a key model loses the brushes of the world; switchable lights of other classes than light keep their style; empty files are accessed at [0]; braces inside a brush end it, so maps with brushDef or patches are errors; without a last line end the parser reads behind the text. Reading back is for brushes of tokens without quotes and comments."
  },
  {
   "property": "C142",
   "status": "partial",
   "theorems": [
    "C142_points",
    "C142_hull_points",
    "C142_bounds_refuted",
    "C142_leaf_refuted",
    "C142_kept",
    "C142_duplicate_refuted",
    "C142_twice_refuted",
    "C142_build",
    "C142_split",
    "C142_needs",
    "C142_zero",
    "C142_split_refuted",
    "C142_q2"
   ],
   "note": "Over the real numbers. Refuted: std::remove_if leaves planes found redundant in the array that the check of later planes reads, so a plane that comes twice can be dropped altogether: a brush with every plane twice is left without planes (the Quake 2 code keeps one of each); nothing outside the bounds of the head node or model is decompiled; a model whose head is a leaf stops the program or reads out of bounds; a brush with overlapping faces of two textures disappears. Not shown: that splitting ends (the planes of edges are an oracle)."
  },
  {
   "property": "C143",
   "status": "partial",
   "theorems": [
    "C143_plane",
    "C143_texture",
    "C143_shift_refuted",
    "C143_axes",
    "C143_origin",
    "C143_names",
    "C143_first",
    "C143_order_refuted"
   ],
   "note": "Over the real numbers. Refuted: with an offset the shift changes by the offset along the axis without dividing by the scale, so the texture comes back shifted unless the scale is 1; a later side without a name can copy an earlier one that was itself given a name, although a named side is more opposite. Writing the numbers as text and the choice between the points of the winding and these three are not modelled."
  },
  {
   "property": "C144",
   "status": "partial",
   "theorems": [
    "C144_keys",
    "C144_brush",
    "C144_origin_refuted",
    "C144_class_refuted",
    "C144_portals",
    "C144_groups_refuted",
    "C144_brushes",
    "C144_textures",
    "C144_contents_names",
    "C144_empty",
    "C144_throws",
    "C144_clip_refuted"
   ],
   "note": "Refuted: an origin before the model key is written as a key and the brushes are not moved; an area portal with several brushes makes the following ones take the wrong brush; an entity without classname is read past its end; a model number without digits is worldspawn; the nodraw flag of clip sides is overwritten by the flags of the texinfo. The numbers of an origin are an oracle; the order of Quake 2 brushes (unordered map of pointers) is left open."
  },
  {
   "property": "C145",
   "status": "partial",
   "theorems": [
    "C145_external",
    "C145_rotation",
    "C145_keys",
    "C145_mirror_refuted",
    "C145_origin",
    "C145_scale",
    "C145_scale_origin_refuted",
    "C145_scale_bevel_refuted",
    "C145_lmshift"
   ],
   "note": "Over the real numbers, for scales that are not zero (with a zero the code divides by it). Refuted: a negative scale turns the planes over, a slab is left without a point; -scale makes the planes anew from points that an origin brush did not move, so that the model is off by its scaled origin while the texture is moved, and gives bevels the plane with normal zero. Reading the keys as numbers is not modelled."
  },
  {
   "property": "C146",
   "status": "partial",
   "theorems": [
    "C146_kind",
    "C146_shell",
    "C146_slant_refuted",
    "C146_brushes",
    "C146_anti_refuted",
    "C146_parse",
    "C146_entities",
    "C146_both_refuted"
   ],
   "note": "Over the real numbers. Refuted: with a side that has no exactly opposite side the whole region is inside of one of the brushes around it; antiregions leave no brush out, because continue ends only the inner loop; with both kinds the loop over entities looks at the entity behind a removed one, brushes or not, and past the end. The bounds of brushes are given (C113, C132)."
  },
  {
   "property": "C147",
   "status": "partial",
   "theorems": [
    "C147_agree",
    "C147_written",
    "C147_add",
    "C147_ends",
    "C147_alias",
    "C147_primitives",
    "C147_region_refuted",
    "C147_tx_refuted",
    "C147_omit_refuted",
    "C147_regions",
    "C147_kind",
    "C147_words"
   ],
   "note": "Refuted: a region brush in brush primitives leaves its second brace unread, so the map is refused; _omitbrushes with brush primitives as well; the key behind the first brush means nothing; //TX1 behind surface information means an other projection to the library and nothing to qbsp. Agreement is stated for maps without _omitbrushes and regions, and for planes dropped by the same test. Plane arithmetic, texture lookup and SurfFlagsForEntity inside ParseBrushFace are not part of this model (C145)."
  },
  {
   "property": "C148",
   "status": "partial",
   "theorems": [
    "C148_local",
    "C148_world",
    "C148_ranges",
    "C148_color",
    "C148_default",
    "C148_keys",
    "C148_optional",
    "C148_liquid_refuted",
    "C148_phong_refuted",
    "C148_names",
    "C148_path_refuted",
    "C148_q2",
    "C148_hint",
    "C148_water",
    "C148_colorscale",
    "C148_mincolor",
    "C148_splitter",
    "C148_q2_hint_refuted",
    "C148_order",
    "C148_order_refuted",
    "C148_nan_refuted"
   ],
   "note": "Refuted: _phong 0 of an entity means nothing if worldspawn has a _phong_angle; Quake liquids keep their shadow although the code means to remove it, because contents are not known yet; names with a path have the flags of the last part and the contents of the whole; a Quake 2 brush named hint without the flag splits nothing; keys behind a brush mean nothing to it; colours out of range or not a number are undefined behaviour, and nan passes clamps. Numbers are rationals or NaN, reading of numbers is an oracle, without rounding to float."
  },
  {
   "property": "C149",
   "status": "partial",
   "theorems": [
    "C149_convex",
    "C149_tjunc",
    "C149_ends",
    "C149_pieces",
    "C149_overflow_refuted",
    "C149_match",
    "C149_once",
    "C149_lights",
    "C149_near",
    "C149_own",
    "C149_radlights_refuted"
   ],
   "note": "Refuted: a face with 64 points that has to be cut is written past the ends of dist and verts, and one with more points past the end of verts before its number of points is checked; templates of a lights file keep 16 samples without deviance, so each of their lights is there sixteen times. Numbers are real numbers; a piece without area gets no light. Faces with 52 to 63 points are outside of C149_pieces."
  },
  {
   "property": "C150",
   "status": "partial",
   "theorems": [
    "C150_target",
    "C150_mangle",
    "C150_axis",
    "C150_cone",
    "C150_angle_refuted",
    "C150_dark_refuted",
    "C150_autofalloff",
    "C150_frame",
    "C150_project",
    "C150_middle",
    "C150_fov",
    "C150_texel",
    "C150_bilinear",
    "C150_rotation"
   ],
   "note": "Refuted: a negative angle (-1 and -2 mean up and down for other entities) is a cone of 1 or 2 degrees; a light with a projected texture and neither mangle, project_mangle nor target becomes a spotlight without direction that lights nothing, as does a light at its own target. Numbers are real numbers; a field of view that is not a number is outside of the model."
  },
  {
   "property": "C151",
   "status": "partial",
   "theorems": [
    "C151_table",
    "C151_stable",
    "C151_throws",
    "C151_lower",
    "C151_order_refuted",
    "C151_long_refuted",
    "C151_frames",
    "C151_plus_refuted",
    "C151_clean",
    "C151_data",
    "C151_wads",
    "C151_key",
    "C151_path",
    "C151_cwd_refuted",
    "C151_empty_refuted",
    "C151_dirs"
   ],
   "note": "Refuted: the lower frames come after the texture although the comment of AddAnimTex asks for them first; for names of more than 15 characters frames with cut names are added instead; a texture called + makes AddAnimationFrames write over the end of its name (undefined); a WAD in the current directory goes before the second search path and takes the flag of the first, so it is not embedded if that is an -xwadpath; an empty name in the list of WADs opens the search path itself and keeps the default WAD from being used."
  },
  {
   "property": "C152",
   "status": "partial",
   "theorems": [
    "C152_energy",
    "C152_surface",
    "C152_dim_refuted",
    "C152_falloff",
    "C152_behind",
    "C152_value",
    "C152_high",
    "C152_cull_refuted",
    "C152_scale_refuted",
    "C152_vis_refuted",
    "C152_vis_partial",
    "C152_take",
    "C152_conserve",
    "C152_passes",
    "C152_once",
    "C152_debug_refuted",
    "C152_serial",
    "C152_threads_partial",
    "C152_race_refuted",
    "C152_offset_refuted"
   ],
   "note": "Refuted: surfaces darker than 1 emit in proportion to the square of their color; a thread whose face does not bounce can overwrite the answer of the others (load and store of any_to_bounce are separate), so bouncing can end early; SurfaceLight_VisCull drops a surface if any of its leafs is hidden; SurfaceLight_SphereCull looks at the far end of the face, so near samples lose light, and uses _surflightscale for bounced light too; -bouncedebug keeps no light at all; bounced light of a model with an offset comes from where the model would be without it. Proved with more than one thread only: the answer yes is right."
  },
  {
   "property": "C153",
   "status": "partial",
   "theorems": [
    "C153_error",
    "C153_format",
    "C153_hexen",
    "C153_hexen_refuted",
    "C153_values",
    "C153_order",
    "C153_rtx_refuted"
   ],
   "note": "Refuted: -hexen2 with -q2bsp, -qbism, -hlbsp or -q2rtx writes a Hexen II file without an error; -q2rtx with \"-q2bsp 0\" or \"-qbism 0\" writes a Quake file compiled as for Q2RTX, and with -bsp2 it is an error."
  },
  {
   "property": "C154",
   "status": "partial",
   "theorems": [
    "C154_given",
    "C154_defaults",
    "C154_soft",
    "C154_vis_refuted",
    "C154_debug_refuted",
    "C154_files",
    "C154_order_refuted",
    "C154_replaced",
    "C154_keys_refuted",
    "C154_colour",
    "C154_novanilla_refuted",
    "C154_debug"
   ],
   "note": "Refuted: \"-visapprox auto\" switches both approximations off instead of choosing one, as does the key of worldspawn; a debug mode of bounced light forgets -bounce N; -dirtdebug does not spread dirt as -dirt does; -bspx after -lit takes the .lit file away and -lit or -litonly after -lit2 the .lit2 file; such keys in worldspawn ignore their value and act over the command line; -novanilla does not imply -bspxlit."
  },
  {
   "property": "C155",
   "status": "partial",
   "theorems": [
    "C155_textures_partial",
    "C155_entities_partial",
    "C155_ends",
    "C155_errors",
    "C155_brace",
    "C155_bounds_refuted",
    "C155_silent_refuted",
    "C155_remap",
    "C155_case_refuted"
   ],
   "note": "Round trip proved for names that are plain words with lines of up to three numbers separated by a blank (quoted names, tabs and further words in a line are in the model and in the examples only). Refuted: a last line without an end of line, an empty or blank quoted name and a quote that is not closed read outside the memory; a quoted name at the very end is dropped silently; contents of -1 or beyond 32 bits wrap and 0x10 is 0; names are looked up with their case, unlike textures elsewhere."
  },
  {
   "property": "C156",
   "status": "partial",
   "theorems": [
    "C156_layout_partial",
    "C156_size",
    "C156_hang_refuted",
    "C156_wide_refuted",
    "C156_pixel",
    "C156_image",
    "C156_which",
    "C156_styles_refuted",
    "C156_uv",
    "C156_obj"
   ],
   "note": "Proved for lightmaps of at most 512 samples in width and 511 in height. Refuted: one that is 512 or higher is never placed, so bspinfo does not end; one that is wider than 512 lies over the next atlas; style 254 gets no image; a face with a style but offset -1 is read before the samples."
  },
  {
   "property": "C157",
   "status": "proved",
   "theorems": [
    "C157_base64",
    "C157_distinct"
   ],
   "note": "Over the bytes that the PNG writer delivers, which is not modelled."
  },
  {
   "property": "C158",
   "status": "partial",
   "theorems": [
    "C158_hex_partial",
    "C158_hex_refuted",
    "C158_offsets",
    "C158_phs_refuted"
   ],
   "note": "Proved for data in which every byte is 16 or more. Refuted: a byte below 16 is written with one digit, so different data have the same text; the PHS offsets go into the array \"pvs\", by turns with those of the PVS, and there is no array \"phs\"."
  },
  {
   "property": "C159",
   "status": "partial",
   "theorems": [
    "C159_rule",
    "C159_both",
    "C159_wall",
    "C159_walls_refuted",
    "C159_walls_q2",
    "C159_groups_partial",
    "C159_groups_refuted",
    "C159_water"
   ],
   "note": "Refuted: in Quake two detail walls whose flags differ in anything, such as _mirrorinside, leave T-junctions between them. The relation is transitive in Quake; refuted in Quake II, where translucent and opaque water count as the same type."
  },
  {
   "property": "C160",
   "status": "partial",
   "theorems": [
    "C160_assertion",
    "C160_none",
    "C160_channels",
    "C160_switchable",
    "C160_ordinary",
    "C160_other_channels",
    "C160_both_refuted",
    "C160_liquid_refuted",
    "C160_quake",
    "C160_world",
    "C160_glass_q2",
    "C160_alpha_refuted",
    "C160_skip_refuted",
    "C160_switch_refuted",
    "C160_scale_refuted",
    "C160_face",
    "C160_no_face"
   ],
   "note": "Proved for ordinary faces, and for fences and glass of the world of Quake. Refuted: _shadowself together with _shadowworldonly casts no shadow; liquids of such models shade everything; in Quake II the alpha of a face without flags of transparency is ignored; a ray in another channel that meets a model without faces ends light; _switchableshadow other than 1 fails an assertion; the warning about lightmap scales can never appear."
  },
  {
   "property": "C161",
   "status": "partial",
   "theorems": [
    "C161_file",
    "C161_bad_line_refuted",
    "C161_short_line_refuted",
    "C161_entities",
    "C161_missing",
    "C161_order",
    "C161_options_refuted",
    "C161_twice_refuted"
   ],
   "note": "Proved for lines of words, quoted words without backslashes, blanks and comments. Refuted: a line with a name but without three numbers ends the program by an uncaught exception; of several files given with -radlights only one is read; a file given with -radlights that is read anyway has its lights twice."
  },
  {
   "property": "C162",
   "status": "partial",
   "theorems": [
    "C162_two",
    "C162_trial_partial",
    "C162_pieces",
    "C162_one_side",
    "C162_no_face",
    "C162_face",
    "C162_exact",
    "C162_room",
    "C162_limit_refuted"
   ],
   "note": "Proved that the trial succeeds when the cut gives two brushes, and the converse for brushes inside the world in y and z. Refuted at the limits of the world: the trial looks at the first axis three times, so that it accepts planes for which the cut gives nothing or the uncut brush. Geometry of windings is given. When the cut and when the trial succeed is stated exactly."
  },
  {
   "property": "C163",
   "status": "partial",
   "theorems": [
    "C163_contains",
    "C163_inside",
    "C163_tight",
    "C163_defined",
    "C163_axial",
    "C163_flat_refuted",
    "C163_beside_refuted"
   ],
   "note": "Proved for boxes that are not flat, in rational arithmetic without rounding: the bounds contain their side, at a sloping plane they are inside the box and on each axis that the plane is not parallel to the new limit is reached by a point of that side. Refuted: the metric of a flat box is not a number, and the bounds at an axial plane beside the box are not inside it."
  },
  {
   "property": "C164",
   "status": "partial",
   "theorems": [
    "C164_replace",
    "C164_twice",
    "C164_defined",
    "C164_read_again",
    "C164_name_refuted",
    "C164_missing_refuted"
   ],
   "note": "Proved for the textures in memory, and for the file that is read again if mips are stored under their own names. Refuted: a mip whose header has another name renames the texture in the file, and textures that the BSP lists as missing have no name in memory, so that they stay missing; if a mip is found for a texture for which nothing was read, sizes without a value are compared. Archives are given as a function; the header is given as a function of the data; pixels are not modelled here."
  },
  {
   "property": "C165",
   "status": "partial",
   "theorems": [
    "C165_table",
    "C165_choice",
    "C165_always",
    "C165_zero_refuted",
    "C165_flat_refuted",
    "C165_point",
    "C165_corners"
   ],
   "note": "Proved in rational arithmetic: the entries of the table, that it ends at one, exactly which entry is chosen, and that there is one exactly for numbers up to one. A random point of a polygon is in every half space that contains the polygon, with the square root as a given number from 0 to 1. Refuted: 0 chooses the first entry even if it has no weight, and weights that are all zero give no table. Missing: rounding, with which the last entry of the table may be below one so that 1 has no entry."
  }
 ]
}