{
 "claims": [
  {
   "property": "C01",
   "status": "proved",
   "theorems": [
    "C01_flooding_builds_component_tree"
   ],
   "note": "flood_ok is spelled out in FloodCorrect/TreeSpec; hypothesis misses_level (one grey value unused) is needed, see C03"
  },
  {
   "property": "C02",
   "status": "proved",
   "theorems": [
    "C02_flooding_is_memory_safe_and_terminates"
   ],
   "note": "every access in the model is bounds checked, UB is a separate outcome"
  },
  {
   "property": "C03",
   "status": "proved",
   "theorems": [
    "C03_component_stack_is_large_enough_refuted"
   ],
   "note": "REFUTED: the property is FALSE of the code: witness with 256 nested levels; with at most 255 levels C01/C02 hold"
  },
  {
   "property": "C04",
   "status": "proved",
   "theorems": [
    "C04_connect_adds_one_adjacency"
   ],
   "note": "connect on any well-formed forest; result is again the component tree, of the view with one more adjacency"
  },
  {
   "property": "C05",
   "status": "proved",
   "theorems": [
    "C05_joins_terminate_without_cycles"
   ],
   "note": "any list of joins of stored regions"
  },
  {
   "property": "C06",
   "status": "proved",
   "theorems": [
    "C06_partitioned_building_gives_whole_tree",
    "C06_surviving_regions_are_the_extremal_regions"
   ],
   "note": "1, 4, 32 partitions, both passes; the four quadrants of the 32-partition merge run in index order"
  },
  {
   "property": "C07",
   "status": "proved",
   "theorems": [
    "C07_partitions_tile_the_image"
   ],
   "note": "including absence of i32 overflow of the offsets"
  },
  {
   "property": "C08",
   "status": "proved",
   "theorems": [
    "C08_schedule_joins_every_seam_pair_once"
   ],
   "note": "Fast MSER V2 schedules"
  },
  {
   "property": "C09",
   "status": "proved",
   "theorems": [
    "C09_variation_is_relative_growth"
   ],
   "note": "'ready' is met by every run of the tree builder (C29_runs_on_images); variations are IEEE single precision numbers"
  },
  {
   "property": "C10",
   "status": "proved",
   "theorems": [
    "C10_suppression_is_order_independent",
    "C10_candidates_are_the_stable_extremal_regions",
    "C10_versions_agree"
   ],
   "note": "the second theorem speaks of pixel sets only"
  },
  {
   "property": "C11",
   "status": "proved",
   "theorems": [
    "C11_recognition_does_not_depend_on_the_schedule"
   ],
   "note": "workers interleave at the granularity of single steps on shared regions"
  },
  {
   "property": "C12",
   "status": "proved",
   "theorems": [
    "C12_reported_regions_respect_the_limits"
   ],
   "note": ""
  },
  {
   "property": "C13",
   "status": "proved",
   "theorems": [
    "C13_delta_zero_keeps_all",
    "C13_unbounded_variation_keeps_all",
    "C13_negative_similarity_keeps_the_stable"
   ],
   "note": ""
  },
  {
   "property": "C14",
   "status": "proved",
   "theorems": [
    "C14_candidates_are_ordered"
   ],
   "note": ""
  },
  {
   "property": "C15",
   "status": "proved",
   "theorems": [
    "C15_reported_nested_regions_differ",
    "C15_removed_regions_are_duplicates"
   ],
   "note": "the comparison is the single precision one of the code"
  },
  {
   "property": "C16",
   "status": "proved",
   "theorems": [
    "C16_reported_number_is_right"
   ],
   "note": ""
  },
  {
   "property": "C17",
   "status": "proved",
   "theorems": [
    "C17_records_hold_the_pixels_of_the_regions",
    "C17_records_are_extremal_regions"
   ],
   "note": "total correctness of the whole call: the theorem says that the call succeeds (no undefined behaviour, enough fuel) and what it returns"
  },
  {
   "property": "C18",
   "status": "proved",
   "theorems": [
    "C18_one_thread_refuted",
    "C18_thirty_two_threads_refuted"
   ],
   "note": "REFUTED: the property is FALSE of the code for 1 thread (reads partitions that do not exist) and for 32 threads (pixels of other partitions are missing); for 4 threads see C17"
  },
  {
   "property": "C19",
   "status": "proved",
   "theorems": [
    "C19_dark_level_is_the_greatest_value",
    "C19_bright_level_is_the_least_value_refuted"
   ],
   "note": "proved for dark regions; REFUTED for bright regions: the level reported is that of the inverted image, for every region"
  },
  {
   "property": "C20",
   "status": "proved",
   "theorems": [
    "C20_rectangle_corner",
    "C20_rectangle_is_the_bounding_box_refuted"
   ],
   "note": "left and top are proved; REFUTED for right and bottom: joining the boxes of the partitions tests the far side only if the near side did not change (img_fast_mser_v2.cpp:1987-1997)"
  },
  {
   "property": "C21",
   "status": "proved",
   "theorems": [
    "C21_eight_neighbours_refuted"
   ],
   "note": "REFUTED: the property is FALSE of the code (V2)"
  },
  {
   "property": "C22",
   "status": "proved",
   "theorems": [
    "C22_bright_pass_is_dark_pass_of_inverted_image"
   ],
   "note": ""
  },
  {
   "property": "C23",
   "status": "proved",
   "theorems": [
    "C23_candidate_buffer_has_room"
   ],
   "note": "any state of the buffer, hence any history"
  },
  {
   "property": "C24",
   "status": "proved",
   "theorems": [
    "C24_pixel_words_decode"
   ],
   "note": ""
  },
  {
   "property": "C25",
   "status": "proved",
   "theorems": [
    "C25_block_memory_is_a_list",
    "C25_addresses_are_stable",
    "C25_init_again_keeps_the_blocks",
    "C25_clear_frees_all_blocks",
    "C25_exponent_0_refuted"
   ],
   "note": "proved for all exponents with a defined block size, with undefined or x86 behaviour of large shifts; REFUTED for exponent 0 on a new object: init reads the first of no blocks"
  },
  {
   "property": "C26",
   "status": "proved",
   "theorems": [
    "C26_lists_hold_the_components"
   ],
   "note": "for both connectivities and both passes, on buffers with any contents; includes absence of undefined behaviour and of failed assertions"
  },
  {
   "property": "C27",
   "status": "proved",
   "theorems": [
    "C27_reading_terminates",
    "C27_results_are_well_formed"
   ],
   "note": "the second theorem shows that all results of calls meet the hypothesis of the first"
  },
  {
   "property": "C28",
   "status": "proved",
   "theorems": [
    "C28_own_points_are_copied",
    "C28_shared_points_refuted"
   ],
   "note": "proved for records that own their points; REFUTED for all records in shared memory: the copy keeps pointers into the memory of the source"
  },
  {
   "property": "C29",
   "status": "proved",
   "theorems": [
    "C29_reported_sets_do_not_depend_on_the_partitions",
    "C29_runs_on_images"
   ],
   "note": "the second theorem shows that every image meets the hypotheses of the first, in both channels"
  },
  {
   "property": "C30",
   "status": "proved",
   "theorems": [
    "C30_reported_regions_are_extremal_and_laminar",
    "C30_reported_regions_are_all_stable_regions"
   ],
   "note": ""
  },
  {
   "property": "C31",
   "status": "proved",
   "theorems": [
    "C31_prefix_sums",
    "C31_needs_one_more_element"
   ],
   "note": "sums modulo 2^32 (u32)"
  },
  {
   "property": "C32",
   "status": "proved",
   "theorems": [
    "C32_bubble_sort_sorts",
    "C32_heap_sort_sorts",
    "C32_index_sort_permutes",
    "C32_index_sort_refuted"
   ],
   "note": "proved for bubble_sort and heap_sort; REFUTED for the index-returning sort: its inner loop has the wrong bound, it permutes but does not order"
  },
  {
   "property": "C33",
   "status": "proved",
   "theorems": [
    "C33_top_k_keeps_the_best",
    "C33_top_0_refuted"
   ],
   "note": "proved for k > 0; REFUTED for k = 0: the first value fed is compared with an element that does not exist"
  },
  {
   "property": "C34",
   "status": "proved",
   "theorems": [
    "C34_maximal_run"
   ],
   "note": ""
  },
  {
   "property": "C35",
   "status": "proved",
   "theorems": [
    "C35_bag_value_is_optimal",
    "C35_flags_tell_the_choice_refuted"
   ],
   "note": "the value is proved; REFUTED for the flags: they may choose a subset that does not fit"
  },
  {
   "property": "C36",
   "status": "proved",
   "theorems": [
    "C36_longest_common_substring",
    "C36_first_element_refuted"
   ],
   "note": "proved for substrings that do not consist of the first element of the second string only; REFUTED for those: the first row of the matrix is not compared with the length so far"
  },
  {
   "property": "C37",
   "status": "proved",
   "theorems": [
    "C37_append_rect",
    "C37_append_point",
    "C37_appending_an_empty_rectangle_refuted"
   ],
   "note": "proved, also appending to an empty rectangle; REFUTED when an empty rectangle is appended: it is treated as a point"
  },
  {
   "property": "C38",
   "status": "proved",
   "theorems": [
    "C38_extremal_elements",
    "C38_index_from_multi_index",
    "C38_multi_index_refuted",
    "C38_flip_vector_permutes",
    "C38_flip_vector_reverses_refuted"
   ],
   "note": "proved for the extremal elements and index_from_multi_index; REFUTED for multi_index_from_index (reads behind the sizes, wrong digits) and for flip_vector (wrong from four elements on; it permutes, and reverses up to three)"
  },
  {
   "property": "C39",
   "status": "proved",
   "theorems": [
    "C39_largest_component_covers_the_image_refuted",
    "C39_largest_component_is_the_interior"
   ],
   "note": "false as stated; for every image of at least 3 x 3 the largest component is exactly the interior"
  },
  {
   "property": "C40",
   "status": "proved",
   "theorems": [
    "C40_bright_only_extraction_refuted",
    "C40_bright_only_call_refuted"
   ],
   "note": "REFUTED: the property is FALSE of the code"
  },
  {
   "property": "C41",
   "status": "proved",
   "theorems": [
    "C41_images_smaller_than_the_grid_refuted"
   ],
   "note": "refuted: 1x3 image, 4 threads, root of 5 pixels"
  },
  {
   "property": "C42",
   "status": "proved",
   "theorems": [
    "C42_heaps_are_left_in_place",
    "C42_heaps_have_room_in_both_channels_refuted"
   ],
   "note": "holds for similarity >= 0; FALSE of the code for a negative similarity (m_heap is advanced at line 1181 and restored only if similarity >= 0)"
  },
  {
   "property": "C43",
   "status": "proved",
   "theorems": [
    "C43_serial_and_parallel_agree_refuted"
   ],
   "note": "REFUTED: the property is FALSE of the code: delta 0 with a negative maximal variation"
  },
  {
   "property": "C44",
   "status": "proved",
   "theorems": [
    "C44_candidate_buffer_has_room_for_any_number_refuted"
   ],
   "note": "REFUTED: the property is FALSE of the code: 32 bit product wraps"
  },
  {
   "property": "C46",
   "status": "proved",
   "theorems": [
    "C46_records_are_the_stable_regions",
    "C46_records_respect_the_parameters",
    "C46_records_do_not_depend_on_the_schedule"
   ],
   "note": "channel_result is what C17 proves of every call"
  },
  {
   "property": "C47",
   "status": "proved",
   "theorems": [
    "C47_odd_even_sort",
    "C47_negative_values_refuted"
   ],
   "note": "proved for non-negative values; REFUTED for negative odd values"
  },
  {
   "property": "C48",
   "status": "proved",
   "theorems": [
    "C48_region_blocks_refuted"
   ],
   "note": "REFUTED: the exponent is 2000 (img_fast_mser_v2.cpp:243), the shift is undefined behaviour; the other theorems about regions assume that the block memory works, as it does on x86 (C25)"
  },
  {
   "property": "C49",
   "status": "proved",
   "theorems": [
    "C49_in_block_refuted"
   ],
   "note": "REFUTED: false for every element of a full block once there is a later block and addresses increase (the branch at mt_block_memory.h:183-187 returns the wrong value)"
  },
  {
   "property": "C50",
   "status": "proved",
   "theorems": [
    "C50_destroying_a_copy_refuted",
    "C50_extracting_again_refuted"
   ],
   "note": "REFUTED: memory from new[] is released with free and memory from malloc with delete[]"
  },
  {
   "property": "C51",
   "status": "proved",
   "theorems": [
    "C51_builds_the_component_tree"
   ],
   "note": "for both connectivities and both passes; no restriction on the number of grey levels (the component stack has 258 slots here)"
  },
  {
   "property": "C52",
   "status": "proved",
   "theorems": [
    "C52_records_are_extremal_regions",
    "C52_levels_are_image_values",
    "C52_memory_is_used_up"
   ],
   "note": "both connectivities and channels, any row step"
  },
  {
   "property": "C53",
   "status": "proved",
   "theorems": [
    "C53_same_regions_as_fast_mser"
   ],
   "note": "compares the results of complete calls; rows contiguous (V2 needs that)"
  },
  {
   "property": "C54",
   "status": "proved",
   "theorems": [
    "C54_records_are_the_stable_regions",
    "C54_records_respect_the_parameters"
   ],
   "note": "stability computed in the float arithmetic of the code, components defined on pixels"
  },
  {
   "property": "C55",
   "status": "proved",
   "theorems": [
    "C55_result_does_not_depend_on_the_buffers",
    "C55_one_result_per_channel"
   ],
   "note": "includes absence of undefined behaviour and of failed allocation sizes"
  },
  {
   "property": "C56",
   "status": "proved",
   "theorems": [
    "C56_records_are_extremal_regions_of_the_interior",
    "C56_no_record_has_a_border_pixel"
   ],
   "note": "soundness of the records; which of the regions are reported is not characterised"
  },
  {
   "property": "C57",
   "status": "proved",
   "theorems": [
    "C57_every_image_is_processed_refuted"
   ],
   "note": "false: every image of one or two rows makes the code access memory outside its buffer"
  },
  {
   "property": "C58",
   "status": "proved",
   "theorems": [
    "C58_bright_regions_alone_refuted"
   ],
   "note": "false: heap offsets come from the level counts of the image that is not inverted; witness with repeated points"
  },
  {
   "property": "C59",
   "status": "proved",
   "theorems": [
    "C59_v1_slices_fill_the_arrays"
   ],
   "note": ""
  },
  {
   "property": "C60",
   "status": "proved",
   "theorems": [
    "C60_v1_lists_the_extremal_regions"
   ],
   "note": "four-neighbour connectivity, null mask, rows without gaps"
  },
  {
   "property": "C61",
   "status": "proved",
   "theorems": [
    "C61_v1_bright_pass_on_reused_buffers"
   ],
   "note": ""
  },
  {
   "property": "C62",
   "status": "proved",
   "theorems": [
    "C62_v1_thread_number_does_not_matter"
   ],
   "note": ""
  },
  {
   "property": "C63",
   "status": "proved",
   "theorems": [
    "C63_v1_and_v2_build_the_same_regions"
   ],
   "note": "dark pass"
  },
  {
   "property": "C64",
   "status": "proved",
   "theorems": [
    "C64_v1_component_stack_is_large_enough_refuted"
   ],
   "note": "false: 256 levels and the sentinel need 257 entries"
  },
  {
   "property": "C65",
   "status": "proved",
   "theorems": [
    "C65_v1_handles_images_smaller_than_the_grid_refuted"
   ],
   "note": "false: an empty partition writes beyond its slice"
  },
  {
   "property": "C66",
   "status": "proved",
   "theorems": [
    "C66_v1_candidates_are_the_stable_extremal_regions"
   ],
   "note": ""
  },
  {
   "property": "C67",
   "status": "proved",
   "theorems": [
    "C67_v1_reports_stable_regions_without_duplicates"
   ],
   "note": ""
  },
  {
   "property": "C68",
   "status": "proved",
   "theorems": [
    "C68_v1_reports_do_not_depend_on_the_threads"
   ],
   "note": ""
  },
  {
   "property": "C69",
   "status": "proved",
   "theorems": [
    "C69_v1_and_v2_report_the_same"
   ],
   "note": "dark pass"
  },
  {
   "property": "C70",
   "status": "proved",
   "theorems": [
    "C70_v1_any_threshold_reports_valid_regions_refuted"
   ],
   "note": "false for thresholds of 1 and more: a valid region met twice is turned invalid but stays counted"
  },
  {
   "property": "C71",
   "status": "proved",
   "theorems": [
    "C71_v1_records_hold_the_stable_regions"
   ],
   "note": ""
  },
  {
   "property": "C72",
   "status": "proved",
   "theorems": [
    "C72_v1_result_does_not_depend_on_the_schedules"
   ],
   "note": ""
  },
  {
   "property": "C73",
   "status": "proved",
   "theorems": [
    "C73_v1_records_do_not_depend_on_the_threads"
   ],
   "note": ""
  },
  {
   "property": "C74",
   "status": "proved",
   "theorems": [
    "C74_v1_and_v2_records_list_the_same"
   ],
   "note": ""
  },
  {
   "property": "C75",
   "status": "proved",
   "theorems": [
    "C75_v1_every_record_can_be_read_refuted"
   ],
   "note": "false: the division of the work rounds down, so a top region beyond the last share is dealt to no worker"
  },
  {
   "property": "C76",
   "status": "proved",
   "theorems": [
    "C76_v1_one_thread_offsets_delimit_the_regions"
   ],
   "note": "the rectangle of a record is not set with one thread"
  },
  {
   "property": "C77",
   "status": "proved",
   "theorems": [
    "C77_drawing_a_v1_record_shows_its_region",
    "C77_drawing_a_cv_record_shows_its_region"
   ],
   "note": "before resizing, which is not modelled"
  },
  {
   "property": "C78",
   "status": "proved",
   "theorems": [
    "C78_drawing_a_v2_record_loses_pixels_refuted"
   ],
   "note": "false: the rectangle can be a column short (C20) and the pixels outside of it are not drawn"
  },
  {
   "property": "C79",
   "status": "proved",
   "theorems": [
    "C79_dark_channel_image_shows_the_least_level"
   ],
   "note": ""
  },
  {
   "property": "C80",
   "status": "proved",
   "theorems": [
    "C80_bright_channel_image_shows_dark_levels_refuted"
   ],
   "note": "false: line 87 writes the level of the dark component of the same number, or indexes past the end"
  },
  {
   "property": "C81",
   "status": "proved",
   "theorems": [
    "C81_connect_component_reads_unwritten_memory_refuted"
   ],
   "note": "false for every image with a figure: ptr(1, 1) is row and channel, so flags are read from bytes never written"
  },
  {
   "property": "C82",
   "status": "proved",
   "theorems": [
    "C82_passes_build_the_component_trees",
    "C82_calls_return",
    "C82_results_do_not_depend_on_the_buffers"
   ],
   "note": "the image misses a grey value; see C88 for images with all of them"
  },
  {
   "property": "C83",
   "status": "proved",
   "theorems": [
    "C83_records_are_extremal_regions",
    "C83_levels_are_image_values"
   ],
   "note": ""
  },
  {
   "property": "C84",
   "status": "proved",
   "theorems": [
    "C84_records_are_the_stable_regions",
    "C84_records_respect_the_parameters"
   ],
   "note": ""
  },
  {
   "property": "C85",
   "status": "proved",
   "theorems": [
    "C85_same_regions_as_cv_mser",
    "C85_same_regions_as_fast_mser"
   ],
   "note": ""
  },
  {
   "property": "C86",
   "status": "proved",
   "theorems": [
    "C86_row_step_refuted"
   ],
   "note": "false: rows are read as if adjacent (img_ms_mser.cpp:160, 176-180)"
  },
  {
   "property": "C87",
   "status": "proved",
   "theorems": [
    "C87_bright_regions_alone_refuted"
   ],
   "note": "false: the levels are counted without inverting them (img_ms_mser.cpp:159-217)"
  },
  {
   "property": "C88",
   "status": "proved",
   "theorems": [
    "C88_all_grey_values_refuted"
   ],
   "note": "false: m_comp has 256 entries and one is the sentinel"
  },
  {
   "property": "C89",
   "status": "proved",
   "theorems": [
    "C89_passes_build_the_component_trees",
    "C89_calls_return"
   ],
   "note": "images of fewer than 2^31 / 256 pixels for calls"
  },
  {
   "property": "C90",
   "status": "proved",
   "theorems": [
    "C90_records_are_extremal_regions",
    "C90_levels_are_image_values"
   ],
   "note": ""
  },
  {
   "property": "C91",
   "status": "proved",
   "theorems": [
    "C91_records_are_the_stable_regions",
    "C91_nested_records_differ",
    "C91_same_regions_as_cv_mser",
    "C91_same_regions_as_fast_mser"
   ],
   "note": "needs m_max_point below the number of pixels; see C93"
  },
  {
   "property": "C92",
   "status": "proved",
   "theorems": [
    "C92_reuse_for_another_size_refuted"
   ],
   "note": "false: m_regions is only cleared when the number of pixels is the same (img_origin_mser.cpp:594-600)"
  },
  {
   "property": "C93",
   "status": "proved",
   "theorems": [
    "C93_whole_image_refuted"
   ],
   "note": "false: the root is not excluded (img_origin_mser.cpp:38-185)"
  },
  {
   "property": "C94",
   "status": "proved",
   "theorems": [
    "C94_points_are_different_pixels_for_any_step_gap_refuted"
   ],
   "note": "false: stepgap is computed but not stored in m_step_gap (img_opencv_mser.cpp:375-381, 293)"
  },
  {
   "property": "C95",
   "status": "proved",
   "theorems": [
    "C95_records_are_connected_refuted"
   ],
   "note": "false: when the lower component is larger, a merge records a part of it as history (img_opencv_mser.cpp:64-89)"
  },
  {
   "property": "C96",
   "status": "proved",
   "theorems": [
    "C96_first_list_has_dark_regions_refuted"
   ],
   "note": "false: the image is inverted for gray_mask 0 (img_opencv_mser.cpp:200-224)"
  },
  {
   "property": "C97",
   "status": "proved",
   "theorems": [
    "C97_levels_are_values_of_pixels_refuted"
   ],
   "note": "false: the level is inverted in the pass that does not invert the image, and is that of the component after the region (img_opencv_mser.cpp:180)"
  },
  {
   "property": "C98",
   "status": "proved",
   "theorems": [
    "C98_every_call_returns"
   ],
   "note": "loop refines the abstract flooding machine; fuel 6*w*h is enough"
  },
  {
   "property": "C99",
   "status": "proved",
   "theorems": [
    "C99_records_are_parts_of_components"
   ],
   "note": "the paths may leave the record (C95); that regions are stable is not claimed"
  },
  {
   "property": "C100",
   "status": "proved",
   "theorems": [
    "C100_records_are_nested_or_apart"
   ],
   "note": "every record is a segment of the list of its component; Flocq used for monotone division"
  },
  {
   "property": "C101",
   "status": "proved",
   "theorems": [
    "C101_records_grow_little_refuted"
   ],
   "note": "REFUTED: the property is FALSE of the code"
  },
  {
   "property": "C102",
   "status": "proved",
   "theorems": [
    "C102_old_buffer_contents_do_not_matter"
   ],
   "note": "two runs related to the same state of the abstract machine stay in step"
  }
 ]
}