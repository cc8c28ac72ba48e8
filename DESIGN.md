# Formal model of fast-mser: design

The subject is the C++ library in /repo (mmmn143/fast-mser). The heart is
`img_fast_mser_v2` (Fast MSER V2): flood each image partition into a component
tree, join the partition trees along seams, recognise stable regions, remove
near-duplicates, and write out pixel memory. Everything is modelled in Rocq
(Coq 8.16.1), in `rocq/theories`, as executable Gallina functions that follow
the C++ function by function. The code itself is never run here; the tie
between model and code is the line citation on each definition.

## Conventions of the model

* Arrays are lists; an access outside the list is a distinct `UB` outcome.
* Pointers into arrays are `nat` indices; region pointers are indices into the
  region table (per partition: the `er index`).
* Loops without a syntactic bound run on fuel; running out of fuel is a distinct
  outcome which the theorems exclude.
* Machine integers are unbounded unless the property is about the bits
  (pixel words: direction in the top 3 bits, region index in the low 29).
* Floating point: single and double precision numbers are those of `SpecFloat`
  (`FloatModel`); order and rounding facts are proved in `FloatFacts` with Flocq.

## Layers

1. `Spec` - images, adjacency, connectivity inside a sub-level set, extremal
   regions. Short and independent of the algorithm.
2. `FloodModel` / proofs - `process_tree_patch`, `make_tree_patch` (C01-C03, C22, C24).
3. `ConnectModel` / proofs - `connect`, real-parent macros (C04, C05).
4. `PartModel`, `WholeModel` / proofs - partition geometry, joining schedule, whole image (C06-C08).
5. `RecogModel` / proofs - variation, filters, suppression, ordering, duplicates (C09-C16, C23, C29, C30).
6. `ExtractModel` / proofs - pixel memory and its decoding (C17-C20, C27).
7. `RunModel` / proofs - a whole call, both channels (C17, C22, C29, C30, C46).
8. Side models - block memory (C25, C48, C49), CV-MSER+ (C26, C51), result copying
   (C28, C50), utilities (C31-C38, C47).
9. `OcvModel` / proofs - OpenCV3-style extraction as a refinement of the abstract flooding
   of `FloodAbs` (C39, C56-C58).
10. `V1Model`, `V1JoinModel`, `V1BuildModel`, `V1AllocModel` / proofs - Fast MSER V1: flooding
   with linked pixel lists, joining trees and lists along the seams (C59-C65); `V1RecogModel` - recognition (C66-C70);
   `V1ExtractModel` - extraction (C71-C76).
   `DrawModel`, `ResultModel`, `CcModel` - images made from results and connected components (C77-C81).
11. `MsModel` / proofs - MS-MSER: the flooding of V2 with another order of directions,
   recognition reduced to CV-MSER+'s and V2's (C82-C88).
12. `OrgModel` / proofs - the original implementation: merging of regions over points sorted
   by grey level, with shortcuts to ancestors; recognition reduced to V2's (C89-C93).
13. `Oc2Model` / proofs - the OpenCV-style extraction: flooding with linked points and growth
   histories (C98-C100, C102; C94-C97, C101 by witness).

## Plan per property

| id | what is modelled | how proved |
|----|------------------|------------|
| C01 | flooding step machine on words, heap, component stack, region table | invariant over steps: done pixels partitioned by open components, closure under adjacency, connectivity to the current pixel |
| C02 | same machine with bounds-checked memory | same invariant gives in-bounds heap segments; step count 5 per pixel |
| C03 | 256-slot component stack | expected false: witness image; true for at most 255 distinct levels |
| C04 | `connect` on a parent-pointer table with merged flags | loop invariant: equivalence generated by tree plus pending edge is constant |
| C05 | same | measure: sum of the two ancestor chain lengths |
| C06 | flood + join for 1/4/32 partitions | composition of C01, C04, C08 |
| C07 | partition arithmetic of `allocate_memory` | arithmetic |
| C08 | joining schedules | arithmetic plus finite sweep over partition indices |
| C09 | variation walks of the three implementations | induction on ancestor chain |
| C10 | suppression loops as folds with in-place flags | invariant: flags = base filter and order independent predicate on processed pairs |
| C11 | workers as interleaved steps | commutation up to real parents |
| C12 | recognition pipeline | corollary of C10 |
| C13 | recognition pipeline with mode parameters | corollary of C10 |
| C14 | counters, counting sort | invariant counters = number of unknown flags; stability |
| C15 | duplicate removal | invariant over processed prefix |
| C16 | V1 and V2 variants | V2 proved; V1 refuted for thresholds >= 1 |
| C17 | memory layout as list of points, helper decoding | layout invariants |
| C18 | same, with other partition counts | expected false for 1 and 32: witnesses |
| C19 | final grey assignment | expected false: witness |
| C20 | rectangle combination | expected false: witness; partial: never too large |
| C21 | flooding with the eight-direction table | expected false: witness |
| C22 | buffers carried between passes | final flood state restores what the next pass needs |
| C23 | sizing of the candidate buffer over a history | invariant |
| C24 | word packing | bit lemmas |
| C25 | block allocator | refinement to list |
| C26 | linked-list flooding | same flood invariant plus list segments |
| C66-C70 | Fast MSER V1, recognition | reduction to V2's recognition on the same tree; C70 by witness |
| C71-C76 | Fast MSER V1, extraction | top regions are disjoint list segments; copying by workers writes disjoint memory, so schedules commute; C75 by witness |
| C77-C81 | images made from results | induction over the points drawn; C78, C80 by witness; C81 a byte never written is read for every figure |
| C82-C88 | MS-MSER | flooding proved for both orders of directions; reduction of recognition; C86-C88 by witness |
| C89-C93 | original implementation | invariant over the sorted points (lists, owners, shortcuts); reduction of recognition; C92, C93 by witness |
| C94-C102 | OpenCV-style extraction | C98-C100, C102 proved; C94-C97, C101 by witness |
| C27 | helper traversal | induction |
| C28 | ownership of result memory | expected false: witness |
| C29 | C06 + C15 for different partitionings | canonical form |
| C30 | corollary of C06 | |
| C31-C38 | small utilities | induction; bugs as refutations |
| C39, C56-C58 | OpenCV3-style extraction | refinement to the abstract flooding; false ones by witness or for all inputs |
| C59-C65 | Fast MSER V1, building | flood refines the abstract flooding of `FloodAbs`; joins by the loop invariant of C04 plus list segments |

## Trusted base

* The Coq 8.16.1 kernel (`coqc`, checked with `coqchk`), including `vm_compute`.
* The reading of the C++: each definition of the `*Model.v` files cites the file and
  the lines it renders; nothing but reading ties it to the code.
* The specification definitions, marked SPEC in their comments.
* The statements of the theorems in the `Prop*.v` files. These files contain only the
  theorems, an example beside each that meets its hypotheses, and `Print Assumptions`.
* Libraries used: Coq's standard library, std++ (lists, sorting) and Flocq (rounding
  facts about `SpecFloat`). None of them adds an axiom of its own.
* No axiom, parameter, section-less variable, admitted proof, functor, module type or
  switched-off check of our own.

### Axioms

`R` in the table stands for the four axioms on which the real numbers of Coq's standard
library rest. They enter through the proofs about rounding only (Flocq states them over
the reals), never through a model or a statement:

* `ClassicalDedekindReals.sig_forall_dec`
* `ClassicalDedekindReals.sig_not_dec`
* `Classical_Prop.classic`
* `FunctionalExtensionality.functional_extensionality_dep`

`coqchk` also lists the opaque module fields by which the standard library hides the
construction of the reals (`RbaseSymbolsImpl`, `RinvImpl`) and `Under_rel` of `ssrunder`;
they are definitions sealed by a signature, loaded with the libraries.

`Print Assumptions` for each theorem of the manifest:

| property | theorem | assumptions |
|---|---|---|
| C01 | `C01_flooding_builds_component_tree` | none (closed under the global context) |
| C02 | `C02_flooding_is_memory_safe_and_terminates` | none (closed under the global context) |
| C03 | `C03_component_stack_is_large_enough_refuted` | none (closed under the global context) |
| C04 | `C04_connect_adds_one_adjacency` | none (closed under the global context) |
| C05 | `C05_joins_terminate_without_cycles` | none (closed under the global context) |
| C06 | `C06_partitioned_building_gives_whole_tree` | none (closed under the global context) |
| C06 | `C06_surviving_regions_are_the_extremal_regions` | none (closed under the global context) |
| C07 | `C07_partitions_tile_the_image` | none (closed under the global context) |
| C08 | `C08_schedule_joins_every_seam_pair_once` | none (closed under the global context) |
| C09 | `C09_variation_is_relative_growth` | none (closed under the global context) |
| C10 | `C10_suppression_is_order_independent` | none (closed under the global context) |
| C10 | `C10_candidates_are_the_stable_extremal_regions` | none (closed under the global context) |
| C10 | `C10_versions_agree` | none (closed under the global context) |
| C11 | `C11_recognition_does_not_depend_on_the_schedule` | R |
| C12 | `C12_reported_regions_respect_the_limits` | R |
| C13 | `C13_delta_zero_keeps_all` | none (closed under the global context) |
| C13 | `C13_unbounded_variation_keeps_all` | none (closed under the global context) |
| C13 | `C13_negative_similarity_keeps_the_stable` | none (closed under the global context) |
| C14 | `C14_candidates_are_ordered` | none (closed under the global context) |
| C15 | `C15_reported_nested_regions_differ` | R |
| C15 | `C15_removed_regions_are_duplicates` | R |
| C16 | `C16_reported_number_is_right` | R |
| C17 | `C17_records_hold_the_pixels_of_the_regions` | R |
| C17 | `C17_records_are_extremal_regions` | R |
| C18 | `C18_one_thread_refuted` | none (closed under the global context) |
| C18 | `C18_thirty_two_threads_refuted` | none (closed under the global context) |
| C19 | `C19_dark_level_is_the_greatest_value` | none (closed under the global context) |
| C19 | `C19_bright_level_is_the_least_value_refuted` | none (closed under the global context) |
| C20 | `C20_rectangle_corner` | none (closed under the global context) |
| C20 | `C20_rectangle_is_the_bounding_box_refuted` | none (closed under the global context) |
| C21 | `C21_eight_neighbours_refuted` | none (closed under the global context) |
| C22 | `C22_bright_pass_is_dark_pass_of_inverted_image` | none (closed under the global context) |
| C23 | `C23_candidate_buffer_has_room` | none (closed under the global context) |
| C24 | `C24_pixel_words_decode` | none (closed under the global context) |
| C25 | `C25_block_memory_is_a_list` | none (closed under the global context) |
| C25 | `C25_addresses_are_stable` | none (closed under the global context) |
| C25 | `C25_init_again_keeps_the_blocks` | none (closed under the global context) |
| C25 | `C25_clear_frees_all_blocks` | none (closed under the global context) |
| C25 | `C25_exponent_0_refuted` | none (closed under the global context) |
| C26 | `C26_lists_hold_the_components` | none (closed under the global context) |
| C27 | `C27_reading_terminates` | none (closed under the global context) |
| C27 | `C27_results_are_well_formed` | none (closed under the global context) |
| C28 | `C28_own_points_are_copied` | none (closed under the global context) |
| C28 | `C28_shared_points_refuted` | none (closed under the global context) |
| C29 | `C29_reported_sets_do_not_depend_on_the_partitions` | R |
| C29 | `C29_runs_on_images` | R |
| C30 | `C30_reported_regions_are_extremal_and_laminar` | R |
| C30 | `C30_reported_regions_are_all_stable_regions` | R |
| C31 | `C31_prefix_sums` | none (closed under the global context) |
| C31 | `C31_needs_one_more_element` | none (closed under the global context) |
| C32 | `C32_bubble_sort_sorts` | none (closed under the global context) |
| C32 | `C32_heap_sort_sorts` | none (closed under the global context) |
| C32 | `C32_index_sort_permutes` | none (closed under the global context) |
| C32 | `C32_index_sort_refuted` | none (closed under the global context) |
| C33 | `C33_top_k_keeps_the_best` | none (closed under the global context) |
| C33 | `C33_top_0_refuted` | none (closed under the global context) |
| C34 | `C34_maximal_run` | none (closed under the global context) |
| C35 | `C35_bag_value_is_optimal` | none (closed under the global context) |
| C35 | `C35_flags_tell_the_choice_refuted` | none (closed under the global context) |
| C36 | `C36_longest_common_substring` | none (closed under the global context) |
| C36 | `C36_first_element_refuted` | none (closed under the global context) |
| C37 | `C37_append_rect` | none (closed under the global context) |
| C37 | `C37_append_point` | none (closed under the global context) |
| C37 | `C37_appending_an_empty_rectangle_refuted` | none (closed under the global context) |
| C38 | `C38_extremal_elements` | none (closed under the global context) |
| C38 | `C38_index_from_multi_index` | none (closed under the global context) |
| C38 | `C38_multi_index_refuted` | none (closed under the global context) |
| C38 | `C38_flip_vector_permutes` | none (closed under the global context) |
| C38 | `C38_flip_vector_reverses_refuted` | none (closed under the global context) |
| C39 | `C39_largest_component_covers_the_image_refuted` | none (closed under the global context) |
| C39 | `C39_largest_component_is_the_interior` | none (closed under the global context) |
| C40 | `C40_bright_only_extraction_refuted` | none (closed under the global context) |
| C40 | `C40_bright_only_call_refuted` | none (closed under the global context) |
| C41 | `C41_images_smaller_than_the_grid_refuted` | none (closed under the global context) |
| C42 | `C42_heaps_are_left_in_place` | R |
| C42 | `C42_heaps_have_room_in_both_channels_refuted` | none (closed under the global context) |
| C43 | `C43_serial_and_parallel_agree_refuted` | none (closed under the global context) |
| C44 | `C44_candidate_buffer_has_room_for_any_number_refuted` | none (closed under the global context) |
| C46 | `C46_records_are_the_stable_regions` | R |
| C46 | `C46_records_respect_the_parameters` | R |
| C46 | `C46_records_do_not_depend_on_the_schedule` | R |
| C47 | `C47_odd_even_sort` | none (closed under the global context) |
| C47 | `C47_negative_values_refuted` | none (closed under the global context) |
| C48 | `C48_region_blocks_refuted` | none (closed under the global context) |
| C49 | `C49_in_block_refuted` | none (closed under the global context) |
| C50 | `C50_destroying_a_copy_refuted` | none (closed under the global context) |
| C50 | `C50_extracting_again_refuted` | none (closed under the global context) |
| C51 | `C51_builds_the_component_tree` | none (closed under the global context) |
| C52 | `C52_records_are_extremal_regions` | R |
| C52 | `C52_levels_are_image_values` | R |
| C52 | `C52_memory_is_used_up` | R |
| C53 | `C53_same_regions_as_fast_mser` | R |
| C54 | `C54_records_are_the_stable_regions` | R |
| C54 | `C54_records_respect_the_parameters` | R |
| C55 | `C55_result_does_not_depend_on_the_buffers` | R |
| C55 | `C55_one_result_per_channel` | R |
| C56 | `C56_records_are_extremal_regions_of_the_interior` | none (closed under the global context) |
| C56 | `C56_no_record_has_a_border_pixel` | none (closed under the global context) |
| C57 | `C57_every_image_is_processed_refuted` | none (closed under the global context) |
| C58 | `C58_bright_regions_alone_refuted` | none (closed under the global context) |
| C59 | `C59_v1_slices_fill_the_arrays` | none (closed under the global context) |
| C60 | `C60_v1_lists_the_extremal_regions` | none (closed under the global context) |
| C61 | `C61_v1_bright_pass_on_reused_buffers` | none (closed under the global context) |
| C62 | `C62_v1_thread_number_does_not_matter` | none (closed under the global context) |
| C63 | `C63_v1_and_v2_build_the_same_regions` | none (closed under the global context) |
| C64 | `C64_v1_component_stack_is_large_enough_refuted` | none (closed under the global context) |
| C65 | `C65_v1_handles_images_smaller_than_the_grid_refuted` | none (closed under the global context) |
| C66 | `C66_v1_candidates_are_the_stable_extremal_regions` | none (closed under the global context) |
| C67 | `C67_v1_reports_stable_regions_without_duplicates` | R |
| C68 | `C68_v1_reports_do_not_depend_on_the_threads` | R |
| C69 | `C69_v1_and_v2_report_the_same` | R |
| C70 | `C70_v1_any_threshold_reports_valid_regions_refuted` | none (closed under the global context) |
| C71 | `C71_v1_records_hold_the_stable_regions` | R |
| C72 | `C72_v1_result_does_not_depend_on_the_schedules` | R |
| C73 | `C73_v1_records_do_not_depend_on_the_threads` | R |
| C74 | `C74_v1_and_v2_records_list_the_same` | R |
| C75 | `C75_v1_every_record_can_be_read_refuted` | none (closed under the global context) |
| C76 | `C76_v1_one_thread_offsets_delimit_the_regions` | R |
| C77 | `C77_drawing_a_v1_record_shows_its_region` | none (closed under the global context) |
| C77 | `C77_drawing_a_cv_record_shows_its_region` | R |
| C78 | `C78_drawing_a_v2_record_loses_pixels_refuted` | none (closed under the global context) |
| C79 | `C79_dark_channel_image_shows_the_least_level` | none (closed under the global context) |
| C80 | `C80_bright_channel_image_shows_dark_levels_refuted` | none (closed under the global context) |
| C81 | `C81_connect_component_reads_unwritten_memory_refuted` | none (closed under the global context) |
| C82 | `C82_passes_build_the_component_trees` | none (closed under the global context) |
| C82 | `C82_calls_return` | R |
| C82 | `C82_results_do_not_depend_on_the_buffers` | R |
| C83 | `C83_records_are_extremal_regions` | R |
| C83 | `C83_levels_are_image_values` | R |
| C84 | `C84_records_are_the_stable_regions` | R |
| C84 | `C84_records_respect_the_parameters` | R |
| C85 | `C85_same_regions_as_cv_mser` | R |
| C85 | `C85_same_regions_as_fast_mser` | R |
| C86 | `C86_row_step_refuted` | none (closed under the global context) |
| C87 | `C87_bright_regions_alone_refuted` | none (closed under the global context) |
| C88 | `C88_all_grey_values_refuted` | none (closed under the global context) |
| C89 | `C89_passes_build_the_component_trees` | none (closed under the global context) |
| C89 | `C89_calls_return` | R |
| C90 | `C90_records_are_extremal_regions` | R |
| C90 | `C90_levels_are_image_values` | R |
| C91 | `C91_records_are_the_stable_regions` | R |
| C91 | `C91_nested_records_differ` | R |
| C91 | `C91_same_regions_as_cv_mser` | R |
| C91 | `C91_same_regions_as_fast_mser` | R |
| C92 | `C92_reuse_for_another_size_refuted` | none (closed under the global context) |
| C93 | `C93_whole_image_refuted` | none (closed under the global context) |
| C94 | `C94_points_are_different_pixels_for_any_step_gap_refuted` | none (closed under the global context) |
| C95 | `C95_records_are_connected_refuted` | none (closed under the global context) |
| C96 | `C96_first_list_has_dark_regions_refuted` | none (closed under the global context) |
| C97 | `C97_levels_are_values_of_pixels_refuted` | none (closed under the global context) |
| C98 | `C98_every_call_returns` | none (closed under the global context) |
| C99 | `C99_records_are_parts_of_components` | none (closed under the global context) |
| C100 | `C100_records_are_nested_or_apart` | R |
| C101 | `C101_records_grow_little_refuted` | none (closed under the global context) |
| C102 | `C102_old_buffer_contents_do_not_matter` | none (closed under the global context) |

## What is modelled

Fast MSER V2 (`basicimg/src/img_fast_mser_v2.cpp`) completely for a null mask and
four-neighbour connectivity (eight-neighbour in so far as C21 needs it):

| lines | function | file |
|---|---|---|
| 4-12, 502-655 | connect, merging along seams, joining schedules | ConnectModel |
| 53-201 | allocate_memory | PartModel |
| 203-237 | build_tree | WholeModel |
| 238-500 | make_tree_patch, process_tree_patch | FloodModel |
| 657-1333, 2053-2114 | recognition, serial and parallel | RecogModel, DetectModel |
| 1335-1342, 1643-2051 | extraction with four threads | ExtractModel |

Fast MSER V1 (`basicimg/src/img_fast_mser_v1.cpp`), whole channels, for a null mask,
four-neighbour connectivity and 1, 2, 4, 8, 16 and 32 threads:

| lines | function | file |
|---|---|---|
| 79-932 | allocate_memory | V1AllocModel |
| 934-1014, 1586-2227 | build_tree, merge_tree_parallel_* | V1BuildModel |
| 1017-1584, 3471-3491 | make_tree_patch, process_tree_patch | V1Model |
| 4-31, 2229-2410 | connect | V1JoinModel |
| 2412-2643, 3432-3469 | recognize_mser | V1RecogModel |
| 2645-2661, 2867-3204 | extract_pixel, parallel_1_fast and parallel_k_fast | V1ExtractModel |

Besides:

| file in /repo | lines | model |
|---|---|---|
| basicimg/src/img_mser_base.cpp | 15-72 (copying), 74-116 (extract) | CopyModel, RunModel |
| basicimg/src/img_mser_helper.cpp | 67-120, 192-257 (reading a record) | ExtractModel |
| basicimg/src/img_mser_helper.cpp | 35-119 (drawing a record, without resizing) | DrawModel |
| basicimg/src/img_mser_result.cpp | 60-95 (channel images) | ResultModel |
| basicimg/include/img_connected_component.h | 5-51, 363-372, 501-598 (connected components, one channel) | CcModel |
| basicimg/src/img_linked_linear_mser.cpp | 6-64, 118-121, 189-229, 255-321, 428-576, 1141-1145 (tree of CV-MSER+) | LinkedModel |
| basicimg/src/img_linked_linear_mser.cpp | 578-1011 (recognition and extraction of CV-MSER+) | CvModel |
| basicimg/src/img_ms_mser.cpp | all but masks, the eight-neighbour table and the extraction modes -1 and INT_MAX | MsModel |
| basicimg/src/img_origin_mser.cpp | all but masks, the assertions 213-253 and clear_memory_cache | OrgModel |
| basicimg/src/img_opencv_mser.cpp | all but masks and clear_memory_cache | Oc2Model |
| basicimg/src/img_opencv3_mser.cpp | 5-202, 217-423 | OcvModel |
| basicmath/include/mt_block_memory.h | all but the statistics | BlockModel |
| basicmath/include/mt_rect_t.h | appending and intersecting | RectModel |
| basicmath/include/mt_sort.h, mt_top_k.h, mt_helper.h, dynamic_programming/ | the functions named in C31-C38, C47 | UtilModel |

Float expressions are IEEE-754 single and double precision (`SpecFloat`, round to nearest
even); assumed is that the compiler evaluates them in their own precision.

Threads: where threads share memory, the model runs under an arbitrary schedule of steps
and the theorems quantify over the schedules (recognition C11, C66-C69, extraction C17, C46, C71-C74). Where
threads write to disjoint memory, the loop runs in index order and the disjointness is a
theorem (C07) or stated in the header of the model (WholeModel, ExtractModel).

## What is not modelled

* Masks other than the null mask (V2 does not handle them: 427, 451), image rows that are
  not contiguous (`step != cols`) in the whole-image theorems (flooding of a partition and
  CV-MSER+ are modelled with any step).
* Alternatives of extraction in Fast MSER V1 that nothing calls (2663-2865, 3206-3431); the VLFeat and IDIAP implementations; extraction modes -1 and INT_MAX of MS-MSER; masks in CV-MSER+ and
  the OpenCV3-style extraction.
* Alternatives in img_linked_linear_mser.cpp that nothing calls
  (recognize_mser_with_parent_child_cache, extract_pixel_self_memory, share_extraction).
* The word sharing of bit fields between threads (region flags live in one 32-bit word;
  concurrent writes to neighbouring bit fields are a data race in C++).
* i32 overflow of pixel counts (images of 2^31 pixels or more), failure of `malloc`, memory
  leaks, logging and timing.
* Computing `m_max_point` from the ratio (img_mser_base.cpp:75).
* Everything outside `basicimg`'s MSER code and the utilities above (matrices, JSON, ...).

## Properties that are false of the code

For these the model follows the code and the theorem with suffix `_refuted` shows a
concrete input (or, where stated, that every input fails):

| id | finding |
|---|---|
| C03 | 256 nested grey levels overflow the component stack of V2 (256 slots, one is the sentinel) |
| C18 | extraction with 1 thread reads partitions that do not exist; with 32 threads it loses pixels |
| C19 | the level of bright regions is that of the inverted image |
| C20 | right and bottom of the rectangle may be too small (`else if` when joining) |
| C21 | eight-neighbour connectivity floods four directions only |
| C25 | block memory with exponent 0: `init` reads an unset pointer |
| C28 | copies of results in shared memory point into the memory of the source |
| C32 | the index-returning sort does not sort |
| C33 | top-k with k = 0 reads a missing element |
| C35 | the flags of the 0-1 bag may choose a subset that does not fit |
| C36 | longest common substring misses matches of the first element |
| C37 | appending an empty rectangle treats it as a point |
| C38 | multi_index_from_index reads behind the sizes; flip_vector does not reverse |
| C39 | the OpenCV3-style extraction never looks at the border: the largest component is the interior (every image) |
| C40 | bright regions only: extraction uses what the dark pass would have left |
| C41 | images smaller than the partition grid: partitions overlap |
| C42 | a negative similarity leaves the heaps advanced: the second channel overruns |
| C43 | serial and parallel recognition differ for delta 0 and a negative maximal variation |
| C44 | the size of the candidate buffer wraps around at 2^32 |
| C47 | odd-even sort misplaces negative odd values |
| C48 | the exponent of the region blocks is 2000: undefined shift |
| C49 | is_in_block is false for elements of full blocks |
| C50 | memory from new[] is released with free and the other way round |
| C57 | OpenCV3-style: images of one or two rows access memory outside the buffer (every such image) |
| C58 | OpenCV3-style, bright regions only: heaps overlap, records repeat points |
| C64 | V1: 256 nested grey levels overflow the component stack |
| C65 | V1: an empty partition (image smaller than the grid) writes beyond its slice |
| C70 | V1: with a duplicate threshold of 1 or more, duplicates are reported |
| C75 | V1: with a least size below the threads less one, a reported region can be left without pixels (default least size 20 and 32 threads) |
| C78 | drawing a record of V2 loses pixels outside of its short rectangle |
| C80 | the bright channel image shows levels of dark components, or indexes past the end |
| C81 | connect_component reads memory never written, for every image with a figure |
| C86 | MS-MSER ignores the row step |
| C87 | MS-MSER, bright regions alone: levels counted without inversion, wrong tree |
| C88 | MS-MSER: 256 nested grey levels overflow the component stack |
| C92 | the original implementation keeps the regions of the last image when the next has another number of pixels |
| C93 | the original implementation reports the whole image if the limits allow it |
| C94 | img_opencv_mser never stores the shift with which it computes the row of a pixel |
| C95 | img_opencv_mser returns sets of pixels that are not connected |
| C96 | img_opencv_mser returns bright regions in the list of the dark ones |
| C97 | img_opencv_mser returns levels that are no values of pixels of the region |
| C101 | OpenCV-style: the variation of an earlier test is compared; merging adds a history without a test |

## Tests of the theorems against wrong programs

`seeded/LOG.jsonl` records one line for each seeded bug: the definition edited in a scratch
copy, the edit, the property it breaks, the theorems that no longer compile, and the
theorems that were tightened as a consequence.
