{"id": "C01", "title": "Flooding one partition yields its component tree", "statement": "Building the tree of a partition labels every pixel with a region whose level is the pixel's grey level; for every region the pixels labelled by it or by one of its descendants are exactly one connected component of the pixels whose (masked) grey level is at most the region's level; every such component that contains a pixel of that level is one region; a region's parent is the next larger component; the recorded size is the number of pixels of the component; there is exactly one root.", "quantifier": "every partition width and height >= 1 (up to 2^29 pixels), every assignment of byte grey levels leaving at least one of the 256 levels unused in the partition (all 256 levels can overflow the component stack, see C03), both grey masks, four-neighbour connectivity", "why_tests_cant": "the order in which pixels are pushed, popped and re-entered depends on the whole grey layout; there are 256^(w*h) layouts", "anchors": ["basicimg/src/img_fast_mser_v2.cpp:make_tree_patch", "basicimg/src/img_fast_mser_v2.cpp:init_comp", "basicimg/src/img_fast_mser_v2.cpp:new_region"]}
{"id": "C02", "title": "Flooding is memory safe and terminates", "statement": "While a partition is flooded no access leaves the bordered pixel array, no level's boundary stack grows outside its own slots (so no sentinel of another level is ever overwritten), no region slot beyond those created is touched, and the loop ends after a number of steps linear in the number of pixels, with every boundary stack empty again so that the stack pointers are back at their bases.", "quantifier": "every partition size up to 2^29 pixels and every grey layout that leaves at least one of the 256 levels unused (so that the nesting depth fits the component stack)", "why_tests_cant": "an overflow by one slot is only visible for layouts that fill a level's stack completely, and silently corrupts another level", "anchors": ["basicimg/src/img_fast_mser_v2.cpp:make_tree_patch", "basicimg/src/img_fast_mser_v2.cpp:process_tree_patch"]}
{"id": "C03", "title": "The component stack is large enough", "statement": "Flooding never writes outside the fixed array of open components, for any 8-bit image.", "quantifier": "every partition and grey layout", "why_tests_cant": "only images whose 256 grey levels are entered in strictly decreasing order reach the last slot; random tests never do", "anchors": ["basicimg/include/img_fast_mser_v2.h:m_comp", "basicimg/src/img_fast_mser_v2.cpp:make_tree_patch", "basicimg/include/img_fast_mser_v1.h:m_comp"]}
{"id": "C04", "title": "Joining two trees along one pixel pair", "statement": "Connecting the regions of two neighbouring pixels turns a tree that represents the connectivity of a pixel graph into one that represents the graph with that one extra adjacency: at every grey level two pixels lie in the same region afterwards iff they did before or the new pair joins their components; levels strictly increase towards the root; the size of each surviving region is again the exact pixel count of its component; nothing else changes.", "quantifier": "every well-formed pair of trees (or one tree), every pair of regions in it, any number of previously merged regions", "why_tests_cant": "depends on the interleaving of two whole ancestor chains with equal levels, shared ancestors and previously merged nodes", "anchors": ["basicimg/src/img_fast_mser_v2.cpp:connect", "basicimg/src/img_fast_mser_v2.cpp:get_set_real_parent_for_merged"]}
{"id": "C05", "title": "Joining terminates and never makes a cycle", "statement": "Connecting any two regions terminates, and after any sequence of connections following parent links from any region reaches the root in finitely many steps, merged regions resolving to exactly one surviving region of the same level.", "quantifier": "every sequence of connections of any length starting from freshly built partition trees", "why_tests_cant": "a cycle would need a particular order of connections over shared ancestors", "anchors": ["basicimg/src/img_fast_mser_v2.cpp:connect", "basicimg/src/img_fast_mser_v2.cpp:merge_tree_parallel_step"]}
{"id": "C06", "title": "Partitioned building gives the tree of the whole image", "statement": "After the partitions are flooded independently and joined, the surviving regions are exactly the extremal regions (connected components of sub-level sets) of the whole image with exact sizes and nesting, so the tree does not depend on the number of partitions.", "quantifier": "every 8-bit image at least as large as the partition grid (one pixel per partition), up to 2^31 pixels and 2^29 per partition, in which every partition misses at least one of the 256 grey levels (C03), 1, 4 and 32 partitions, dark and bright pass", "why_tests_cant": "regions crossing several seams in arbitrary shapes; exhaustive comparison is impossible", "anchors": ["basicimg/src/img_fast_mser_v2.cpp:build_tree", "basicimg/src/img_fast_mser_v2.cpp:build_tree_parallel_4", "basicimg/src/img_fast_mser_v2.cpp:build_tree_parallel_32", "basicimg/src/img_fast_mser_v2.cpp:merge_tree_parallel_4", "basicimg/src/img_fast_mser_v2.cpp:merge_tree_parallel_32"]}
{"id": "C07", "title": "Partitions tile the image", "statement": "The partition rectangles computed for an image cover every pixel exactly once, and the pixel, image and boundary-stack buffers handed to different partitions are pairwise disjoint and inside the allocation.", "quantifier": "every image width and height (padded size below 2^31) and each supported partition count", "why_tests_cant": "remainders of the divisions interact with the last row and column of partitions for every size", "anchors": ["basicimg/src/img_fast_mser_v2.cpp:allocate_memory"]}
{"id": "C08", "title": "The joining schedule covers every seam exactly once", "statement": "The fixed sequence of joins connects every pair of horizontally or vertically adjacent pixels lying in different partitions exactly once and no other pair.", "quantifier": "every image size at least the partition grid, for 1, 4 and 32 partitions", "why_tests_cant": "one missing seam only shows for images with a component crossing precisely that seam", "anchors": ["basicimg/src/img_fast_mser_v2.cpp:merge_tree_parallel_4", "basicimg/src/img_fast_mser_v2.cpp:merge_tree_parallel_32", "basicimg/src/img_fast_mser_v2.cpp:merge_tree_parallel_step"]}
{"id": "C09", "title": "Variation is the relative growth over delta grey levels", "statement": "The variation computed for a region R of level g is (|R'|-|R|)/|R| where R' is the component of the level set g+delta that contains R, whenever a component of level at least g+delta containing R exists; otherwise it is -1.", "quantifier": "every tree with merged regions, every region, every delta >= 0", "why_tests_cant": "depends on arbitrary parent chains with skipped levels and merged regions", "anchors": ["basicimg/src/img_fast_mser_v2.cpp:calculate_variation", "basicimg/src/img_fast_mser_v2.cpp:recognize_mser_parallel_worker", "basicimg/src/img_fast_mser_v2.cpp:recognize_mser_parallel_4_acceleration"]}
{"id": "C10", "title": "Local suppression is order independent and the same in all variants", "statement": "A region survives recognition before duplicate removal iff its size is within the limits, it is not the root, its variation does not exceed the maximum, no child one level below with a defined variation is better by more than the similarity, and its parent one level above with a defined variation is not better by more than the similarity; the serial, the 32-partition and the 4-partition implementations all compute exactly this set, whatever the order of regions and partitions.", "quantifier": "every tree, every placement of regions in partitions, every delta in [0,2^16) and all other parameter values, except a negative maximal variation together with delta = 0 (see C43)", "why_tests_cant": "suppression flags are updated in place while being read; only a proof covers every processing order", "anchors": ["basicimg/src/img_fast_mser_v2.cpp:recognize_mser_serial", "basicimg/src/img_fast_mser_v2.cpp:recognize_mser_parallel", "basicimg/src/img_fast_mser_v2.cpp:recognize_mser_parallel_4_acceleration"]}
{"id": "C11", "title": "Parallel recognition does not depend on the schedule", "statement": "Whatever the interleaving of the partition workers that compute variations, shorten parent links and flag regions, the resulting flags, variations and (real) parents are those of running the workers one after another.", "quantifier": "every interleaving of the workers' per-region steps, every tree", "why_tests_cant": "thread schedules cannot be enumerated by tests", "anchors": ["basicimg/src/img_fast_mser_v2.cpp:recognize_mser_parallel_worker", "basicimg/src/img_fast_mser_v2.cpp:recognize_mser_parallel_4_acceleration"]}
{"id": "C12", "title": "Reported regions respect the size limits and are never the whole image", "statement": "Every reported region has between min_point and max_point pixels and is not the root of the tree.", "quantifier": "every image and parameter set", "why_tests_cant": "every path through suppression and duplicate removal must preserve it", "anchors": ["basicimg/src/img_fast_mser_v2.cpp:recognize_mser_serial", "basicimg/src/img_fast_mser_v2.cpp:recognize_mser_parallel_4_acceleration", "basicimg/src/img_mser_base.cpp:extract"]}
{"id": "C13", "title": "Documented modes: ER and SER", "statement": "With delta = 0 (and a non-negative maximal variation), or with an unbounded maximal variation and similarity -1, recognition before duplicate removal keeps exactly all regions passing the size limits other than the root; with similarity -1 it keeps exactly those that are also stable.", "quantifier": "every tree and every parameter set of the given mode", "why_tests_cant": "claims about absence of suppression for all trees", "anchors": ["basicimg/include/img_mser_base.h:img_mser_base", "basicimg/src/img_fast_mser_v2.cpp:recognize_mser_parallel_4_acceleration", "basicimg/src/img_fast_mser_v2.cpp:recognize_mser_serial"]}
{"id": "C14", "title": "Candidates are listed by level, children before parents", "statement": "The candidate list handed to duplicate removal and extraction contains every surviving region exactly once, sorted by grey level, keeping the scan order within a level; therefore every region precedes all of its ancestors. Every write into the list is inside its allocation.", "quantifier": "every number and level distribution of regions, any history of earlier calls that sized the buffer", "why_tests_cant": "counter bookkeeping by increments and decrements in suppression must agree exactly with the flags for every tree", "anchors": ["basicimg/src/img_fast_mser_v2.cpp:recognize_mser_parallel_4_acceleration", "basicimg/src/img_fast_mser_v2.cpp:m_region_level_size", "basicmath/include/mt_helper.h:integral_array"]}
{"id": "C15", "title": "No two reported nested regions are near duplicates", "statement": "If the duplicate threshold is below 1, any two reported regions A inside B satisfy (|B|-|A|)/|A| > threshold; and every candidate removed as a duplicate is nested with a reported region whose size is within the threshold of a common region.", "quantifier": "every tree, candidate set and threshold in (0,1)", "why_tests_cant": "greedy grouping along chains depends on arbitrary tree shapes", "anchors": ["basicimg/src/img_fast_mser_v2.cpp:get_duplicated_regions", "basicimg/src/img_fast_mser_v2.cpp:recognize_mser_parallel_4_acceleration"]}
{"id": "C16", "title": "Duplicate removal counts what it reports", "statement": "The number of reported regions equals the number of regions flagged valid, so the list that is handed out contains no stale entries.", "quantifier": "every tree and threshold", "why_tests_cant": "needs a branching chain with a threshold of at least 1 to be violated", "anchors": ["basicimg/src/img_fast_mser_v1.cpp:get_duplicated_regions", "basicimg/src/img_fast_mser_v2.cpp:get_duplicated_regions"]}
{"id": "C17", "title": "Extracted memory holds exactly the region's pixels", "statement": "For every reported region, decoding its record the way the helper does (four ranges, plus recursively the children listed) visits every pixel of the region exactly once and nothing else; all ranges are inside the allocated memory, and every word of the memory is written except at most one spare word at the end of each list of children.", "quantifier": "every image up to 8196544 pixels with sides up to 2^15, every parameter set, candidate set, recursion threshold, schedule and initial memory contents, 4 partitions, both channels", "why_tests_cant": "offset arithmetic over four interleaved segments, copied children and child indices for every tree shape", "anchors": ["basicimg/src/img_fast_mser_v2.cpp:extract_pixel_parallel_4_acceleration", "basicimg/src/img_mser_helper.cpp:image_from_mser", "basicimg/src/img_mser_helper.cpp:visit_pixel_test"]}
{"id": "C18", "title": "Extraction works for every supported thread count", "statement": "With 1, 4 or 32 threads configured, the reported records contain exactly the pixels of the regions.", "quantifier": "every supported thread count and every image", "why_tests_cant": "the default configuration never exercises the other counts", "anchors": ["basicimg/src/img_fast_mser_v2.cpp:extract_pixel_parallel_4_acceleration", "basicimg/src/img_fast_mser_v2.cpp:extract_pixel"]}
{"id": "C19", "title": "Reported grey level is the level in the original image", "statement": "The grey level reported for a bright region is the threshold in the original image (the minimum grey value of its pixels), as for dark regions it is the maximum.", "quantifier": "every image and both channels", "why_tests_cant": "requires comparing against a specification for all images; the value is overwritten late", "anchors": ["basicimg/src/img_fast_mser_v2.cpp:extract_pixel_parallel_4_acceleration", "basicimg/src/img_linked_linear_mser.cpp:extract_pixel_share_memory"]}
{"id": "C20", "title": "Reported rectangle is the bounding box", "statement": "The rectangle reported with a region is the smallest rectangle containing all its pixels.", "quantifier": "every image and region", "why_tests_cant": "wrong only for particular placements over several partitions", "anchors": ["basicimg/src/img_fast_mser_v2.cpp:extract_pixel_parallel_4_acceleration", "basicmath/include/mt_rect_t.h:adjust_by_append_rect"]}
{"id": "C21", "title": "Eight-neighbour connectivity is honoured", "statement": "With eight-neighbour connectivity configured, regions are connected components with respect to all eight neighbours.", "quantifier": "every image", "why_tests_cant": "requires diagonal-only contacts; inside partitions and across seams", "anchors": ["basicimg/src/img_fast_mser_v2.cpp:make_tree_patch", "basicimg/src/img_fast_mser_v2.cpp:allocate_memory", "basicimg/src/img_fast_mser_v2.cpp:merge_tree_parallel_step"]}
{"id": "C22", "title": "The bright pass equals a fresh pass on the inverted image", "statement": "Running the bright pass on the buffers left by the dark pass produces the same tree as running it on freshly initialised buffers, and equals the dark pass on the inverted image.", "quantifier": "every image and any state left behind by the dark pass, recognition and extraction", "why_tests_cant": "depends on every buffer being restored by the previous pass", "anchors": ["basicimg/src/img_fast_mser_v2.cpp:process_tree_patch", "basicimg/src/img_fast_mser_v2.cpp:make_tree_patch", "basicimg/src/img_mser_base.cpp:extract"]}
{"id": "C23", "title": "Buffer of ordered candidates never overflows", "statement": "For any history of extract calls the candidate buffer has room for all candidates of the current call.", "quantifier": "every sequence of candidate counts up to 858993459 (beyond, see C44), any initial value of the shrink counter", "why_tests_cant": "the shrink counter starts uninitialised and the history is unbounded", "anchors": ["basicimg/src/img_fast_mser_v2.cpp:recognize_mser_serial", "basicimg/src/img_fast_mser_v2.cpp:m_exceed_times", "basicimg/src/img_fast_mser_v2.cpp:m_gray_order_regions_memory_size"]}
{"id": "C24", "title": "Pixel words decode to what was stored", "statement": "A finished pixel's word decodes to the index of its region and is never mistaken for an unvisited pixel, and a pixel waiting in a boundary stack resumes with the direction at which it was left.", "quantifier": "every direction and every region index representable for the connectivity", "why_tests_cant": "bit packing must be checked for all indices", "anchors": ["basicimg/src/img_fast_mser_v2.cpp:m_dir_shift", "basicimg/src/img_fast_mser_v2.cpp:m_boundary_pixel", "basicimg/src/img_fast_mser_v2.cpp:make_tree_patch"]}
{"id": "C25", "title": "Block memory behaves as a growing array with stable addresses", "statement": "After any sequence of operations the i-th element is found at the same place by index and by iteration and holds the value last written, its address never changes, elements never overlap, re-initialising with the same block size reuses the blocks and behaves like a fresh instance, and clear frees everything.", "quantifier": "every sequence of init, reset, clear, appends, writes and hand-backs, every block size exponent", "why_tests_cant": "block boundaries and reset histories", "anchors": ["basicmath/include/mt_block_memory.h:mt_block_memory", "basicimg/src/img_fast_mser_v2.cpp:make_tree_patch"]}
{"id": "C26", "title": "CV-MSER+ pixel lists", "statement": "In the linear implementation with linked pixel lists, following a region's list for its recorded size visits exactly the pixels of its connected component, each once.", "quantifier": "every image (null mask), four- and eight-neighbour connectivity", "why_tests_cant": "lists are spliced in place by every later merge", "anchors": ["basicimg/src/img_linked_linear_mser.cpp:extract_pass", "basicimg/src/img_linked_linear_mser.cpp:merge_comp", "basicimg/src/img_linked_linear_mser.cpp:accumulate_comp", "basicimg/src/img_linked_linear_mser.cpp:extract_pixel_share_memory"]}
{"id": "C27", "title": "Decoding a recursive record terminates and needs no other state", "statement": "The helper's stack traversal of a recursively stored region terminates and visits every listed record once.", "quantifier": "every well-formed set of records", "why_tests_cant": "depends on arbitrary nesting depth", "anchors": ["basicimg/src/img_mser_helper.cpp:image_from_mser"]}
{"id": "C28", "title": "A copied result is independent of its source", "statement": "After copying a result object, reading the copy is unaffected by destroying the source.", "quantifier": "every result", "why_tests_cant": "dangling reads may still return the old values in a test", "anchors": ["basicimg/src/img_mser_base.cpp:img_multi_msers::operator=", "basicimg/src/img_mser_base.cpp:img_mser::operator="]}
{"id": "C29", "title": "Number of threads does not change the reported regions", "statement": "For a duplicate threshold below 1 the set of reported regions (as pixel sets) is the same for every supported partitioning.", "quantifier": "every image, parameter set with threshold < 1", "why_tests_cant": "ties inside a level are ordered differently by different partitionings", "anchors": ["basicimg/src/img_fast_mser_v2.cpp:recognize_mser", "basicimg/src/img_fast_mser_v2.cpp:build_tree"]}
{"id": "C30", "title": "Reported regions are extremal and laminar", "statement": "Every reported dark region is connected, all its pixels are at most as bright as its level, at least one pixel has exactly that level, every neighbouring outside pixel is strictly brighter, and two reported regions are either nested or disjoint.", "quantifier": "every image", "why_tests_cant": "universal over images", "anchors": ["basicimg/src/img_fast_mser_v2.cpp:build_tree", "basicimg/src/img_fast_mser_v2.cpp:recognize_mser"]}
{"id": "C31", "title": "Prefix sums", "statement": "integral_array writes one more element than its input, the k-th being the sum of the first k inputs.", "quantifier": "every input array and every result buffer", "why_tests_cant": "all lengths", "anchors": ["basicmath/include/mt_helper.h:integral_array"]}
{"id": "C32", "title": "Sorting utilities sort", "statement": "bubble sort and heap sort return a permutation of their input in the requested order; the index-returning sort returns a permutation that orders the values.", "quantifier": "every array and both orders", "why_tests_cant": "all lengths and orders", "anchors": ["basicmath/include/mt_sort.h:mt_sort"]}
{"id": "C33", "title": "Top-k keeps the k best", "statement": "After feeding any sequence, the k retained elements are the k largest (smallest) of everything fed.", "quantifier": "every sequence, every k, both orders", "why_tests_cant": "all sequences", "anchors": ["basicmath/include/mt_top_k.h"]}
{"id": "C34", "title": "Maximal sum of consecutive elements", "statement": "The reported sum is the maximum over all non-empty runs of consecutive elements and the reported run attains it.", "quantifier": "every non-empty array whose run sums fit the element type", "why_tests_cant": "all arrays", "anchors": ["basicmath/include/dynamic_programming/mt_max_sum_for_continuous_element.h"]}
{"id": "C35", "title": "0-1 bag optimum", "statement": "The reported value is the maximal total value of a subset of items whose total weight fits, and the reported flags tell such a subset.", "quantifier": "every list of items with non-negative weights whose value sums fit the value type, every capacity", "why_tests_cant": "exponentially many subsets", "anchors": ["basicmath/include/dynamic_programming/mt_01_bag.h"]}
{"id": "C36", "title": "Longest common substring", "statement": "The reported length is the length of a longest common contiguous substring of both inputs, and the reported positions are those of such a substring.", "quantifier": "every two strings", "why_tests_cant": "all strings; first row handled separately", "anchors": ["basicmath/include/dynamic_programming/mt_longest_common_substring.h"]}
{"id": "C37", "title": "Rectangle union", "statement": "Appending a point or rectangle to a rectangle gives the smallest rectangle containing both (an empty rectangle is neutral).", "quantifier": "every rectangle and point", "why_tests_cant": "all integer rectangles", "anchors": ["basicmath/include/mt_rect_t.h:adjust_by_append_point", "basicmath/include/mt_rect_t.h:adjust_by_append_rect"]}
{"id": "C38", "title": "Array helpers: reverse, multi index, maxima", "statement": "flip_vector reverses; index_from_multi_index is the row-major position and multi_index_from_index inverts it; the max/min helpers return an extremal element and its first index.", "quantifier": "every array and shape", "why_tests_cant": "all arrays and shapes", "anchors": ["basicmath/include/mt_helper.h"]}
{"id": "C39", "title": "OpenCV3-style extraction covers the image", "statement": "Every pixel of the image belongs to the largest component computed (border pixels included).", "quantifier": "every image", "why_tests_cant": "border pixels only", "anchors": ["basicimg/src/img_opencv3_mser.cpp:preprocess", "basicimg/src/img_opencv3_mser.cpp:extract_pixel"]}
{"id": "C40", "title": "Bright-only extraction works", "statement": "With dark extraction disabled (enable_extraction(false, true)) the tree built for the bright regions is the component tree of the inverted image, as it is when both kinds are requested.", "quantifier": "every image", "why_tests_cant": "the defect shows only for level histograms that are not symmetric enough, and often as silent memory corruption", "anchors": ["basicimg/src/img_fast_mser_v2.cpp:process_tree_patch", "basicimg/include/img_mser_base.h:enable_extraction"]}
{"id": "C41", "title": "Images smaller than the partition grid", "statement": "Building the tree with a supported thread count gives the component tree of the image also when the image has fewer columns or rows than the partition grid; in particular no region has more pixels than the image.", "quantifier": "every non-empty image and supported thread count", "why_tests_cant": "The library never checks the image size against the grid; a test needs a one pixel wide image with several threads, and the wrong sizes are silent.", "anchors": ["basicimg/src/img_fast_mser_v2.cpp:allocate_memory", "basicimg/src/img_fast_mser_v2.cpp:make_tree_patch", "basicimg/src/img_fast_mser_v2.cpp:build_tree_parallel_4"]}
{"id": "C42", "title": "Both channels have the same scratch room", "statement": "Recognition leaves the per-partition scratch memory as it found it, so that processing the second channel writes only inside the slice allocated for its partition.", "quantifier": "every image, both channels, every schedule, every similarity", "why_tests_cant": "the overrun hits a neighbouring slice or the bytes behind the allocation and is usually silent", "anchors": ["basicimg/src/img_fast_mser_v2.cpp:recognize_mser_parallel_4_acceleration", "basicimg/src/img_fast_mser_v2.cpp:allocate_memory"]}
{"id": "C43", "title": "Serial and parallel recognition agree for all parameter values", "statement": "For every parameter set, also unusual ones, the serial and the parallel recognition report the same number of regions.", "quantifier": "every tree, every parameter set", "why_tests_cant": "only rare parameter combinations differ", "anchors": ["basicimg/src/img_fast_mser_v2.cpp:recognize_mser_serial", "basicimg/src/img_fast_mser_v2.cpp:recognize_mser_parallel_4_acceleration"]}
{"id": "C44", "title": "Candidate buffer for arbitrarily many candidates", "statement": "The candidate buffer has room for all candidates whatever their number.", "quantifier": "every number of candidates", "why_tests_cant": "needs close to a billion candidates", "anchors": ["basicimg/src/img_fast_mser_v2.cpp:recognize_mser_serial"]}
{"id": "C46", "title": "End to end: the returned records are exactly the stable regions", "statement": "A call with four partitions returns, per channel, records whose decoded pixel sets are exactly the maximally stable extremal regions of the image within the parameter limits (with duplicate removal disabled), always within the limits and pairwise different, and the sets returned do not depend on the thread schedule or on old buffer contents.", "quantifier": "every image within the limits of C17, every parameter set, all schedules", "why_tests_cant": "needs an independent specification of the result for all images and all interleavings", "anchors": ["basicimg/src/img_mser_base.cpp:extract", "basicimg/src/img_fast_mser_v2.cpp:extract_pixel_parallel_4_acceleration", "basicimg/src/img_fast_mser_v2.cpp:recognize_mser_parallel_4_acceleration", "basicimg/src/img_mser_helper.cpp:image_from_mser"]}
{"id": "C47", "title": "Sorting by parity", "statement": "odd_even_sort with the original order kept puts the odd (even) elements first and keeps the order inside both classes.", "quantifier": "every array of integers, both directions", "why_tests_cant": "all lengths; tests with non-negative values miss the sign of the remainder", "anchors": ["basicmath/include/mt_helper.h:odd_even_sort"]}
{"id": "C48", "title": "Region blocks have a defined size", "statement": "The block memory of the regions is initialised with an exponent for which the block size is defined.", "quantifier": "every call of extract", "why_tests_cant": "the shift count is taken modulo 32 on the usual hardware", "anchors": ["basicimg/src/img_fast_mser_v2.cpp:make_tree_patch", "basicimg/src/img_fast_mser_v1.cpp", "basicmath/include/mt_block_memory.h:init"]}
{"id": "C49", "title": "in_block recognises the elements", "statement": "in_block returns true for the address of every element of the block memory.", "quantifier": "every sequence of operations, every placement of the blocks", "why_tests_cant": "small memories have one block only", "anchors": ["basicmath/include/mt_block_memory.h:in_block"]}
{"id": "C50", "title": "Results may be copied, destroyed and reused", "statement": "Copying a result, destroying the copy, and extracting again into a result with contents have defined behaviour.", "quantifier": "every result with memory", "why_tests_cant": "mixing new/delete with malloc/free goes unnoticed with common libraries", "anchors": ["basicimg/src/img_mser_base.cpp:img_multi_msers::operator=", "basicimg/include/img_mser_base.h:~img_multi_msers", "basicimg/src/img_mser_base.cpp:extract"]}
{"id": "C51", "title": "CV-MSER+ builds the component tree", "statement": "In the linear implementation with linked pixel lists the regions with their levels, parent links and sizes form the component tree of the image: every pixel is owned by a region of its level, the pixels below a region are exactly one connected component of the pixels at most as bright as the region, its size is their number, parents are strictly brighter, there is one root, and no access leaves an array.", "quantifier": "every image with byte samples and any row step (null mask), four- and eight-neighbour connectivity, dark and bright pass, any previous contents of the buffers", "why_tests_cant": "256^(w*h) images; buffers are reused between passes", "anchors": ["basicimg/src/img_linked_linear_mser.cpp:extract_pass", "basicimg/src/img_linked_linear_mser.cpp:pre_process_image", "basicimg/src/img_linked_linear_mser.cpp:allocate_memory"]}
{"id": "C52", "title": "CV-MSER+ records describe extremal regions", "statement": "Every region returned by CV-MSER+ is an extremal region of its channel: the listed points are its pixels, each once; the size is their number; the rectangle is their bounding box; the grey level is the greatest image value for dark and the least for bright regions. Different records are different regions, and the point memory is exactly used up.", "quantifier": "every image with byte samples and at most 2^23 pixels, any row step, null mask, both connectivities, both channels, all parameters with a delta that is an i32", "why_tests_cant": "256^(w*h) images times parameters", "anchors": ["basicimg/src/img_linked_linear_mser.cpp:recognize_mser", "basicimg/src/img_linked_linear_mser.cpp:extract_pixel", "basicimg/src/img_mser_helper.cpp"]}
{"id": "C53", "title": "CV-MSER+ finds what Fast MSER finds", "statement": "With four-neighbour connectivity CV-MSER+ returns the same sets of pixels, and the same number of them, as Fast MSER V2 with four threads.", "quantifier": "every image both accept, every schedule of the threads of V2, parameters with positive delta or non-negative maximal variation and a duplicate threshold below 1", "why_tests_cant": "needs all schedules and all images", "anchors": ["basicimg/src/img_linked_linear_mser.cpp:recognize_mser", "basicimg/src/img_linked_linear_mser.cpp:extract_pixel", "basicimg/src/img_fast_mser_v2.cpp:recognize_mser"]}
{"id": "C54", "title": "CV-MSER+ returns the stable regions", "statement": "Without removal of duplicates the regions returned by CV-MSER+ are exactly the maximally stable extremal regions for the parameters; in any case the sizes are in the limits, the whole image is never returned, and with a threshold below 1 nested regions differ by more than the threshold.", "quantifier": "as C52", "why_tests_cant": "stability compares components over several levels, for all images", "anchors": ["basicimg/src/img_linked_linear_mser.cpp:recognize_mser"]}
{"id": "C55", "title": "CV-MSER+ results do not depend on old memory contents", "statement": "A call of CV-MSER+ has defined behaviour and its results are determined by the image and the parameters, whatever the reused buffers, the unset variations and the first channel leave behind.", "quantifier": "every image, all contents of the buffers, dark and/or bright", "why_tests_cant": "fresh memory is usually zero", "anchors": ["basicimg/src/img_linked_linear_mser.cpp:extract", "basicimg/src/img_linked_linear_mser.cpp:recognize_mser", "basicimg/src/img_linked_linear_mser.cpp:pre_process_image"]}
{"id": "C56", "title": "OpenCV3-style records describe extremal regions of the interior", "statement": "A call for dark regions, or for dark and bright regions, has defined behaviour; every record it returns lists the pixels of an extremal region of the image without its border, each once, with its bounding box and a size within the limits; different records are different regions, no record has a border pixel, and the result does not depend on what the reused buffers held.", "quantifier": "every image of at least 3 x 3 bytes with at most 2^29 pixels, all parameters, all contents of the buffers", "why_tests_cant": "256^(w*h) images, parameters and buffer contents", "anchors": ["basicimg/src/img_opencv3_mser.cpp:preprocess", "basicimg/src/img_opencv3_mser.cpp:extract_pixel", "basicimg/src/img_opencv3_mser.cpp:updateTree", "basicimg/src/img_opencv3_mser.cpp:checkAndCapture"]}
{"id": "C57", "title": "OpenCV3-style extraction processes every image", "statement": "Extraction of dark regions has defined behaviour for every non-empty image.", "quantifier": "every image, small ones included", "why_tests_cant": "tests use images of ordinary size", "anchors": ["basicimg/src/img_opencv3_mser.cpp:preprocess", "basicimg/src/img_opencv3_mser.cpp:extract_pixel"]}
{"id": "C58", "title": "OpenCV3-style extraction of bright regions alone", "statement": "A call for bright regions alone returns extremal regions of the inverted image without its border, as a call for both kinds does.", "quantifier": "every image of at least 3 x 3, all parameters and buffers", "why_tests_cant": "the defaults ask for both kinds, so this path is rarely taken", "anchors": ["basicimg/src/img_opencv3_mser.cpp:preprocess", "basicimg/src/img_opencv3_mser.cpp:extract_pixel"]}
{"id": "C59", "title": "Fast MSER V1's slices fill the arrays", "statement": "With 1, 2, 4, 8, 16 and 32 threads the slices of the image copy, the linked points, the heap and the boundary tables that the partitions get lie one after the other and fill the allocated arrays exactly; no 32-bit offset overflows; every partition has a table for exactly the sides it shares with another one.", "quantifier": "every image size within 31 bits, all six thread numbers, all contents of the memory", "why_tests_cant": "all sizes; overlapping slices show up in few images only", "anchors": ["basicimg/src/img_fast_mser_v1.cpp:allocate_memory", "basicimg/src/img_fast_mser_v1.cpp:allocate_memory_parallel_1", "basicimg/src/img_fast_mser_v1.cpp:allocate_memory_parallel_2", "basicimg/src/img_fast_mser_v1.cpp:allocate_memory_parallel_4", "basicimg/src/img_fast_mser_v1.cpp:allocate_memory_parallel_8", "basicimg/src/img_fast_mser_v1.cpp:allocate_memory_parallel_16", "basicimg/src/img_fast_mser_v1.cpp:allocate_memory_parallel_32"]}
{"id": "C60", "title": "Fast MSER V1 lists the extremal regions of the image", "statement": "Allocating and building the tree with Fast MSER V1 has defined behaviour and ends; every surviving region lists each pixel of one extremal region of the whole image once, with its size, level and bounding box; every extremal region is listed by exactly one surviving region; a region is a descendant of another one iff its pixels are among the other's; one region has no parent.", "quantifier": "every image of at most 2^16 x 2^16 that is no smaller than the grid and lacks a level in every partition, 1/2/4/8/16/32 threads, dark and bright pass, all contents of the memory", "why_tests_cant": "256^(w*h) images", "anchors": ["basicimg/src/img_fast_mser_v1.cpp:build_tree", "basicimg/src/img_fast_mser_v1.cpp:make_tree_patch", "basicimg/src/img_fast_mser_v1.cpp:process_tree_patch", "basicimg/src/img_fast_mser_v1.cpp:merge_tree_parallel_4", "basicimg/src/img_fast_mser_v1.cpp:merge_tree_parallel_step", "basicimg/src/img_fast_mser_v1.cpp:connect"]}
{"id": "C61", "title": "Fast MSER V1's bright pass on reused buffers", "statement": "The bright pass, which reuses the image copy, heap and level counts of the dark pass, lists the extremal regions of the inverted image, whatever happened to the linked points and the contents of the heap in between.", "quantifier": "every image as in C60, all thread numbers, all changes of the points and the heap contents", "why_tests_cant": "256^(w*h) images and all intermediate contents", "anchors": ["basicimg/src/img_fast_mser_v1.cpp:process_tree_patch", "basicimg/src/img_fast_mser_v1.cpp:make_tree_patch"]}
{"id": "C62", "title": "Fast MSER V1's thread number does not matter", "statement": "For two thread numbers the surviving regions are the same: same sets of pixels, levels, sizes and boxes.", "quantifier": "every image as in C60, every two of the six thread numbers, all contents of the memory", "why_tests_cant": "256^(w*h) images", "anchors": ["basicimg/src/img_fast_mser_v1.cpp:build_tree", "basicimg/src/img_fast_mser_v1.cpp:merge_tree_parallel_8", "basicimg/src/img_fast_mser_v1.cpp:merge_tree_parallel_16", "basicimg/src/img_fast_mser_v1.cpp:merge_tree_parallel_32"]}
{"id": "C63", "title": "Fast MSER V1 and V2 build the same regions", "statement": "The surviving regions of V1 and of V2 have, one to one, the same pixels, levels and sizes.", "quantifier": "every image as in C06 and C60, all thread numbers of both", "why_tests_cant": "256^(w*h) images", "anchors": ["basicimg/src/img_fast_mser_v1.cpp:build_tree", "basicimg/src/img_fast_mser_v2.cpp:build_tree"]}
{"id": "C64", "title": "Fast MSER V1's component stack is large enough", "statement": "Flooding a partition never needs more than the 256 entries of m_comp.", "quantifier": "every image", "why_tests_cant": "needs all 256 levels nested in one partition", "anchors": ["basicimg/src/img_fast_mser_v1.cpp:make_tree_patch"]}
{"id": "C65", "title": "Fast MSER V1 handles images smaller than the grid", "statement": "Building has defined behaviour for every non-empty image and thread number, also if the image has fewer columns or rows than the grid of partitions.", "quantifier": "every non-empty image", "why_tests_cant": "tests use images of ordinary size", "anchors": ["basicimg/src/img_fast_mser_v1.cpp:allocate_memory_parallel_2", "basicimg/src/img_fast_mser_v1.cpp:process_tree_patch"]}
{"id": "C66", "title": "Fast MSER V1's candidates are the stable extremal regions", "statement": "Before duplicate removal, V1's recognition lists exactly the extremal regions of the image that are within the size limits, are not the whole image, have a variation of at most the maximum and are not suppressed by a neighbouring level, each once, in the order of levels; the list fits in the heap array it is written to.", "quantifier": "every image as in C60 with at most 858993459 pixels, all parameters with a positive delta or a non-negative maximal variation, all six thread numbers, every schedule of the workers, dark and bright pass", "why_tests_cant": "256^(w*h) images, all interleavings of up to 32 workers", "anchors": ["basicimg/src/img_fast_mser_v1.cpp:recognize_mser", "basicimg/src/img_fast_mser_v1.cpp:recognize_mser_parallel_worker"]}
{"id": "C67", "title": "Fast MSER V1 reports stable regions without duplicates", "statement": "The number reported by V1 is the number of listed regions; each is a stable extremal region listed once; of two nested ones the larger exceeds the smaller by more than the duplicate threshold; every stable extremal region is reported or is nested with a reported one such that both are within the threshold of a stable extremal region inside them.", "quantifier": "as C66, all duplicate thresholds below 1", "why_tests_cant": "256^(w*h) images, all interleavings of up to 32 workers", "anchors": ["basicimg/src/img_fast_mser_v1.cpp:recognize_mser", "basicimg/src/img_fast_mser_v1.cpp:get_duplicated_regions"]}
{"id": "C68", "title": "Fast MSER V1's reported regions do not depend on the threads", "statement": "Two runs of V1 on one image with different thread numbers, schedules or memory contents report the same number of regions and the same pixel sets with the same levels.", "quantifier": "as C67, every two of the six thread numbers", "why_tests_cant": "256^(w*h) images, all interleavings", "anchors": ["basicimg/src/img_fast_mser_v1.cpp:build_tree", "basicimg/src/img_fast_mser_v1.cpp:recognize_mser"]}
{"id": "C69", "title": "Fast MSER V1 and V2 report the same regions", "statement": "V1 and V2 report the same number of regions and the same pixel sets.", "quantifier": "every image as in C29 and C67, all thread numbers of both, all schedules", "why_tests_cant": "256^(w*h) images, all interleavings", "anchors": ["basicimg/src/img_fast_mser_v1.cpp:recognize_mser", "basicimg/src/img_fast_mser_v2.cpp:recognize_mser"]}
{"id": "C70", "title": "Fast MSER V1 reports valid regions only for any threshold", "statement": "Whatever the duplicate threshold, every region V1 reports is flagged valid.", "quantifier": "every image and threshold", "why_tests_cant": "thresholds of 1 and more are not tried", "anchors": ["basicimg/src/img_fast_mser_v1.cpp:recognize_mser", "basicimg/src/img_fast_mser_v1.cpp:get_duplicated_regions"]}
{"id": "C71", "title": "Fast MSER V1's records hold the stable extremal regions", "statement": "With 2 or more threads the extraction finishes; the point memory holds different pixels without gaps; every record can be read and lists the pixels of a stable extremal region, with its number of pixels, its smallest enclosing rectangle and its grey level (the greatest value in the dark pass, the least in the bright pass); nested recorded regions differ by more than the duplicate threshold and every stable extremal region is recorded or a duplicate as in C67.", "quantifier": "every image and parameters as in C67, a least region size of at least 2 and of at least the number of threads less one, every schedule of recognition and of the workers that copy pixels, dark and bright pass", "why_tests_cant": "256^(w*h) images, all interleavings of up to 32 workers writing one shared array", "anchors": ["basicimg/src/img_fast_mser_v1.cpp:extract_pixel_parallel_k_fast", "basicimg/src/img_fast_mser_v1.cpp:extract_top_pixel_parallel", "basicimg/src/img_mser_helper.cpp:visit_pixel"]}
{"id": "C72", "title": "Fast MSER V1's result does not depend on the schedules", "statement": "For one image, parameters and thread number, the list of records, their order, rectangles and offsets and the contents of the point memory are the same under all schedules of recognition and copying.", "quantifier": "every image and parameters as in C67, a least region size of at least 2 and of at least the number of threads less one, every schedule of recognition and of the workers that copy pixels, dark and bright pass", "why_tests_cant": "all interleavings", "anchors": ["basicimg/src/img_fast_mser_v1.cpp:extract_pixel_parallel_k_fast", "basicimg/src/img_fast_mser_v1.cpp:recognize_mser"]}
{"id": "C73", "title": "Fast MSER V1's records do not depend on the thread number", "statement": "Two runs of V1 on one image with different thread numbers return the same number of records, and their records list the same pixel sets.", "quantifier": "every two of the six thread numbers, otherwise as C71", "why_tests_cant": "256^(w*h) images, all interleavings", "anchors": ["basicimg/src/img_fast_mser_v1.cpp:extract_pixel", "basicimg/src/img_fast_mser_v1.cpp:build_tree", "basicimg/src/img_fast_mser_v1.cpp:recognize_mser"]}
{"id": "C74", "title": "Fast MSER V1 and V2 return the same regions", "statement": "V1 and V2 with four partitions return the same number of records, and their records list the same pixel sets, in the dark and in the bright pass.", "quantifier": "every image as in C17 and C71, all schedules of both", "why_tests_cant": "256^(w*h) images, all interleavings", "anchors": ["basicimg/src/img_fast_mser_v1.cpp:extract_pixel", "basicimg/src/img_fast_mser_v2.cpp:extract_pixel"]}
{"id": "C75", "title": "Fast MSER V1's records can always be read", "statement": "Whatever the least region size and the thread number, every region V1 reports has its pixels in the point memory.", "quantifier": "every image, least size and thread number", "why_tests_cant": "needs many small regions of nearly equal size", "anchors": ["basicimg/src/img_fast_mser_v1.cpp:extract_pixel_parallel_k_fast"]}
{"id": "C76", "title": "Fast MSER V1 with one thread: offsets delimit the regions", "statement": "With one thread the first and last offset of every record delimit the pixels of a stable extremal region in the point memory, with its number of pixels and its grey level; the rest as C71.", "quantifier": "as C71 with one thread", "why_tests_cant": "256^(w*h) images", "anchors": ["basicimg/src/img_fast_mser_v1.cpp:extract_pixel_parallel_1_fast"]}
{"id": "C77", "title": "Drawing a record of V1 or CV-MSER+ shows its region", "statement": "image_from_mser of a record returned by Fast MSER V1 (two or more threads) or by CV-MSER+ succeeds; in the image (before resizing) exactly the pixels of the region have the foreground colour and no pixel of the region is cut off; the region's rectangle is centred in an image that is square up to one row or column.", "quantifier": "every result of every image and parameters as in C71 and C52, every record, every two colours", "why_tests_cant": "256^(w*h) images", "anchors": ["basicimg/src/img_mser_helper.cpp:image_from_mser"]}
{"id": "C78", "title": "Drawing a record of V2 shows its region", "statement": "image_from_mser of a record returned by Fast MSER V2 shows all pixels of the region.", "quantifier": "every result of V2", "why_tests_cant": "256^(w*h) images", "anchors": ["basicimg/src/img_mser_helper.cpp:image_from_mser"]}
{"id": "C79", "title": "The dark channel image shows the least level", "statement": "generate_mser_channel_image(from_min) shows at each pixel the level and number of the first component of the least level among the components containing the pixel; level 255 and number -1 where there is none.", "quantifier": "every list of components whose points are pixels of the image", "why_tests_cant": "unbounded lists of components", "anchors": ["basicimg/src/img_mser_result.cpp:generate_mser_channel_image"]}
{"id": "C80", "title": "The bright channel image shows levels of bright components", "statement": "generate_mser_channel_image(!from_min) succeeds and the level at each pixel is the level of the bright component whose number is shown.", "quantifier": "every two lists of components", "why_tests_cant": "unbounded lists of components", "anchors": ["basicimg/src/img_mser_result.cpp:generate_mser_channel_image"]}
{"id": "C81", "title": "connect_component finds the connected components", "statement": "connect_component of an 8-bit image of one channel returns the connected components of the pixels different from the background.", "quantifier": "every image, background and connectivity", "why_tests_cant": "256^(w*h) images; the outcome depends on uninitialised memory", "anchors": ["basicimg/src/img_connected_component.cpp:connect_component", "basicimg/include/img_connected_component.h:ture_normal_extract"]}
{"id": "C82", "title": "MS-MSER: calls return and do not depend on old memory", "statement": "Both passes of a call of MS-MSER build the component tree of their channel; the call returns; two calls for the same image and parameters return the same number of records, and records at the same place agree in level, size, rectangle and set of pixels, whatever the buffers held and whatever m_recursive_point_threshold is (other than -1 and INT_MAX).", "quantifier": "every image without a gap between rows that misses a grey value, every parameters with a delta of at least 1 and a duplicate threshold that is a number, every content of the buffers", "why_tests_cant": "256^(w*h) images times contents of memory", "anchors": ["basicimg/src/img_ms_mser.cpp:pre_process_image", "basicimg/src/img_ms_mser.cpp:build_tree", "basicimg/src/img_ms_mser.cpp:extract_pixel"]}
{"id": "C83", "title": "MS-MSER: records are extremal regions", "statement": "Every record can be read and lists the pixels of an extremal region of its channel, each once; size, rectangle and level are those of the region (greatest value for dark, least for bright); different records list different regions.", "quantifier": "as C82, every record", "why_tests_cant": "256^(w*h) images", "anchors": ["basicimg/src/img_ms_mser.cpp:recognize_mser", "basicimg/src/img_ms_mser.cpp:extract_pixel"]}
{"id": "C84", "title": "MS-MSER: records are the stable regions", "statement": "Without removal of duplicates the records list exactly the maximally stable extremal regions; records are within the size limits and not the whole image; nested records differ by more than the duplicate threshold.", "quantifier": "as C82, every parameters", "why_tests_cant": "256^(w*h) images times parameters", "anchors": ["basicimg/src/img_ms_mser.cpp:recognize_mser"]}
{"id": "C85", "title": "MS-MSER, CV-MSER+ and Fast MSER V2 report the same regions", "statement": "For the same image and parameters the three implementations return as many records and list the same regions.", "quantifier": "every image and parameters as in C82, C52 and C17", "why_tests_cant": "256^(w*h) images times parameters", "anchors": ["basicimg/src/img_ms_mser.cpp:extract_pixel", "basicimg/src/img_linked_linear_mser.cpp:extract_pixel_share_memory", "basicimg/src/img_fast_mser_v2.cpp:extract_pixel_parallel_4_acceleration"]}
{"id": "C86", "title": "MS-MSER: the row step is honoured", "statement": "The level of every record is the value of a pixel of the image, also for images whose rows are further apart than they are long.", "quantifier": "every image with any row step", "why_tests_cant": "256^(w*h) images times steps", "anchors": ["basicimg/src/img_ms_mser.cpp:pre_process_image"]}
{"id": "C87", "title": "MS-MSER: calls for bright regions alone", "statement": "A call for bright regions alone builds the component tree of the inverted image.", "quantifier": "every image", "why_tests_cant": "256^(w*h) images", "anchors": ["basicimg/src/img_ms_mser.cpp:pre_process_image"]}
{"id": "C88", "title": "MS-MSER: images with all grey values", "statement": "Building the tree stays inside the buffers for images with all 256 grey values.", "quantifier": "every image", "why_tests_cant": "256^(w*h) images", "anchors": ["basicimg/src/img_ms_mser.cpp:build_tree", "basicimg/include/img_ms_mser.h:m_comp"]}
{"id": "C89", "title": "Original implementation: trees are built and calls return", "statement": "Both passes of a call of img_original_mser build the component tree of their channel; a call on a new object, or on one whose last call was for an image with as many pixels, returns and leaves such an object.", "quantifier": "every image with any row step, four or eight neighbours, every parameters with a delta of at least 1, every set of channels", "why_tests_cant": "256^(w*h) images", "anchors": ["basicimg/src/img_origin_mser.cpp:extractPass", "basicimg/src/img_origin_mser.cpp:allocate_memory", "basicimg/src/img_origin_mser.cpp:build_tree"]}
{"id": "C90", "title": "Original implementation: records are extremal regions", "statement": "Every record lists the pixels of an extremal region of its channel, each once; size, rectangle and level are those of the region (greatest value for dark, least for bright), the size is within the limits; different records list different regions.", "quantifier": "as C89, every record", "why_tests_cant": "256^(w*h) images", "anchors": ["basicimg/src/img_origin_mser.cpp:recognize_mser", "basicimg/src/img_origin_mser.cpp:extract_pixel"]}
{"id": "C91", "title": "Original implementation: records are the stable regions and those of CV-MSER+ and Fast MSER V2", "statement": "If regions as large as the image are not asked for and the duplicate threshold is below 1: without removal of duplicates the records list exactly the maximally stable extremal regions; nested records differ by more than the threshold; CV-MSER+ (same neighbours) and Fast MSER V2 (four neighbours) return as many records and list the same regions.", "quantifier": "as C89, every parameters", "why_tests_cant": "256^(w*h) images times parameters", "anchors": ["basicimg/src/img_origin_mser.cpp:recognize_mser", "basicimg/src/img_origin_mser.cpp:getDuplicatedRegions", "basicimg/src/img_origin_mser.cpp:calculateStableVariantion", "basicimg/src/img_linked_linear_mser.cpp:recognize_mser"]}
{"id": "C92", "title": "Original implementation: an object can be used for images of different sizes", "statement": "After a call for one image, a call for an image with another number of pixels lists only pixels of the second image.", "quantifier": "every two images and parameters", "why_tests_cant": "pairs of images", "anchors": ["basicimg/src/img_origin_mser.cpp:allocate_memory", "basicimg/src/img_origin_mser.cpp:resetPreInfo"]}
{"id": "C93", "title": "Original implementation: the whole image is not reported", "statement": "No record is the whole image, as in the other implementations.", "quantifier": "every image and parameters", "why_tests_cant": "256^(w*h) images", "anchors": ["basicimg/src/img_origin_mser.cpp:recognize_mser"]}
{"id": "C94", "title": "OpenCV-style extraction: points are different pixels of the image", "statement": "Whatever the member m_step_gap holds, the points of every record of img_opencv_mser are different pixels of the image.", "quantifier": "every image, parameters, buffers and value of the member from 0 to 31", "why_tests_cant": "256^(w*h) images and all contents of the buffers", "anchors": ["basicimg/src/img_opencv_mser.cpp:extractPass", "basicimg/src/img_opencv_mser.cpp:allocate_memory"]}
{"id": "C95", "title": "OpenCV-style extraction: records are connected", "statement": "If m_step_gap fits the width, the pixels of every record of img_opencv_mser are connected.", "quantifier": "every image, parameters and buffers", "why_tests_cant": "256^(w*h) images and all contents of the buffers", "anchors": ["basicimg/src/img_opencv_mser.cpp:mergeComp", "basicimg/src/img_opencv_mser.cpp:toMSERInfo"]}
{"id": "C96", "title": "OpenCV-style extraction: the first list has dark regions", "statement": "If m_step_gap fits the width, every pixel next to a record of m_msers[0] of img_opencv_mser is brighter than the pixel of the record it touches.", "quantifier": "every image, parameters and buffers", "why_tests_cant": "256^(w*h) images and all contents of the buffers", "anchors": ["basicimg/src/img_opencv_mser.cpp:preProcessImage", "basicimg/src/img_opencv_mser.cpp:extract_pixel"]}
{"id": "C97", "title": "OpenCV-style extraction: levels are values of pixels", "statement": "If m_step_gap fits the width, m_gray_level of every record of img_opencv_mser is the value of one of its pixels.", "quantifier": "every image, parameters and buffers", "why_tests_cant": "256^(w*h) images and all contents of the buffers", "anchors": ["basicimg/src/img_opencv_mser.cpp:toMSERInfo"]}
{"id": "C98", "title": "OpenCV-style extraction: every call returns", "statement": "With m_step_gap from 0 to 31, every call of img_opencv_mser on buffers as allocate_memory leaves them returns: no access outside a buffer, no pop of an empty stack, no endless chain of histories or points, for every combination of m_from_min_max.", "quantifier": "every image, row step, parameters, buffer contents and passes", "why_tests_cant": "256^(w*h) images and all contents of the buffers", "anchors": ["basicimg/src/img_opencv_mser.cpp:extractPass", "basicimg/src/img_opencv_mser.cpp:mergeComp", "basicimg/src/img_opencv_mser.cpp:accumulateComp", "basicimg/src/img_opencv_mser.cpp:variation", "basicimg/src/img_opencv_mser.cpp:stable", "basicimg/src/img_opencv_mser.cpp:toMSERInfo", "basicimg/src/img_opencv_mser.cpp:preProcessImage"]}
{"id": "C99", "title": "OpenCV-style extraction: records are parts of components", "statement": "If m_step_gap fits the width, the points of every record of img_opencv_mser are different pixels of the image, their number is the size and within m_min_point and m_max_point, the rectangle is the smallest one with them, and any two are joined by a path of pixels with values of at least 255 - m_gray_level (m_msers[0]) or at most 255 - m_gray_level (m_msers[1]).", "quantifier": "every image, row step, parameters, buffer contents and passes, with fewer than 2^31 words in m_temp_image", "why_tests_cant": "256^(w*h) images and all contents of the buffers", "anchors": ["basicimg/src/img_opencv_mser.cpp:extractPass", "basicimg/src/img_opencv_mser.cpp:mergeComp", "basicimg/src/img_opencv_mser.cpp:toMSERInfo", "basicimg/src/img_opencv_mser.cpp:preProcessImage"]}
{"id": "C100", "title": "OpenCV-style extraction: records are nested or apart", "statement": "If m_step_gap fits the width, of two records in one of the lists of img_opencv_mser the later one has no pixel of the earlier one, or it has all of them and the part of its pixels that are not in the earlier one, computed in double, exceeds m_duplicated_variation.", "quantifier": "every image, row step, parameters, buffer contents and passes, as in C99", "why_tests_cant": "256^(w*h) images and all contents of the buffers", "anchors": ["basicimg/src/img_opencv_mser.cpp:isStable", "basicimg/src/img_opencv_mser.cpp:mergeComp", "basicimg/src/img_opencv_mser.cpp:newHistory", "basicimg/src/img_opencv_mser.cpp:toMSERInfo"]}
{"id": "C101", "title": "OpenCV-style extraction: records grow little", "statement": "Every record in the second list of img_opencv_mser has grown by less than m_stable_variation over its pixels that are at least m_delta below its greatest value.", "quantifier": "every image, parameters and buffer contents", "why_tests_cant": "256^(w*h) images; the defect needs a component that grows fast in the level before it is merged", "anchors": ["basicimg/src/img_opencv_mser.cpp:isStable", "basicimg/src/img_opencv_mser.cpp:calculateVariation", "basicimg/src/img_opencv_mser.cpp:mergeComp"]}
{"id": "C102", "title": "OpenCV-style extraction: old buffer contents do not matter", "statement": "With m_step_gap from 0 to 31, two calls of img_opencv_mser for the same image, parameters and kinds return the same lists, whatever is in m_temp_image, m_heap and m_heap_start behind its first entry.", "quantifier": "every image, row step, parameters and two contents of the buffers", "why_tests_cant": "all contents of the buffers; columns of m_temp_image behind the border are never written", "anchors": ["basicimg/src/img_opencv_mser.cpp:preProcessImage", "basicimg/src/img_opencv_mser.cpp:extractPass"]}
