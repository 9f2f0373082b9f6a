{
 "claims": [
  {
   "property": "C01",
   "status": "proved",
   "theorems": [
    "C01_offset_of_coords",
    "C01_coords_of_offset",
    "C01_line_tables",
    "C01_getPixel",
    "C01_setPixel"
   ],
   "note": ""
  },
  {
   "property": "C02",
   "status": "partial",
   "theorems": [
    "C02_isOffsetInImage_partial",
    "C02_isOffsetInImage_refuted",
    "C02_isCoordsInImage"
   ],
   "note": "The property is false of the code: isOffsetInImage accepts offset pixelCount. The partial theorem gives the exact set accepted."
  },
  {
   "property": "C03",
   "status": "partial",
   "theorems": [
    "C03_box_partial",
    "C03_setReference_point_partial",
    "C03_shift_numbers_partial",
    "C03_box_refuted"
   ],
   "note": "False of the code for setReference(Point) and shift(x,y,z); the exact effect of those overloads is proved."
  },
  {
   "property": "C04",
   "status": "proved",
   "theorems": [
    "C04_pixelwise",
    "C04_schedule_independent"
   ],
   "note": "Every interleaving of the per-pixel loads and stores."
  },
  {
   "property": "C05",
   "status": "partial",
   "theorems": [
    "C05_inplace_refuted",
    "C05_inplace_partial"
   ],
   "note": "False of the code: the in-place overload never stores its result; proved that the image is left unchanged."
  },
  {
   "property": "C06",
   "status": "partial",
   "theorems": [
    "C06_add",
    "C06_sub",
    "C06_noSat",
    "C06_signed_partial",
    "C06_signed_refuted"
   ],
   "note": "Unsigned types proved in full. For signed types the saturation test is wrong exactly when the second operand is negative."
  },
  {
   "property": "C07",
   "status": "proved",
   "theorems": [
    "C07_mul",
    "C07_div",
    "C07_absDiff"
   ],
   "note": ""
  },
  {
   "property": "C08",
   "status": "partial",
   "theorems": [
    "C08_mulNoSat_refuted",
    "C08_mulNoSat_partial"
   ],
   "note": "False of the code: mulNoSat calls the saturating line function."
  },
  {
   "property": "C09",
   "status": "proved",
   "theorems": [
    "C09_inv",
    "C09_involution",
    "C09_inv_order"
   ],
   "note": ""
  },
  {
   "property": "C10",
   "status": "proved",
   "theorems": [
    "C10_comparisons",
    "C10_test",
    "C10_mask",
    "C10_compare",
    "C10_compare_unknown",
    "C10_equ_bool"
   ],
   "note": ""
  },
  {
   "property": "C11",
   "status": "proved",
   "theorems": [
    "C11_threshold",
    "C11_threshold_short"
   ],
   "note": ""
  },
  {
   "property": "C12",
   "status": "partial",
   "theorems": [
    "C12_histogram_array",
    "C12_histogram_array_mask",
    "C12_histogram_map",
    "C12_histogramMap",
    "C12_fullRange_refuted",
    "C12_uint32_refuted",
    "C12_histogramMap_mask_refuted"
   ],
   "note": "histogram() in both forms, with and without mask, is proved exact. False of the code: the masked histogramMap ignores its mask; the array form has no cells for UINT32; fullRange omits values when every pixel is the type minimum."
  },
  {
   "property": "C15",
   "status": "partial",
   "theorems": [
    "C15_area",
    "C15_volume",
    "C15_minVal",
    "C15_maxVal",
    "C15_rangeVal",
    "C15_minVal_point_partial",
    "C15_maxVal_point_partial",
    "C15_point_refuted"
   ],
   "note": "Values proved in full (double accumulators up to 2^53). The position is wrong when onlyNonZero is set and the only considered value is the type maximum (minimum)."
  },
  {
   "property": "C16",
   "status": "partial",
   "theorems": [
    "C16_valueList",
    "C16_nonZeroOffsets",
    "C16_boundBox",
    "C16_modeVal_partial",
    "C16_modeVal_refuted",
    "C16_medianVal_partial",
    "C16_medianVal_refuted"
   ],
   "note": "valueList, nonZeroOffsets and the bounding box are proved in full. modeVal returns an uninitialised value on empty input and ignores negative values; medianVal is wrong for UINT32 values from 2^31."
  },
  {
   "property": "C17",
   "status": "partial",
   "theorems": [
    "C17_computeBlobs",
    "C17_drawBlobs_partial",
    "C17_drawBlobs_lut_partial",
    "C17_drawBlobs_refuted"
   ],
   "note": "computeBlobs proved in full. drawBlobs skips the label of the last pixel (>= instead of >); its exact result is proved."
  },
  {
   "property": "C18",
   "status": "partial",
   "theorems": [
    "C18_applyLookup",
    "C18_applyLookup_small_partial",
    "C18_applyLookup_small_refuted"
   ],
   "note": "General version proved in full; the UINT8/UINT16 version reads an uninitialised cell for the type maximum when it is not a key."
  },
  {
   "property": "C45",
   "status": "proved",
   "theorems": [
    "C45_blobs_area",
    "C45_blobs_volume",
    "C45_blobs_range"
   ],
   "note": ""
  },
  {
   "property": "C13",
   "status": "proved",
   "theorems": [
    "C13_copy",
    "C13_copy_reject",
    "C13_crop",
    "C13_crop_reject",
    "C13_addBorder",
    "C13_border_then_crop"
   ],
   "note": "Input and output are different images (crop and addBorder clone the input when used in place)."
  },
  {
   "property": "C14",
   "status": "partial",
   "theorems": [
    "C14_flip",
    "C14_flip_bad_size",
    "C14_flip_involution",
    "C14_rotate_partial",
    "C14_rotate_compose_partial",
    "C14_four_turns",
    "C14_rotate90_refuted",
    "C14_rotate_negative_refuted",
    "C14_translate_partial",
    "C14_translate_refuted",
    "C14_translate_inplace_refuted",
    "C14_transpose",
    "C14_transpose_short",
    "C14_transpose_unknown"
   ],
   "note": "Flips and transposition hold in full. One quarter turn of a non-square image writes out of bounds, negative counts do nothing, translate by more than the width accesses memory out of bounds and translate in place is wrong: refuted in general form; the rest proved."
  },
  {
   "property": "C19",
   "status": "partial",
   "theorems": [
    "C19_addPoint",
    "C19_transpose_square",
    "C19_transpose_converse",
    "C19_transpose_involution",
    "C19_noCenter",
    "C19_homothety_partial",
    "C19_homothety_origin",
    "C19_homothety_NoDup",
    "C19_homothety_refuted",
    "C19_homothety_zero_refuted"
   ],
   "note": "homothety(n) is the n-fold Minkowski sum only when the element contains the origin and n >= 1; both restrictions are shown necessary"
  },
  {
   "property": "C20",
   "status": "partial",
   "theorems": [
    "C20_dilate",
    "C20_erode",
    "C20_unique",
    "C20_reject",
    "C20_rhombicuboctahedron_refuted"
   ],
   "note": "Proved for every element whose type tag announces its points and that fits the image (two lines for the pair-of-lines passes, |x| at most the width for the generic path). False for RhombicuboctahedronSE, shown by a counterexample."
  },
  {
   "property": "C21",
   "status": "partial",
   "theorems": [
    "C21_fast_is_generic",
    "C21_hex_3d_refuted"
   ],
   "note": "Proved for all predefined elements, hexagonal ones on one slice; false for HexSE on several slices (counterexample)."
  },
  {
   "property": "C22",
   "status": "partial",
   "theorems": [
    "C22_height_1_refuted",
    "C22_height_2_partial"
   ],
   "note": "False for height 1: every execution reads past the last line. Proved for height at least 2."
  },
  {
   "property": "C23",
   "status": "proved",
   "theorems": [
    "C23_adjunction",
    "C23_dilate_increasing",
    "C23_erode_increasing",
    "C23_dilate_sup",
    "C23_erode_inf",
    "C23_duality"
   ],
   "note": "Default border values; hexagonal elements on one slice."
  },
  {
   "property": "C24",
   "status": "partial",
   "theorems": [
    "C24_open_filter",
    "C24_close_filter",
    "C24_open_increasing",
    "C24_close_increasing",
    "C24_open_is_erode_dilate",
    "C24_close_is_dilate_erode",
    "C24_open_close_dual",
    "C24_topHat_partial",
    "C24_dualTopHat_partial",
    "C24_gradient_partial",
    "C24_topHat_signed_refuted",
    "C24_hex_3d_refuted"
   ],
   "note": "Filters proved in full (hexagonal elements on one slice; false on several). Residues exact for the unsigned types only; false for signed ones."
  },
  {
   "property": "C25",
   "status": "proved",
   "theorems": [
    "C25_dilate_passes",
    "C25_erode_passes",
    "C25_size_0",
    "C25_sizes_add",
    "C25_dilate_box",
    "C25_erode_box",
    "C25_cross_ball",
    "C25_cross3d_ball",
    "C25_dilate_paths"
   ],
   "note": ""
  },
  {
   "property": "C47",
   "status": "partial",
   "theorems": [
    "C47_points_partial",
    "C47_noCenter_refuted"
   ],
   "note": "Holds when the type tag announces the points; false for elements changed with noCenter (counterexample)."
  },
  {
   "property": "C26",
   "status": "partial",
   "theorems": [
    "C26_hierarchical_queue_partial",
    "C26_signed_refuted",
    "C26_uint32_refuted"
   ],
   "note": "Proved for UINT8 and UINT16, both orders, any operation sequence; refuted on signed types and UINT32."
  },
  {
   "property": "C27",
   "status": "proved",
   "theorems": [
    "C27_fifo_queue",
    "C27_overflow_refuted"
   ],
   "note": "Any operation sequence within the capacity; beyond the capacity the buffer overflows (refuted)."
  },
  {
   "property": "C30",
   "status": "proved",
   "theorems": [
    "C30_build",
    "C30_dualBuild",
    "C30_unique",
    "C30_levels",
    "C30_dual_levels",
    "C30_between",
    "C30_idempotent",
    "C30_increasing",
    "C30_duality",
    "C30_reject",
    "C30_signed_refuted"
   ],
   "note": "UINT8 and UINT16, any size; signed pixel types fault (refuted)."
  },
  {
   "property": "C31",
   "status": "partial",
   "theorems": [
    "C31_geoBuild_partial",
    "C31_geoDualBuild_partial",
    "C31_size_refuted",
    "C31_asymmetric_refuted"
   ],
   "note": "Termination for every element with the origin; equality with build for size 1, with dualBuild for size 1 and symmetric elements; false for size 2 and for asymmetric elements (counterexamples)."
  },
  {
   "property": "C32",
   "status": "proved",
   "theorems": [
    "C32_fillHoles",
    "C32_fillHoles_raised",
    "C32_levelPics",
    "C32_buildOpen",
    "C32_buildClose",
    "C32_buildOpen_below",
    "C32_buildOpen_increasing",
    "C32_buildOpen_idempotent",
    "C32_buildClose_above",
    "C32_buildClose_increasing",
    "C32_buildClose_idempotent",
    "C32_hBuild",
    "C32_hDualBuild",
    "C32_minima",
    "C32_maxima",
    "C32_hMinima",
    "C32_hMaxima"
   ],
   "note": "Idempotence needs the origin in the element (and symmetry for buildClose)."
  },
  {
   "property": "C48",
   "status": "partial",
   "theorems": [
    "C48_in_place_forgets_refuted",
    "C48_hBuild_refuted",
    "C48_buildOpen_refuted",
    "C48_fillHoles_refuted"
   ],
   "note": "The property is false: counterexamples; in place the first four functions do not depend on the image at all."
  },
  {
   "property": "C49",
   "status": "proved",
   "theorems": [
    "C49_geoDilate",
    "C49_geoErode"
   ],
   "note": "geoErode works with the transposed element, as erode does."
  },
  {
   "property": "C28",
   "status": "proved",
   "theorems": [
    "C28_label",
    "C28_lambdaLabel",
    "C28_elements",
    "C28_asymmetric_refuted"
   ],
   "note": "Any image, symmetric element; an asymmetric element breaks it (counterexample)."
  },
  {
   "property": "C29",
   "status": "partial",
   "theorems": [
    "C29_distinct_partial",
    "C29_repeated",
    "C29_no_warning_refuted"
   ],
   "note": "Labels are distinct below the type maximum and repeat from it on; the warning misses the case of exactly the maximum (counterexample)."
  },
  {
   "property": "C50",
   "status": "partial",
   "theorems": [
    "C50_inplace_refuted",
    "C50_inplace_partial"
   ],
   "note": "False: in place the element is dropped and the default one used; right for the default element."
  },
  {
   "property": "C51",
   "status": "proved",
   "theorems": [
    "C51_labelWithArea",
    "C51_labelWithArea_reject",
    "C51_labelWithVolume",
    "C51_component"
   ],
   "note": "Component count and measures below the maximum of the output type."
  },
  {
   "property": "C52",
   "status": "partial",
   "theorems": [
    "C52_areaThreshold_binary_partial",
    "C52_areaThreshold_labels_partial",
    "C52_race_refuted"
   ],
   "note": "Proved for one thread or images without 0; on every binary image two threads race on the table."
  },
  {
   "property": "C53",
   "status": "proved",
   "theorems": [
    "C53_minimaLabeled",
    "C53_maximaLabeled"
   ],
   "note": "Element of size 1, fewer extrema than the maximum of the output type."
  },
  {
   "property": "C33",
   "status": "proved",
   "theorems": [
    "C33_basins",
    "C33_marker_labels",
    "C33_reject"
   ],
   "note": "Pixel types UINT8 and UINT16, labels below the maximum of the label type (others are refused), any element. Also gives the flooding level of every pixel."
  },
  {
   "property": "C34",
   "status": "proved",
   "theorems": [
    "C34_watershed",
    "C34_separated",
    "C34_elements"
   ],
   "note": "Pixel types UINT8 and UINT16, symmetric element with distinct points. Output distinct from the input."
  },
  {
   "property": "C54",
   "status": "partial",
   "theorems": [
    "C54_watershed",
    "C54_basins_partial",
    "C54_basins_mixed",
    "C54_basins_refuted"
   ],
   "note": "watershed proved in full; basins drops the element when flooding and uses the default one: proved for that element, refuted in general, exact result given."
  },
  {
   "property": "C35",
   "status": "proved",
   "theorems": [
    "C35_hitOrMiss",
    "C35_hitOrMiss_binary",
    "C35_hitOrMiss_list",
    "C35_thin",
    "C35_thick",
    "C35_lists",
    "C35_fullThin",
    "C35_fullThick",
    "C35_skiz",
    "C35_sizes"
   ],
   "note": "Output distinct from the input for hitOrMiss (see C55). fullThin and fullThick: volumes exact in a double. Also the exact results on grey images and binary images."
  },
  {
   "property": "C55",
   "status": "partial",
   "theorems": [
    "C55_in_place_refuted"
   ],
   "note": "Refuted for a pair and for a list: imOut is overwritten before imIn has been read. The results with distinct images are under C35."
  },
  {
   "property": "C56",
   "status": "partial",
   "theorems": [
    "C56_rotations_partial",
    "C56_turn",
    "C56_rotations_refuted"
   ],
   "note": "Proved for elements of the same grid and n > 0 (full circle when n divides 6 or 8); refuted for HMT_hS2, whose background element is on the square grid, for n = 5, and for n = 0, a division by zero."
  },
  {
   "property": "C57",
   "status": "partial",
   "theorems": [
    "C57_skeleton_partial",
    "C57_skeleton_refuted"
   ],
   "note": "Unsigned types. The image itself is left out and the loop stops at the first erosion that adds nothing: refuted; exact result and termination given."
  },
  {
   "property": "C36",
   "status": "partial",
   "theorems": [
    "C36_operation_partial",
    "C36_history_partial",
    "C36_bookkeeping_refuted"
   ],
   "note": "All histories without the edge (0,0) and without removeNodeEdges at a node carrying a loop; refuted for these two."
  },
  {
   "property": "C37",
   "status": "partial",
   "theorems": [
    "C37_labelizeNodes_partial",
    "C37_labelizeNodes_refuted"
   ],
   "note": "All graphs in which every node has had an edge; refuted for a node added without edges (exception)."
  },
  {
   "property": "C38",
   "status": "proved",
   "theorems": [
    "C38_graphMST"
   ],
   "note": "Weights are not negative. Any order of the queue among edges of equal weight."
  },
  {
   "property": "C58",
   "status": "partial",
   "theorems": [
    "C58_sortEdges_partial",
    "C58_sortEdges_refuted"
   ],
   "note": "All graphs without removed edges and without isolated nodes; refuted otherwise."
  },
  {
   "property": "C59",
   "status": "partial",
   "theorems": [
    "C59_addEdge_existing_partial",
    "C59_addEdge_minimum_refuted"
   ],
   "note": "Refuted: the existing weight is kept."
  },
  {
   "property": "C60",
   "status": "partial",
   "theorems": [
    "C60_scan_partial",
    "C60_raster",
    "C60_neighbours",
    "C60_narrow_refuted",
    "C60_wrap_refuted",
    "C60_left_refuted",
    "C60_hexagonal_refuted"
   ],
   "note": "All functions, images and elements no point of which is further than the width, with a point not to the left of the centre and, on the hexagonal grid, no rightmost point on odd lines; refuted for each of these."
  },
  {
   "property": "C61",
   "status": "partial",
   "theorems": [
    "C61_mean_partial",
    "C61_rank_partial",
    "C61_median_partial",
    "C61_neighbors_partial",
    "C61_inplace_refuted",
    "C61_rank_refuted"
   ],
   "note": "Elements as in C60. Refuted in place (endless recursion) and for rank with percentile 1 (read after the end)."
  },
  {
   "property": "C62",
   "status": "partial",
   "theorems": [
    "C62_mosaicToGraph",
    "C62_plain_partial",
    "C62_plain_refuted"
   ],
   "note": "With an image of edge values: proved. Without: same adjacency, but one edge per contact (refuted: duplicates)."
  },
  {
   "property": "C63",
   "status": "partial",
   "theorems": [
    "C63_graphToMosaic_partial",
    "C63_threshold_partial",
    "C63_single_refuted"
   ],
   "note": "Mosaics in which every label has a neighbouring label; refuted for one region."
  },
  {
   "property": "C42",
   "status": "proved",
   "theorems": [
    "C42_distCross",
    "C42_unique",
    "C42_size"
   ],
   "note": "All output types; the map is unique."
  },
  {
   "property": "C64",
   "status": "partial",
   "theorems": [
    "C64_distCross3d_partial",
    "C64_UINT32_refuted"
   ],
   "note": "All types but UINT32; refuted for UINT32 (one more than the maximum is 0)."
  },
  {
   "property": "C65",
   "status": "proved",
   "theorems": [
    "C65_distSquare"
   ],
   "note": "All output types, in place or not."
  },
  {
   "property": "C66",
   "status": "partial",
   "theorems": [
    "C66_distanceEuclidean_partial",
    "C66_depth_refuted",
    "C66_saturation_refuted",
    "C66_slice_refuted",
    "C66_overflow_refuted"
   ],
   "note": "UINT8 and UINT16, images not deeper than wide, zeros near enough in each slice (UINT16: in each column); refuted otherwise: vectors too short, squares wrap around, int overflow."
  },
  {
   "property": "C67",
   "status": "partial",
   "theorems": [
    "C67_distGeneric_partial",
    "C67_distance_partial",
    "C67_wrap_refuted",
    "C67_inplace_refuted",
    "C67_size_refuted"
   ],
   "note": "Elements of size 1, not in place, distances within the output type; refuted for each of these."
  },
  {
   "property": "C39",
   "status": "partial",
   "theorems": [
    "C39_pool_partial",
    "C39_initialize_refuted",
    "C39_twice_refuted"
   ],
   "note": "Every sequence of operations on a pool that is not initialized again after use; refuted otherwise: initialize frees the buffers but keeps their addresses, which are freed twice or handed out twice."
  },
  {
   "property": "C40",
   "status": "partial",
   "theorems": [
    "C40_signals_partial",
    "C40_mutual",
    "C40_disconnectAll_refuted",
    "C40_dangling_refuted"
   ],
   "note": "Every program without disconnectAll on a living signal; refuted: disconnectAll leaves the list of the signal as it was."
  },
  {
   "property": "C41",
   "status": "partial",
   "theorems": [
    "C41_bits_partial",
    "C41_lvalue_partial",
    "C41_apart",
    "C41_size_refuted",
    "C41_const_refuted",
    "C41_constructor_partial",
    "C41_constructor_refuted"
   ],
   "note": "Every array of at most 2^26 words. Refuted beyond (32-bit index), for the value operator of constant arrays (ignores the index) and for the constructor from several rows."
  },
  {
   "property": "C46",
   "status": "partial",
   "theorems": [
    "C46_value",
    "C46_binary",
    "C46_binary_value",
    "C46_tertiary",
    "C46_unary_partial",
    "C46_unary_refuted",
    "C46_bits_partial",
    "C46_bits_refuted"
   ],
   "note": "Functors with one input line: only when the line reaches the alignment boundary; refuted otherwise. Bit lines: only when the split does not fall inside the line; refuted otherwise."
  },
  {
   "property": "C68",
   "status": "partial",
   "theorems": [
    "C68_bit_image_partial"
   ],
   "note": "Images of at most 2^26 words (see C41_size_refuted)."
  },
  {
   "property": "C69",
   "status": "partial",
   "theorems": [
    "C69_binary",
    "C69_inv",
    "C69_test",
    "C69_fill",
    "C69_copy_partial",
    "C69_copy_refuted",
    "C69_empty_refuted"
   ],
   "note": "Copy: lines at index 0; refuted for a line read from a later bit and for empty lines."
  },
  {
   "property": "C70",
   "status": "partial",
   "theorems": [
    "C70_shift_partial",
    "C70_word_refuted",
    "C70_border_refuted",
    "C70_padding_refuted"
   ],
   "note": "See the hypotheses of C70_shift_partial; refuted for shifts by a whole word, for the border of padded rows and when the shift and the padding reach a word."
  },
  {
   "property": "C71",
   "status": "partial",
   "theorems": [
    "C71_sse_partial",
    "C71_sub_refuted"
   ],
   "note": "All SSE functors on bytes but the subtraction, whose tail loop is wrong."
  },
  {
   "property": "C44",
   "status": "partial",
   "theorems": [
    "C44_line_partial",
    "C44_line_refuted",
    "C44_rectangle_partial",
    "C44_outline_partial",
    "C44_rectangle_refuted",
    "C44_rectangle_spill_refuted",
    "C44_box_partial",
    "C44_box_deep_partial",
    "C44_box_refuted",
    "C44_disc_partial",
    "C44_sphere_partial",
    "C44_disc_refuted"
   ],
   "note": "Discs and balls at any place, oblique lines at any place, other lines inside or beside the image, filled rectangles with columns inside, outlines and boxes inside. Refuted: vertical and horizontal lines and rectangles partly outside, empty boxes, radii whose square overflows."
  },
  {
   "property": "C72",
   "status": "partial",
   "theorems": [
    "C72_points",
    "C72_order_partial",
    "C72_order_refuted"
   ],
   "note": "The points for all lines; the order refuted for vertical lines upwards and horizontal lines to the left."
  },
  {
   "property": "C73",
   "status": "partial",
   "theorems": [
    "C73_circle_partial",
    "C73_circle_refuted"
   ],
   "note": "The circle is connected, symmetric and in the band r^2-3r/2 <= x^2+y^2 <= r^2+r/2; the half-pixel claim is refuted."
  },
  {
   "property": "C74",
   "status": "partial",
   "theorems": [
    "C74_pattern_partial",
    "C74_pattern_refuted"
   ],
   "note": "Without limit on the number of copies and for patterns not higher than the output."
  },
  {
   "property": "C43",
   "status": "partial",
   "theorems": [
    "C43_areaOpen_partial",
    "C43_unique",
    "C43_antiextensive",
    "C43_increasing",
    "C43_idempotent",
    "C43_sizes",
    "C43_size_one",
    "C43_connecting",
    "C43_connecting_refuted",
    "C43_signed_refuted"
   ],
   "note": "UINT8 and UINT16, symmetric elements through which every pixel is reached (all the usual ones, C43_connecting). Refuted: pixels out of reach get 0; a negative value is out of the tables."
  },
  {
   "property": "C75",
   "status": "partial",
   "theorems": [
    "C75_heightOpen_partial",
    "C75_widthOpen_partial",
    "C75_opening"
   ],
   "note": "Calls as in C43."
  },
  {
   "property": "C76",
   "status": "partial",
   "theorems": [
    "C76_close_partial",
    "C76_unique",
    "C76_closing"
   ],
   "note": "Calls as in C43."
  },
  {
   "property": "C77",
   "status": "partial",
   "theorems": [
    "C77_areaOpening_partial",
    "C77_areaClosing_partial",
    "C77_unique",
    "C77_agree_partial",
    "C77_in_place_refuted",
    "C77_hexagonal_refuted",
    "C77_size_zero_refuted"
   ],
   "note": "Proved for every integer type, image and symmetric element without shift, sizes from 1, output distinct from the input, with a depth of recursion bounded by the number of pixels, and equal to the max-tree result where the latter is defined. Refuted in place (the histogram is made after the image is cleared), for hexagonal elements (no shift of neighbours) and for the size 0 (FindRoot never ends)."
  },
  {
   "property": "C78",
   "status": "partial",
   "theorems": [
    "C78_roundtrip_partial",
    "C78_format",
    "C78_read_partial",
    "C78_volume_refuted",
    "C78_name_refuted"
   ],
   "note": "2-D images with fewer than 2^31 pixels and names without a line end. Refuted: volumes (only the first slice is written, with RES_OK) and names with a line end."
  },
  {
   "property": "C79",
   "status": "partial",
   "theorems": [
    "C79_p4_partial",
    "C79_p2_partial",
    "C79_p2_refuted",
    "C79_comment_refuted",
    "C79_loop_refuted",
    "C79_short_refuted",
    "C79_maxval_refuted",
    "C79_p1_refuted",
    "C79_size_refuted"
   ],
   "note": "P4 and P2 are read as the format says (P4 with set bits as the greatest value). Refuted: P2 writes out of its buffer for some numbers of pixels; a file that ends in a comment loops for ever; short files are accepted; the greatest value is ignored in binary files; P1 without spaces; 2^31 pixels."
  },
  {
   "property": "C80",
   "status": "partial",
   "theorems": [
    "C80_format_partial",
    "C80_roundtrip_partial",
    "C80_read_partial",
    "C80_rgb_roundtrip_partial",
    "C80_rgb_format_partial",
    "C80_rgb_refuted",
    "C80_colours_refuted",
    "C80_volume_refuted"
   ],
   "note": "8-bit and 24-bit 2-D images. Refuted: 24-bit files of a width that is not a multiple of 4 do not follow the format; a table size of 0; volumes."
  },
  {
   "property": "C81",
   "status": "proved",
   "theorems": [
    "C81_roundtrip",
    "C81_bytes",
    "C81_short_refuted"
   ],
   "note": "All types and sizes. C81_short_refuted shows what the statement leaves out: a truncated file is accepted."
  },
  {
   "property": "C82",
   "status": "partial",
   "theorems": [
    "C82_roundtrip_partial",
    "C82_newline_refuted",
    "C82_letter_refuted",
    "C82_type_refuted"
   ],
   "note": "UINT8 and UINT16 when the first byte of the pixels is not a line end, # or a letter. Refuted otherwise, and for the other types."
  },
  {
   "property": "C83",
   "status": "partial",
   "theorems": [
    "C83_stack_partial",
    "C83_pgm_stack",
    "C83_bmp_stack",
    "C83_names_refuted"
   ],
   "note": "Distinct names, for every kind of file that gives back 2-D images; instances for PGM and BMP. Refuted for equal names."
  },
  {
   "property": "C84",
   "status": "partial",
   "theorems": [
    "C84_dilate_partial",
    "C84_erode_partial",
    "C84_open_partial",
    "C84_close_partial",
    "C84_guards",
    "C84_length_refuted",
    "C84_diagonal_refuted",
    "C84_rising_refuted"
   ],
   "note": "Proved for horizontal and vertical lines (unless the line has one pixel or 2 r + 1 pixels), one diagonal, and the directions between the axes and the other diagonal. Refuted for that other diagonal (a corner is not written), the remaining directions (pixels are not written) and lines of 2 r + 1 pixels (out of bounds). Directions are given as (dx, dy), not as an angle."
  },
  {
   "property": "C85",
   "status": "partial",
   "theorems": [
    "C85_dilate_partial",
    "C85_erode_partial",
    "C85_open_partial",
    "C85_close_partial",
    "C85_side_refuted"
   ],
   "note": "Proved unless a side of the image is 1 or 2 r + 1; refuted there."
  },
  {
   "property": "C86",
   "status": "partial",
   "theorems": [
    "C86_open_partial",
    "C86_close_partial",
    "C86_opening",
    "C86_diagonal_refuted",
    "C86_stale_refuted",
    "C86_levels_refuted",
    "C86_volume_refuted",
    "C86_borders_refuted"
   ],
   "note": "Proved for horizontal, vertical and one diagonal, 8-bit types, one slice. Refuted for the other directions, for more than 256 levels, for volumes; near the borders it differs from lineOpen."
  },
  {
   "property": "C87",
   "status": "proved",
   "theorems": [
    "C87_lblSkiz",
    "C87_zones"
   ],
   "note": "UINT8 and UINT16, elements of size 1, second image the complement of the first, as inflBasins calls it."
  },
  {
   "property": "C88",
   "status": "partial",
   "theorems": [
    "C88_inflBasins_partial",
    "C88_zones_refuted"
   ],
   "note": "Proved: the result is the opening by the default element of the zones of C87. Refuted: the opening moves a pixel to another zone."
  },
  {
   "property": "C89",
   "status": "partial",
   "theorems": [
    "C89_blank_partial",
    "C89_memory_refuted"
   ],
   "note": "Refuted: the erosion by an element without points reads uninitialised memory; C89_blank_partial gives the result for all images when that memory holds 65535."
  },
  {
   "property": "C90",
   "status": "proved",
   "theorems": [
    "C90_waterfall",
    "C90_kept",
    "C90_levels"
   ],
   "note": "UINT8 and UINT16 (the types of the queues), symmetric elements of size at most 1 without repeated points."
  },
  {
   "property": "C91",
   "status": "partial",
   "theorems": [
    "C91_arrow_partial",
    "C91_same_type_partial",
    "C91_operations",
    "C91_inplace_refuted",
    "C91_size_refuted",
    "C91_bits_refuted"
   ],
   "note": "Unsigned arrow types, distinct images; with equal types, elements of size 1. Refuted: in place (uninitialised memory is read), size 2 with equal types (arrows of arrows), more points than bits (arrows lost)."
  },
  {
   "property": "C92",
   "status": "partial",
   "theorems": [
    "C92_arrowMin_partial",
    "C92_arrowMinStep_partial",
    "C92_slices_refuted",
    "C92_summit_refuted"
   ],
   "note": "Proved for elements in one slice. Refuted: three-dimensional elements (the slice of the neighbour is not read); arrowMinStep gives a pixel higher than all its neighbours arrows to all of them."
  },
  {
   "property": "C93",
   "status": "proved",
   "theorems": [
    "C93_propagate",
    "C93_fresh"
   ],
   "note": "Unsigned arrow types, at most 64 points."
  },
  {
   "property": "C94",
   "status": "partial",
   "theorems": [
    "C94_fastMinima_partial",
    "C94_fastMaxima_partial",
    "C94_inplace_refuted",
    "C94_bits_refuted"
   ],
   "note": "One thread, distinct images, unsigned types with a bit for each neighbour, elements of size 1 with at least one neighbour. Refuted: in place, and with more neighbours than bits. With several threads the propagations of the threads write the same image without synchronisation; that execution is not modelled."
  },
  {
   "property": "C95",
   "status": "proved",
   "theorems": [
    "C95_asfClose",
    "C95_asfOpen",
    "C95_asfClose_increasing",
    "C95_asfOpen_increasing",
    "C95_asfClose_absorbs",
    "C95_asfOpen_absorbs",
    "C95_asfClose_between",
    "C95_asfOpen_between",
    "C95_dual"
   ],
   "note": "Elements other than the rhombicuboctahedron."
  },
  {
   "property": "C96",
   "status": "partial",
   "theorems": [
    "C96_openings",
    "C96_differences_partial",
    "C96_sum_partial",
    "C96_cdf_partial",
    "C96_constant_refuted",
    "C96_stops",
    "C96_box_ends",
    "C96_endless",
    "C96_termination_refuted"
   ],
   "note": "Values proved for the calls that return, when the sizes stay below 2^32 and volumes are exact in a double; divisions exact. Termination proved for box elements (C96_box_ends) and as soon as an erosion reaches the minimum (C96_stops). Refuted: termination in general (endless with a horizontal segment, or a step of 0); the CDF of a constant image is not a number."
  },
  {
   "property": "C97",
   "status": "partial",
   "theorems": [
    "C97_basins",
    "C97_no_marker_refuted"
   ],
   "note": "Unsigned labels below the greatest value of their type, at least one marker. The call answers RES_ERR (-100) although it has worked. Refuted: without a marker (an image without regional minimum) an offset is used uninitialised."
  },
  {
   "property": "C98",
   "status": "partial",
   "theorems": [
    "C98_graph_partial",
    "C98_endless_refuted"
   ],
   "note": "The edges, their weights and the forest are proved. Missing: no statement on the minimality of the tree as an MST of a given edge weighting. Refuted: when a label is the greatest value of its type the loop never ends."
  },
  {
   "property": "C99",
   "status": "partial",
   "theorems": [
    "C99_dynamics_partial",
    "C99_minima",
    "C99_touching_refuted",
    "C99_parts_refuted"
   ],
   "note": "Markers that are the regional minima, element that connects the image, output type at least as large as the input type and unsigned. C99_minima is the call that computes the minima itself. Refuted: markers that touch, images in several parts."
  },
  {
   "property": "C100",
   "status": "proved",
   "theorems": [
    "C100_areas",
    "C100_volumes"
   ],
   "note": "Regional minima as markers; values wrapped to the output type, volumes modulo 2^32."
  },
  {
   "property": "C101",
   "status": "partial",
   "theorems": [
    "C101_ranks_partial",
    "C101_small_type_refuted"
   ],
   "note": "For any sort that satisfies key_sorts and labels that fit in the output type. Refuted: labels that do not fit."
  },
  {
   "property": "C102",
   "status": "partial",
   "theorems": [
    "C102_indices_partial",
    "C102_jaccard",
    "C102_ruzicka",
    "C102_fscore",
    "C102_overlap",
    "C102_accuracy_partial",
    "C102_accuracy_grey",
    "C102_accuracy_refuted",
    "C102_signed_refuted"
   ],
   "note": "Exact rationals in place of the rounded divisions; unsigned types. Refuted: accuracy when the two images have different true values; signed types, where a precision exceeds 1. Not stated: non-binary images for the binary indices, where the code returns 0."
  },
  {
   "property": "C103",
   "status": "partial",
   "theorems": [
    "C103_hamming_partial",
    "C103_metric",
    "C103_sizes_refuted"
   ],
   "note": "Refuted: the error for different sizes is converted to a size_t and is a huge distance."
  },
  {
   "property": "C104",
   "status": "partial",
   "theorems": [
    "C104_borders_partial",
    "C104_unique",
    "C104_plane",
    "C104_borders_plane",
    "C104_not_binary",
    "C104_objects_refuted",
    "C104_slices_refuted"
   ],
   "note": "Proved for the inner borders of the objects seen with the flat square element; they exist on plane images. Refuted: for the objects themselves (a full and a hollow square are at distance 0), and for full slices of volumes, which have no border."
  },
  {
   "property": "C105",
   "status": "partial",
   "theorems": [
    "C105_linear_partial",
    "C105_ends",
    "C105_increasing",
    "C105_full_range",
    "C105_constant_refuted",
    "C105_decreasing_refuted"
   ],
   "note": "Exact rationals in place of double. Missing: empty input ranges and decreasing output ranges of UINT32, which are refuted."
  },
  {
   "property": "C106",
   "status": "partial",
   "theorems": [
    "C106_range_partial",
    "C106_range_frequency_partial",
    "C106_enhance_partial",
    "C106_inverted_refuted",
    "C106_constant_refuted",
    "C106_sizes_refuted",
    "C106_signed_refuted"
   ],
   "note": "Exact rationals in place of double; unsigned types but UINT32, less than 50 percent. Refuted: inverted contrast above 50 percent, undefined result on constant images, sizes not reported, access outside the histogram for signed images."
  },
  {
   "property": "C107",
   "status": "partial",
   "theorems": [
    "C107_otsu_partial",
    "C107_value",
    "C107_two_values_refuted",
    "C107_zero_refuted",
    "C107_classes_refuted",
    "C107_endless_refuted",
    "C107_signed_refuted"
   ],
   "note": "One threshold, non-negative images, exact rationals in place of double. The optimum is proved; the separation of the classes is refuted: the pixels equal to the threshold go to the wrong side, so every image with two values becomes white. Refuted too: several classes (the variance is taken for a threshold), no threshold (no end), negative values. Missing: the optimum for several thresholds."
  },
  {
   "property": "C108",
   "status": "proved",
   "theorems": [
    "C108_mean",
    "C108_empty"
   ],
   "note": "Exact rationals in place of double; the square root itself is not modelled: the theorem is on its argument. Sums within 2^53."
  },
  {
   "property": "C109",
   "status": "partial",
   "theorems": [
    "C109_barycenter_partial",
    "C109_barycenter_inside",
    "C109_moments",
    "C109_centered_partial",
    "C109_inertia",
    "C109_massless_refuted",
    "C109_negative_refuted"
   ],
   "note": "Exact rationals in place of double, sums within 2^53. Proved for a nonzero (barycentre) or positive (centred moments) total mass. Refuted: NaN coordinates when the mass is null; all the centred moments are set to 0 when the mass is negative."
  },
  {
   "property": "C110",
   "status": "partial",
   "theorems": [
    "C110_covariance_partial",
    "C110_products",
    "C110_origin",
    "C110_step_refuted",
    "C110_overflow_refuted",
    "C110_normalised_refuted"
   ],
   "note": "Steps of 0 or 1 in each direction and products that fit. Refuted: with larger steps the last displacements are cut at the border and repeated; the products of UINT16 pixels overflow int and those of UINT32 pixels wrap; the normalised auto-covariance may exceed 1 and is NaN on a null image. Missing: the centered variants, which work on float images."
  },
  {
   "property": "C111",
   "status": "partial",
   "theorems": [
    "C111_product_partial",
    "C111_rejected",
    "C111_unique",
    "C111_associative",
    "C111_identity",
    "C111_transposed",
    "C111_overflow_refuted",
    "C111_inplace_refuted"
   ],
   "note": "All types; for UINT16, products up to 2^31 - 2^16 only. Refuted: overflow of int for larger UINT16 products; wrong result when the output is the first input."
  },
  {
   "property": "C112",
   "status": "partial",
   "theorems": [
    "C112_horizontal_partial",
    "C112_vertical_partial",
    "C112_convolve_partial",
    "C112_unique",
    "C112_range_partial",
    "C112_monotone_partial",
    "C112_asymmetric_refuted",
    "C112_unnormalised_refuted",
    "C112_narrow_refuted",
    "C112_inplace_refuted",
    "C112_empty"
   ],
   "note": "In exact arithmetic, for symmetric kernels of nonnegative weights and sum 1 on images at least as wide as the kernel less one. Refuted: kernels that are not symmetric (left border), kernels whose sum is not 1 (centre), narrow images (access past the end), vertConvolve in place. Missing: the rounding of double, which may lower a mean that is exactly an integer by one."
  },
  {
   "property": "C113",
   "status": "partial",
   "theorems": [
    "C113_means_partial",
    "C113_range_partial",
    "C113_monotone_partial"
   ],
   "note": "In exact arithmetic and for any kernel. Missing: the exponentials (radius 0 gives NaN weights) and the rounding of double, which may lower a mean that is exactly an integer by one."
  },
  {
   "property": "C114",
   "status": "partial",
   "theorems": [
    "C114_comparisons",
    "C114_order",
    "C114_ne_refuted",
    "C114_ne_partial",
    "C114_total_refuted",
    "C114_strict_refuted",
    "C114_number_refuted",
    "C114_number_partial",
    "C114_sup_refuted",
    "C114_sup_partial"
   ],
   "note": "Any number of integer channels. Refuted: != is not the negation of ==; the order is partial, so that the generic supremum is not one; < is stricter than <= without equality; != converts a number to a channel."
  },
  {
   "property": "C115",
   "status": "partial",
   "theorems": [
    "C115_walk_partial",
    "C115_plus_after_steps",
    "C115_walk_refuted",
    "C115_backwards_refuted",
    "C115_read_back",
    "C115_item_refuted",
    "C115_mean",
    "C115_mean_exact"
   ],
   "note": "Offsets below 2^32. Refuted: p + n after p++ counts the steps twice; negative displacements; the conversion of an item of a line to a number."
  },
  {
   "property": "C116",
   "status": "partial",
   "theorems": [
    "C116_split_partial",
    "C116_merge_partial",
    "C116_merge_rejects",
    "C116_split_merge_partial",
    "C116_merge_split_partial",
    "C116_volume_refuted",
    "C116_large_refuted",
    "C116_copyChannel",
    "C116_copyToChannel"
   ],
   "note": "Planes of less than 2^32 pixels. Refuted: larger planes; the slices other than the first of a colour volume are lost."
  },
  {
   "property": "C117",
   "status": "partial",
   "theorems": [
    "C117_sup",
    "C117_inf",
    "C117_equ_partial",
    "C117_complement_refuted",
    "C117_true",
    "C117_equal",
    "C117_equ_whole_partial",
    "C117_equ_whole_refuted"
   ],
   "note": "Refuted: equ and diff are not complementary on RGB images; the function bool equ holds for images that differ."
  },
  {
   "property": "C118",
   "status": "partial",
   "theorems": [
    "C118_closest_partial",
    "C118_values_partial",
    "C118_same_size_partial",
    "C118_pointwise_partial",
    "C118_volume_never",
    "C118_volume_refuted",
    "C118_column_refuted",
    "C118_inplace_refuted"
   ],
   "note": "2D images, outputs of at least 2 x 2 pixels, positions computed exactly. Refuted: volumes (endless recursion), outputs of one column or one line (position not a number), in place (the method is forgotten). Missing: the rounding of double at exact halves."
  },
  {
   "property": "C119",
   "status": "partial",
   "theorems": [
    "C119_bilinear_partial",
    "C119_trilinear_partial",
    "C119_range2_partial",
    "C119_range3_partial",
    "C119_same_size_partial",
    "C119_monotone_partial",
    "C119_column_refuted"
   ],
   "note": "Outputs of at least two pixels along each interpolated axis, weights computed exactly. Refuted: outputs of one column. Missing: the rounding of double, which may lower an exactly integral result by one."
  },
  {
   "property": "C120",
   "status": "partial",
   "theorems": [
    "C120_isBinary",
    "C120_auto_partial",
    "C120_auto_grey",
    "C120_unknown",
    "C120_auto_volume_refuted"
   ],
   "note": "isBinary in full. The method auto on 2D images; refuted: binary volumes."
  },
  {
   "property": "C121",
   "status": "proved",
   "theorems": [
    "C121_asBuildOpen",
    "C121_asBuildClose",
    "C121_asBuildOpen_increasing",
    "C121_asBuildClose_increasing",
    "C121_asBuildOpen_absorbs",
    "C121_asBuildClose_absorbs",
    "C121_asBuildOpen_between",
    "C121_asBuildClose_between",
    "C121_dual",
    "C121_zones"
   ],
   "note": "Duality is stated for symmetric elements. A size of 2^32 - 1, for which the loop has no end, is excluded."
  },
  {
   "property": "C122",
   "status": "partial",
   "theorems": [
    "C122_opening_partial",
    "C122_slices",
    "C122_volumes_refuted",
    "C122_agree_partial",
    "C122_sort",
    "C122_closing_refuted",
    "C122_sizes_refuted"
   ],
   "note": "Proved for images of one slice and sizes from 1. False on volumes (the slices after the first come out as 0: C122_volumes_refuted, with the exact result in C122_slices), for sizes below 1 (C122_sizes_refuted), and for the closing, which overflows on every image (C122_closing_refuted)."
  },
  {
   "property": "C123",
   "status": "partial",
   "theorems": [
    "C123_values_partial",
    "C123_order_partial",
    "C123_order_refuted",
    "C123_drawn",
    "C123_slice_refuted",
    "C123_clip_refuted"
   ],
   "note": "Proved for coordinates below 2^28 and lines that are oblique, inside the image, or wholly beside it. False otherwise: vertical lines upwards and horizontal ones to the left come backwards (C123_order_refuted, for every image), lines that leave the image go on in the next row or outside the memory (C123_clip_refuted), and the slice is not checked (C123_slice_refuted, for every image)."
  },
  {
   "property": "C124",
   "status": "partial",
   "theorems": [
    "C124_maxima_partial",
    "C124_maxima_refuted"
   ],
   "note": "Proved when the values on the components are below the maximum of the type of the labels. A value equal to this maximum can be written but makes the call return 0 without writing (C124_maxima_refuted)."
  },
  {
   "property": "C125",
   "status": "partial",
   "theorems": [
    "C125_mean_partial",
    "C125_mean_refuted"
   ],
   "note": "Proved when the means are below the maximum of the type of the labels. Means from there on that fit the output type make the call return 0 without writing (C125_mean_refuted). The mean is an exact quotient in the model; the rounding of the double cannot change its integer part (argued in Model/LabelMeasures.v, not proved)."
  },
  {
   "property": "C126",
   "status": "partial",
   "theorems": [
    "C126_weighted_partial",
    "C126_labels_partial",
    "C126_inside",
    "C126_zero_refuted"
   ],
   "note": "Proved for images whose sums of value times coordinate stay within 2^53, and, from the labels alone, for the nonzero labels. The label 0, when asked for with onlyNonZero = false, gets 0 / 0 at every coordinate because the labels are the weights (C126_zero_refuted, for every image with a null pixel). The quotients are exact in the model."
  },
  {
   "property": "C127",
   "status": "proved",
   "theorems": [
    "C127_boxes",
    "C127_labels"
   ],
   "note": "Both forms of blobsBoundBox, with the label 0 or without it."
  },
  {
   "property": "C128",
   "status": "partial",
   "theorems": [
    "C128_under",
    "C128_moments",
    "C128_centred_partial",
    "C128_labels",
    "C128_negative_refuted"
   ],
   "note": "Proved for images whose sums of value times products of coordinates stay within 2^53. The centred moments are proved for labels whose values have a positive sum; with a negative sum they are all 0 (C128_negative_refuted). Quotients are exact in the model."
  },
  {
   "property": "C129",
   "status": "partial",
   "theorems": [
    "C129_min_max",
    "C129_values",
    "C129_mode_partial",
    "C129_mode_refuted"
   ],
   "note": "blobsMinVal, blobsMaxVal and blobsValueList are proved. blobsModeVal is proved to give a most frequent positive value; null and negative pixels are not counted, so that the value may be neither the most frequent nor even present (C129_mode_refuted). The int counters are unbounded in the model."
  },
  {
   "property": "C130",
   "status": "partial",
   "theorems": [
    "C130_median_partial",
    "C130_median_refuted"
   ],
   "note": "Proved for the positive values on the label, below 2^31. Null and negative pixels are not counted, and UINT32 values from 2^31 on are sorted before the others (C130_median_refuted)."
  }
 ]
}