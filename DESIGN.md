# Formal model of SMIL: design

Source under study: `/repo` (C++ templates).  The code is read as text; it is never run.
The model is written in Coq 8.16.1, in `/verif/rocq/theories`:

* `Model/` – executable definitions, each citing the file and lines it models; no proofs.
* `Spec/` – small specifications that do not use the model's helpers.
* `Proofs/` – lemmas.
* `Props/` – the property theorems only, each closed by `exact` and followed by
  `Print Assumptions`; beside them `Example`s that show the hypotheses are met by
  concrete non-trivial cases.

## Modelling conventions

* Pixel types: `UINT8, UINT16, UINT32, INT8, INT16`, values in `Z`, C++ conversion to the
  type is `wrap` (modulo 2^n, centred for signed types).  Integer promotion is unbounded `Z`
  arithmetic followed by `wrap`, which is what C++ does for 8/16 bit types and unsigned 32 bit.
* An image is width, height, depth and a flat list of pixels in raster order.
* A loop over lines run by OpenMP is modelled by an arbitrary permutation of the line indices
  over a shared memory; schedule independence is a theorem.
* Out-of-bounds accesses, null accesses, double frees and endless loops are distinct outcomes
  (`option`/error constructors), never silently given a value.
* Loops with data-dependent length use fuel with an explicit out-of-fuel outcome, and the theorems
  show the fuel supplied is sufficient.
* When the faithful model violates a property, a theorem `..._refuted` exhibits the witness and a
  theorem `..._partial` says what does hold.

## Plan per property

| id | modelled | proof method |
|----|----------|--------------|
| C01 | coordinate/offset functions, setSize, restruct | arithmetic (div/mod), table layout by induction |
| C02 | isOffsetInImage | refutation at pixelCount, characterisation of accepted offsets |
| C03 | ImageBox setReference/shift overloads | arithmetic; refutation of two overloads |
| C04 | line executor over shared memory with arbitrary line order | induction over the schedule |
| C05 | in-place binary overload | refutation; exact effect |
| C06 | addLine, subLine, NoSat, all types | case analysis on wrap; refutation for signed types |
| C07 | mulLine, divLine, absDiffLine | arithmetic on wrap |
| C08 | mulNoSat | refutation; characterisation |
| C09 | invLine, supLine, infLine | arithmetic |
| C10 | comparison lines, testLine, _compare_base | case analysis |
| C11 | threshLine and threshold | case analysis |
| C12 | histogram loops | induction over pixels |
| C13 | copy with ranges, crop, addBorder | index arithmetic on flat lists |
| C14 | flips, translate, rotateX90, matTrans | index bijections; refutation for rotation |
| C15 | processImage run splitting and measure functions | induction over pixels |
| C16 | value list, mode, median, bounding box | induction over pixels, sorted maps |
| C17 | computeBlobs, drawBlobs | loop invariant of the scan; refutation for the last pixel |
| C18 | applyLookup both variants | case analysis; refutation at max |
| C19 | StrElt operations | list/set reasoning |
| C20 | _exec_single_generic | fold over points, shiftLine lemma |
| C21 | fast paths | each equals the generic pixel formula |
| C22 | vertical segment, height 1 | witness |
| C23 | dilate/erode | from the pixel formula of C20 |
| C24 | open, close, topHat | from the adjunction |
| C25 | MorphImageFunction::_exec | induction on size |
| C26 | HierarchicalQueue | refinement to a list of (priority, arrival) |
| C27 | FIFO_Queue | refinement to a list under the capacity bound |
| C28 | labelFunctGeneric | flood invariant, connectivity |
| C29 | labels wrap | witness family |
| C30 | build, dualBuild | Dijkstra-style invariant over the queue |
| C31 | geoBuild | monotone iteration, measure |
| C32 | fillHoles etc. | corollaries of C30 |
| C33 | BaseFlooding | invariant over the queue |
| C34 | WatershedFlooding | invariant over the queue |
| C35 | hit-or-miss family | order reasoning and volume measure |
| C36 | Graph | invariant over operation sequences |
| C37 | labelizeNodes | depth-first search correctness |
| C38 | graphMST | cut property / exchange argument |
| C39 | BufferPool | ownership invariant; refutation for re-initialisation |
| C40 | Signal/BaseSlot | invariant over operation sequences |
| C41 | BitArray get/set | div/mod and testbit |
| C42 | distCross | min-plus sweeps |
| C43 | MaxTree2 / areaOpen | invariant of the flooding |
| C44 | drawing functions | arithmetic; refutation where unclipped |
| C45 | measures by label | induction over pixels |
| C46 | line functors, alignment split | interval arithmetic; refutation of the unguarded split |
| C47 | `_exec_single` dispatch | corollary of C20/C25; refutation by noCenter |
| C48 | build, dualBuild with output = mask | refutation; invariant where it holds |
| C49 | geoDil, geoEro | induction on the size |
| C50 | label in place | flood invariant |
| C51 | labelWithArea, labelWithVolume | from C28 |
| C52 | areaThreshold | from C28 and the lookup |
| C53 | labelled extrema | from C30 and C28 |
| C54 | watershed, basins of minima | from C33, C34 and C53 |
| C55 | hit-or-miss in place | refutation; schedules |
| C56 | CompStrElt rotation | group reasoning on points |
| C57 | skeleton | induction on the erosions |
| C58 | sort of the edges | sorted permutations |
| C59 | addEdge on an existing edge | case analysis; refutation |
| C60 | MorphImageFunctionBase | covering of the image by the traversal |
| C61 | mean, median, rank | fold over neighbours |
| C62 | mosaicToGraph | invariant over the scan |
| C63 | graph thresholds to mosaics | from C37 and C62 |
| C64 | distCross3d | min-plus sweeps |
| C65 | distSquare | min-plus sweeps |
| C66 | distEuclidean | lower envelope of parabolas |
| C67 | generic distance | breadth-first invariant over the queue |
| C68 | bit images | div/mod and testbit |
| C69 | line functors on bits | testbit |
| C70 | shift of a bit line | testbit, word carries |
| C71 | SSE functors | lanes against the generic functor |
| C72 | bresenhamPoints | invariant of the error term |
| C73 | drawCircle | invariant of the decision variable |
| C74 | copyPattern | index arithmetic |
| C75 | heightOpen, widthOpen | invariant of the flooding (C43) |
| C76 | attribute closings | duality by inversion |
| C77 | AreaOpening by union-find | invariant of the parent array over prefixes of the sort |
| C78 | PGM reading and writing | streams split at the position (`at_`), induction on comments |
| C79 | Netpbm reading | the same; counterexamples by computation and by induction on the fuel |
| C80 | BMP reading and writing | positions of bytes in concatenations of lines |
| C81 | RAW reading and writing | induction on the pixels |
| C82 | VTK reading and writing | the header line by line, then updates of segments |
| C83 | stacks of files | invariant of the slices already copied |
| C84 | line dilation, erosion, opening and closing by van Herk's method on digital lines | block maxima; induction along Bresenham lines; lines partition the image |
| C85 | the operators by squares | two line operators against the box theorem of C25 |
| C86 | the opening by length with a stack of levels | invariant: the signal with the short peaks cut, one node per plateau |
| C87 | the loop of lblSkiz | invariant by induction on the turns: after k turns both images hold the labels that arrive in at most k steps; termination by the volume |
| C88 | labels, complement, zones, opening | composition of C28, C87 and C24; a counterexample computed |
| C89 | basins, gradient, threshold, copy | the erosion by an element without points is its output; a counterexample computed |
| C90 | waterfall, levels | composition of C30 and C54; induction on the levels |
| C91 | arrow, all operations | one line at a time: bit k of the accumulated OR, by induction on the points; the lines in any order; counterexamples computed |
| C92 | arrowMin, arrowMinStep | invariant by induction on the points: lowest value so far, and the bits of the points that have it; additions carry nothing |
| C93 | arrowPropagate | invariant of the queue (written pixels are reached; successors of treated pixels are written); measure: pixels without the value plus length of the queue |
| C94 | fastExtrema on one thread | invariant of the scan: pixels with 1 are closed under equal neighbours; C91 and C93 |
| C95 | asfClose, asfOpen | abstract sieve lemma (Matheron) on families of openings and closings in any order, instantiated twice; absorption of openings from the adjunction |
| C96 | measGranulometry | induction on the turns: the work image is the erosion of size k step; telescoping sums; erosions of boxes (C25) for termination, a fixed point for the lack of it |
| C97 | watershedExtinction | simulation of the flooding of C33, with the data of the basins and the table of equivalences on the side |
| C98 | watershedExtinctionGraph | invariant of the merges: eaten labels, a table of representatives, one edge for each eaten label |
| C99 | the criterion "d", with and without markers | invariant of the flooding: the zone of a label between two levels, its lowest value; regional minima are not eaten before they are inserted |
| C100 | the criteria "a" and "v" | the same invariant with the pixels of each zone, counted and summed modulo 2^32 |
| C101 | floodWithExtRank | the permutation and the order of the sort; the ranks as inverse of a permutation |
| C102 | the indices of DImageCompare.hpp | counting pairs of values; quotients of rationals |
| C103 | distanceHamming | counting pairs of values |
| C104 | distanceHausdorff | the exact gradient of C23; invariants of the two nested loops; least and greatest elements through an increasing function |
| C105 | stretchHist | rational arithmetic of the rounding; pointwise on the pixels |
| C106 | histogramRange, enhanceContrast | invariant of the scanning loops; counting of pixels; C105 |
| C107 | otsuThresholdValues, otsuThreshold, threshold without values | invariant of the incremental means and frequencies and of the growing map; least maximizer; strict positivity of the variance |
| C108 | meanVal | exact sums; identity of the variance; sum of squares null iff constant |
| C109 | measBarycenter, measMoments, centerMoments | sums over the positions from the scan with coordinates; expansion of the centred products by induction; sum of squares for the quadratic form |
| C110 | genericCovariance, measCovariance, measAutoCovariance (not centered) | nested loops flattened to the positions that stay inside; limits of the steps by cases |
| C111 | matMultiply (and in place, one thread) | transposition of C14; invariant of the wrapped accumulator; exchange of finite sums modulo the cardinal |
| C112 | horizConvolve (in place or not), vertConvolve, convolve, the resizing of the output | each tap of the three loops equals one windowed mean (sums over intervals, reversal by symmetry); invariant over the lines done; scatter over columns |
| C113 | gaussianFilter, three passes | the skipping fold equals a filtered sum; scatter over voxels; bounds and monotonicity of weighted means composed |
| C114 | the comparisons of MultichannelType, the generic supremum of colours | induction over the channels against Forall2 |
| C115 | MultichannelArray (copy, +, ++, -, items), MultichannelArrayItem, the conversions to numbers | invariant over the sequences of operations; induction over the channels of the memory |
| C116 | splitChannels, mergeChannels, copyChannel, copyToChannel | scatter for a line, fold invariant over the channels, extensionality of images |
| C117 | the RGB lines sup, inf, equ; vol and operator bool of RGB images; bool equ | one lemma for the three line functions; extremal sums; reads of colours as maps |
| C118 | resize by the closest method, its mutual recursion (fuel), in place | one axis by Euclidean division, scatter over voxels, extensionality; induction over the fuel for the recursion |
| C119 | resizeBilinear, resizeTrilinear | one axis against a linear interpolation formula, products of axes by ring, monotonicity lifted axis by axis |
| C120 | isBinary, the choice of the method | invariant over the keys seen, counting by NoDup |
| C121 | asBuildOpen, asBuildClose over buildOpen and buildClose | the calls determine an image, hence two families of openings and closings; the algebra of C95 applied to them; flat zones by extending a flow by one step |
| C122 | PixelDownSort, Link1, GreyAreaOpening, ImAreaOpening_UnionFind, ImAreaClosing_UnionFind | counting sort by ranks; the forest invariant of C77 for links without the test of equal levels; path compression as squeezing of a ranked forest; uniqueness of the opening |
| C123 | profile over bresenhamPoints | the points of C44 and C72 and their number; reads of the points as a Forall2 |
| C124 | labelWithMaxima, measMaxValFunc on blobs, the choice of the applyLookup | zones of a label as components of C28, the maximum of a zone, both lookups as one map |
| C125 | labelWithMean, measMeanValFunc on blobs (without the deviation), applyLookup with a map of means | sums over zones as sums over components; order of rationals with positive denominators |
| C126 | blobsBarycenter (both forms), processImage of MeasureFunctionWithPos on a blob, measBarycenterFunc | runs within a line, so that the coordinates of the first pixel give those of all; sums over runs as sums over the pixels of a label |
| C127 | blobsBoundBox (both forms), measBoundBoxFunc on a blob | runs within a line as in C126; the invariant of C16 over the pixels of a label |
| C128 | blobsMoments (both forms), measMomentsFunc and centerMoments on blobs | sums over a label as sums over the masked image, then C109 |
| C129 | blobsMinVal, blobsMaxVal, blobsValueList, blobsModeVal | the folds of C16 over the zone of a label |
| C130 | blobsMedianVal, measMedianValFunc on a blob | the zone of a label as an image of one line, then C16 |

## Trusted base

1. **Coq's kernel** (8.16.1; `vm_compute` is used, hence its bytecode machine; no `native_compute`).
2. **Axioms.**  None of our own.  `Print Assumptions` stands below every property theorem in `Props/` and prints
   `Closed under the global context` for each of them: no theorem depends on an axiom, not even one of the standard library.
   The list is at the end of this file.  Checkers that list the axioms of all loaded modules also report
   `Coq.ssr.ssrunder.Under_rel.{Under_rel, Under_rel_from_rel, Under_relE, Over_rel, over_rel, over_rel_done, under_rel_done}`:
   they are the sealed constants of a module of Coq's standard library (`Coq.ssr`), loaded with its `under` tactic; no theorem
   here depends on them.
3. **The reading of `/repo`** recorded in the comments of `Model/`: that the definitions say what the cited lines do, on 64-bit
   Linux (`size_t`, `off_t` of 64 bits, `int` of 32 bits), with the containers of the C++ standard library behaving as lists,
   sorted association lists and sets.
4. **The specifications** in `Spec/` and the statements in `Props/`.

## What is modelled

| model file | code |
|---|---|
| `Ints`, `Geometry`, `Image` | pixel types and conversions, sizes, offsets, coordinates, line tables, `ImageBox` (Core) |
| `Exec`, `Pixel`, `Loops` | the pixelwise executors of `DBaseImageOperations.hxx` with arbitrary interleavings of threads; arithmetic, comparison, threshold, stretch, mask and lookup functions (`DLineArith.hpp`, `DImageArith.hpp`, `DImageHistogram.hpp`) |
| `Transform` | copy, crop, border, flips, rotation, translation, transposition (`DImageTransform.hpp`, `DImageMatrix.hpp`) |
| `Measures`, `ZMap` | histograms, measures, blobs (`DImageHistogram.hpp`, `DMeasures.hpp`, `DBaseMeasureOperations.hpp`, `DBlob.hpp`) |
| `StrElt`, `Morph` | structuring elements; dilation, erosion with all their fast paths, filters, residues |
| `HitOrMiss` | hit-or-miss, thin, thick, full variants, composite elements, skeleton |
| `Queues`, `Neighbors` | hierarchical and FIFO queues; the neighbour scan of the flooding algorithms |
| `Geodesic` | `build`, `dualBuild`, `geoDil`, `geoEro`, `geoBuild`, `fillHoles`, extrema, h-extrema |
| `Label`, `Watershed` | label, area and volume labels, area threshold; `basins`, `watershed` |
| `Scan` | `MorphImageFunctionBase`, mean, median, rank, neighbors, mosaic to graph and back |
| `Graph` | `DGraph.hpp`: nodes, edges, `labelizeNodes`, `graphMST` |
| `Distance` | city-block, 3D, chessboard, Euclidean and generic distances |
| `MaxTree`, `UnionFind` | attribute openings and closings by max-tree; area openings by union-find |
| `Draw` | lines, rectangles, boxes, discs, balls, circles, tilings |
| `Bits`, `LineSplit` | bit arrays, bit images and their line functors; alignment split of line functors, SSE functors |
| `BufferPool`, `Signals` | buffer pools; signals and slots |
| `Files` | `IO/src/DImageIO_PBM.cpp`, `DImageIO_BMP.cpp`, `DImageIO_VTK.cpp`, `IO/include/private/DImageIO_{PBM,BMP,RAW,VTK}.hpp`, stacks of `DImageIO.hxx`; files are lists of bytes, streams have a position and the flags eof and fail |
| `FastLine` | `Advanced/include/private/FastLine/FastLineSoille.hpp` and `FastLineMorard.hpp` but the operators by discs and the computation of (dx, dy) and of the length from an angle, which is in floating point (in `ImFastLineOpen` the angle in radians is moreover truncated to an integer before its sine and cosine are taken for the length) |
| `Zones` | `Morpho/include/private/DMorphoWatershed.hpp:444-581`: lblSkiz, inflBasins, inflZones and the two waterfall functions |
| `Arrow` | `Morpho/include/private/DMorphoArrow.hpp`, `DMorphoExtrema.hpp:249-377`: arrows, arrowMin, arrowMinStep, arrowPropagate; fastExtrema run by one thread; not the case of the rhombicuboctahedron in `arrow` |
| `Granulometry` | `Morpho/include/private/DMorphoMeasures.hpp`: measGranulometry; the divisions of the CDF are exact (rationals), volumes beyond 2^53 are not modelled |
| `Extinction` | `Morpho/include/private/DMorphoWatershedExtinction.hpp` but the variants of watershedExtinctionGraph without markers or with ranks (627-694); the choice of the criterion by a string is an enumeration; std::sort is any function on lists |
| `Compare` | `Base/include/private/DImageCompare.hpp` but the class ContingencyTable; exact rationals for the quotients; the square root is any increasing function |
| `Contrast` | `Base/include/private/DImageHistogram.hpp`: stretchHist, histogramRange, enhanceContrast, the Otsu functions; double is replaced by exact rationals; the conversion of the variance to a pixel is any function |
| `Moments` | `Base/include/private/DMeasures.hpp`: meanVal, measBarycenter, measMoments, centerMoments, the covariances without centring; double is replaced by exact integers up to 2^53 and exact rationals; the square root is not modelled |
| `Matrix` | `Base/include/private/DImageMatrix.hpp`: matMultiply; the order of the iterations is any list with the same elements |
| `Convolution` | `Base/include/private/DImageConvolution.hpp`: horizConvolve, vertConvolve, convolve, gaussianFilter for a given kernel; double is replaced by exact rationals, the exponentials of the Gaussian kernel are not computed |
| `Color` | `Core/include/private/DMultichannelTypes.hpp`: comparisons, conversions, arrays and items; `Base/include/private/DImageArith.hpp`: copyChannel, copyToChannel, splitChannels, mergeChannels, bool equ; `NSTypes/RGB`: supLine, infLine, equLine, vol, operator bool; the arithmetic of colours is not modelled |
| `Resize` | `Base/include/private/DImageTransform.hpp`: class ImageResizeFunc without scale; `Base/include/private/DMeasures.hpp`: isBinary; the positions and weights in double are exact here |
| `AsBuild` | `Morpho/include/private/DMorphoGeodesic.hpp`: asBuildOpen, asBuildClose |
| `AreaUnionFind` | `Addons/PathOpening/include/FastAreaOpening/AreaOpeningUnionFind.hpp` (without PixelUpSort, LinkX, Link2), ImAreaClosing_UnionFind of `DFastAreaOpening.h` |
| `Profile` | profile of `Base/include/private/DMeasures.hpp` |
| `LabelMeasures` | labelWithMaxima, labelWithMean of `Morpho/include/private/DMorphoLabel.hpp`, with measMaxValFunc and the mean of measMeanValFunc on blobs |
| `BlobPositions` | blobsBarycenter of `Base/include/private/DBlobMeasures.hpp`, with positions on blobs of `DBaseMeasureOperations.hpp` |
| `BlobBoxes` | blobsBoundBox of `Base/include/private/DBlobMeasures.hpp` |
| `BlobMoments` | blobsMoments of `Base/include/private/DBlobMeasures.hpp` |
| `BlobValues` | blobsMinVal, blobsValueList, blobsModeVal of `Base/include/private/DBlobMeasures.hpp` |
| `BlobMedian` | blobsMedianVal of `Base/include/private/DBlobMeasures.hpp` |

Each file says in its heading and comments what it simplifies.

## What is not modelled

* Floating point: `float`/`double` images, `equalizeHist`, the weights of the Gaussian kernel, scale factors, inertia matrices, entropy, and
  signed 32-bit images (overflow is undefined).
* The arithmetic operators of colours, the allocation, files and drawing of RGB images, the `Color` add-on.
* PNG, JPEG and TIFF files, ASCII VTK files, colour PPM files, downloads, the choice of a handler by the extension (`IO/`), the viewers (`Gui/`), the wrappers for Python, Java, Ruby, Octave and PHP.
* Memory allocation failures, messages on the standard output, timers.
* The `Advanced` modules other than the area opening by union-find and the fast line operators, and the `Addons` other than the area opening by union-find of `PathOpening`.
* `DMorphoWatershedExtinction.hpp:627-694`, the ultimate openings of `DMorphoMaxTree.hpp`, `drawText`.
* Weak memory: threads interleave loads and stores of whole pixels.

## Print Assumptions

All of the following print `Closed under the global context`:

* C01: `C01_offset_of_coords`, `C01_coords_of_offset`, `C01_line_tables`, `C01_getPixel`, `C01_setPixel`.
* C02: `C02_isOffsetInImage_partial`, `C02_isOffsetInImage_refuted`, `C02_isCoordsInImage`.
* C03: `C03_box_partial`, `C03_setReference_point_partial`, `C03_shift_numbers_partial`, `C03_box_refuted`.
* C04: `C04_pixelwise`, `C04_schedule_independent`.
* C05: `C05_inplace_refuted`, `C05_inplace_partial`.
* C06: `C06_add`, `C06_sub`, `C06_noSat`, `C06_signed_partial`, `C06_signed_refuted`.
* C07: `C07_mul`, `C07_div`, `C07_absDiff`.
* C08: `C08_mulNoSat_refuted`, `C08_mulNoSat_partial`.
* C09: `C09_inv`, `C09_involution`, `C09_inv_order`.
* C10: `C10_comparisons`, `C10_test`, `C10_mask`, `C10_compare`, `C10_compare_unknown`, `C10_equ_bool`.
* C11: `C11_threshold`, `C11_threshold_short`.
* C12: `C12_histogram_array`, `C12_histogram_array_mask`, `C12_histogram_map`, `C12_histogramMap`, `C12_fullRange_refuted`, `C12_uint32_refuted`, `C12_histogramMap_mask_refuted`.
* C15: `C15_area`, `C15_volume`, `C15_minVal`, `C15_maxVal`, `C15_rangeVal`, `C15_minVal_point_partial`, `C15_maxVal_point_partial`, `C15_point_refuted`.
* C16: `C16_valueList`, `C16_nonZeroOffsets`, `C16_boundBox`, `C16_modeVal_partial`, `C16_modeVal_refuted`, `C16_medianVal_partial`, `C16_medianVal_refuted`.
* C17: `C17_computeBlobs`, `C17_drawBlobs_partial`, `C17_drawBlobs_lut_partial`, `C17_drawBlobs_refuted`.
* C18: `C18_applyLookup`, `C18_applyLookup_small_partial`, `C18_applyLookup_small_refuted`.
* C45: `C45_blobs_area`, `C45_blobs_volume`, `C45_blobs_range`.
* C13: `C13_copy`, `C13_copy_reject`, `C13_crop`, `C13_crop_reject`, `C13_addBorder`, `C13_border_then_crop`.
* C14: `C14_flip`, `C14_flip_bad_size`, `C14_flip_involution`, `C14_rotate_partial`, `C14_rotate_compose_partial`, `C14_four_turns`, `C14_rotate90_refuted`, `C14_rotate_negative_refuted`, `C14_translate_partial`, `C14_translate_refuted`, `C14_translate_inplace_refuted`, `C14_transpose`, `C14_transpose_short`, `C14_transpose_unknown`.
* C19: `C19_addPoint`, `C19_transpose_square`, `C19_transpose_converse`, `C19_transpose_involution`, `C19_noCenter`, `C19_homothety_partial`, `C19_homothety_origin`, `C19_homothety_NoDup`, `C19_homothety_refuted`, `C19_homothety_zero_refuted`.
* C20: `C20_dilate`, `C20_erode`, `C20_unique`, `C20_reject`, `C20_rhombicuboctahedron_refuted`.
* C21: `C21_fast_is_generic`, `C21_hex_3d_refuted`.
* C22: `C22_height_1_refuted`, `C22_height_2_partial`.
* C23: `C23_adjunction`, `C23_dilate_increasing`, `C23_erode_increasing`, `C23_dilate_sup`, `C23_erode_inf`, `C23_duality`.
* C24: `C24_open_filter`, `C24_close_filter`, `C24_open_increasing`, `C24_close_increasing`, `C24_open_is_erode_dilate`, `C24_close_is_dilate_erode`, `C24_open_close_dual`, `C24_topHat_partial`, `C24_dualTopHat_partial`, `C24_gradient_partial`, `C24_topHat_signed_refuted`, `C24_hex_3d_refuted`.
* C25: `C25_dilate_passes`, `C25_erode_passes`, `C25_size_0`, `C25_sizes_add`, `C25_dilate_box`, `C25_erode_box`, `C25_cross_ball`, `C25_cross3d_ball`, `C25_dilate_paths`.
* C47: `C47_points_partial`, `C47_noCenter_refuted`.
* C26: `C26_hierarchical_queue_partial`, `C26_signed_refuted`, `C26_uint32_refuted`.
* C27: `C27_fifo_queue`, `C27_overflow_refuted`.
* C30: `C30_build`, `C30_dualBuild`, `C30_unique`, `C30_levels`, `C30_dual_levels`, `C30_between`, `C30_idempotent`, `C30_increasing`, `C30_duality`, `C30_reject`, `C30_signed_refuted`.
* C31: `C31_geoBuild_partial`, `C31_geoDualBuild_partial`, `C31_size_refuted`, `C31_asymmetric_refuted`.
* C32: `C32_fillHoles`, `C32_fillHoles_raised`, `C32_levelPics`, `C32_buildOpen`, `C32_buildClose`, `C32_buildOpen_below`, `C32_buildOpen_increasing`, `C32_buildOpen_idempotent`, `C32_buildClose_above`, `C32_buildClose_increasing`, `C32_buildClose_idempotent`, `C32_hBuild`, `C32_hDualBuild`, `C32_minima`, `C32_maxima`, `C32_hMinima`, `C32_hMaxima`.
* C48: `C48_in_place_forgets_refuted`, `C48_hBuild_refuted`, `C48_buildOpen_refuted`, `C48_fillHoles_refuted`.
* C49: `C49_geoDilate`, `C49_geoErode`.
* C28: `C28_label`, `C28_lambdaLabel`, `C28_elements`, `C28_asymmetric_refuted`.
* C29: `C29_distinct_partial`, `C29_repeated`, `C29_no_warning_refuted`.
* C50: `C50_inplace_refuted`, `C50_inplace_partial`.
* C51: `C51_labelWithArea`, `C51_labelWithArea_reject`, `C51_labelWithVolume`, `C51_component`.
* C52: `C52_areaThreshold_binary_partial`, `C52_areaThreshold_labels_partial`, `C52_race_refuted`.
* C53: `C53_minimaLabeled`, `C53_maximaLabeled`.
* C33: `C33_basins`, `C33_marker_labels`, `C33_reject`.
* C34: `C34_watershed`, `C34_separated`, `C34_elements`.
* C54: `C54_watershed`, `C54_basins_partial`, `C54_basins_mixed`, `C54_basins_refuted`.
* C35: `C35_hitOrMiss`, `C35_hitOrMiss_binary`, `C35_hitOrMiss_list`, `C35_thin`, `C35_thick`, `C35_lists`, `C35_fullThin`, `C35_fullThick`, `C35_skiz`, `C35_sizes`.
* C55: `C55_in_place_refuted`.
* C56: `C56_rotations_partial`, `C56_turn`, `C56_rotations_refuted`.
* C57: `C57_skeleton_partial`, `C57_skeleton_refuted`.
* C36: `C36_operation_partial`, `C36_history_partial`, `C36_bookkeeping_refuted`.
* C37: `C37_labelizeNodes_partial`, `C37_labelizeNodes_refuted`.
* C38: `C38_graphMST`.
* C58: `C58_sortEdges_partial`, `C58_sortEdges_refuted`.
* C59: `C59_addEdge_existing_partial`, `C59_addEdge_minimum_refuted`.
* C60: `C60_scan_partial`, `C60_raster`, `C60_neighbours`, `C60_narrow_refuted`, `C60_wrap_refuted`, `C60_left_refuted`, `C60_hexagonal_refuted`.
* C61: `C61_mean_partial`, `C61_rank_partial`, `C61_median_partial`, `C61_neighbors_partial`, `C61_inplace_refuted`, `C61_rank_refuted`.
* C62: `C62_mosaicToGraph`, `C62_plain_partial`, `C62_plain_refuted`.
* C63: `C63_graphToMosaic_partial`, `C63_threshold_partial`, `C63_single_refuted`.
* C42: `C42_distCross`, `C42_unique`, `C42_size`.
* C64: `C64_distCross3d_partial`, `C64_UINT32_refuted`.
* C65: `C65_distSquare`.
* C66: `C66_distanceEuclidean_partial`, `C66_depth_refuted`, `C66_saturation_refuted`, `C66_slice_refuted`, `C66_overflow_refuted`.
* C67: `C67_distGeneric_partial`, `C67_distance_partial`, `C67_wrap_refuted`, `C67_inplace_refuted`, `C67_size_refuted`.
* C39: `C39_pool_partial`, `C39_initialize_refuted`, `C39_twice_refuted`.
* C40: `C40_signals_partial`, `C40_mutual`, `C40_disconnectAll_refuted`, `C40_dangling_refuted`.
* C41: `C41_bits_partial`, `C41_lvalue_partial`, `C41_apart`, `C41_size_refuted`, `C41_const_refuted`, `C41_constructor_partial`, `C41_constructor_refuted`.
* C46: `C46_value`, `C46_binary`, `C46_binary_value`, `C46_tertiary`, `C46_unary_partial`, `C46_unary_refuted`, `C46_bits_partial`, `C46_bits_refuted`.
* C68: `C68_bit_image_partial`.
* C69: `C69_binary`, `C69_inv`, `C69_test`, `C69_fill`, `C69_copy_partial`, `C69_copy_refuted`, `C69_empty_refuted`.
* C70: `C70_shift_partial`, `C70_word_refuted`, `C70_border_refuted`, `C70_padding_refuted`.
* C71: `C71_sse_partial`, `C71_sub_refuted`.
* C44: `C44_line_partial`, `C44_line_refuted`, `C44_rectangle_partial`, `C44_outline_partial`, `C44_rectangle_refuted`, `C44_rectangle_spill_refuted`, `C44_box_partial`, `C44_box_deep_partial`, `C44_box_refuted`, `C44_disc_partial`, `C44_sphere_partial`, `C44_disc_refuted`.
* C72: `C72_points`, `C72_order_partial`, `C72_order_refuted`.
* C73: `C73_circle_partial`, `C73_circle_refuted`.
* C74: `C74_pattern_partial`, `C74_pattern_refuted`.
* C43: `C43_areaOpen_partial`, `C43_unique`, `C43_antiextensive`, `C43_increasing`, `C43_idempotent`, `C43_sizes`, `C43_size_one`, `C43_connecting`, `C43_connecting_refuted`, `C43_signed_refuted`.
* C75: `C75_heightOpen_partial`, `C75_widthOpen_partial`, `C75_opening`.
* C76: `C76_close_partial`, `C76_unique`, `C76_closing`.
* C77: `C77_areaOpening_partial`, `C77_areaClosing_partial`, `C77_unique`, `C77_agree_partial`, `C77_in_place_refuted`, `C77_hexagonal_refuted`, `C77_size_zero_refuted`.
* C78: `C78_roundtrip_partial`, `C78_format`, `C78_read_partial`, `C78_volume_refuted`, `C78_name_refuted`.
* C79: `C79_p4_partial`, `C79_p2_partial`, `C79_p2_refuted`, `C79_comment_refuted`, `C79_loop_refuted`, `C79_short_refuted`, `C79_maxval_refuted`, `C79_p1_refuted`, `C79_size_refuted`.
* C80: `C80_format_partial`, `C80_roundtrip_partial`, `C80_read_partial`, `C80_rgb_roundtrip_partial`, `C80_rgb_format_partial`, `C80_rgb_refuted`, `C80_colours_refuted`, `C80_volume_refuted`.
* C81: `C81_roundtrip`, `C81_bytes`, `C81_short_refuted`.
* C82: `C82_roundtrip_partial`, `C82_newline_refuted`, `C82_letter_refuted`, `C82_type_refuted`.
* C83: `C83_stack_partial`, `C83_pgm_stack`, `C83_bmp_stack`, `C83_names_refuted`.
* C84: `C84_dilate_partial`, `C84_erode_partial`, `C84_open_partial`, `C84_close_partial`, `C84_guards`, `C84_length_refuted`, `C84_diagonal_refuted`, `C84_rising_refuted`.
* C85: `C85_dilate_partial`, `C85_erode_partial`, `C85_open_partial`, `C85_close_partial`, `C85_side_refuted`.
* C86: `C86_open_partial`, `C86_close_partial`, `C86_opening`, `C86_diagonal_refuted`, `C86_stale_refuted`, `C86_levels_refuted`, `C86_volume_refuted`, `C86_borders_refuted`.
* C87: `C87_lblSkiz`, `C87_zones`.
* C88: `C88_inflBasins_partial`, `C88_zones_refuted`.
* C89: `C89_blank_partial`, `C89_memory_refuted`.
* C90: `C90_waterfall`, `C90_kept`, `C90_levels`.
* C91: `C91_arrow_partial`, `C91_same_type_partial`, `C91_operations`, `C91_inplace_refuted`, `C91_size_refuted`, `C91_bits_refuted`.
* C92: `C92_arrowMin_partial`, `C92_arrowMinStep_partial`, `C92_slices_refuted`, `C92_summit_refuted`.
* C93: `C93_propagate`, `C93_fresh`.
* C94: `C94_fastMinima_partial`, `C94_fastMaxima_partial`, `C94_inplace_refuted`, `C94_bits_refuted`.
* C95: `C95_asfClose`, `C95_asfOpen`, `C95_asfClose_increasing`, `C95_asfOpen_increasing`, `C95_asfClose_absorbs`, `C95_asfOpen_absorbs`, `C95_asfClose_between`, `C95_asfOpen_between`, `C95_dual`.
* C96: `C96_openings`, `C96_differences_partial`, `C96_sum_partial`, `C96_cdf_partial`, `C96_constant_refuted`, `C96_stops`, `C96_box_ends`, `C96_endless`, `C96_termination_refuted`.
* C97: `C97_basins`, `C97_no_marker_refuted`.
* C98: `C98_graph_partial`, `C98_endless_refuted`.
* C99: `C99_dynamics_partial`, `C99_minima`, `C99_touching_refuted`, `C99_parts_refuted`.
* C100: `C100_areas`, `C100_volumes`.
* C101: `C101_ranks_partial`, `C101_small_type_refuted`.
* C102: `C102_indices_partial`, `C102_jaccard`, `C102_ruzicka`, `C102_fscore`, `C102_overlap`, `C102_accuracy_partial`, `C102_accuracy_grey`, `C102_accuracy_refuted`, `C102_signed_refuted`.
* C103: `C103_hamming_partial`, `C103_metric`, `C103_sizes_refuted`.
* C104: `C104_borders_partial`, `C104_unique`, `C104_plane`, `C104_borders_plane`, `C104_not_binary`, `C104_objects_refuted`, `C104_slices_refuted`.
* C105: `C105_linear_partial`, `C105_ends`, `C105_increasing`, `C105_full_range`, `C105_constant_refuted`, `C105_decreasing_refuted`.
* C106: `C106_range_partial`, `C106_range_frequency_partial`, `C106_enhance_partial`, `C106_inverted_refuted`, `C106_constant_refuted`, `C106_sizes_refuted`, `C106_signed_refuted`.
* C107: `C107_otsu_partial`, `C107_value`, `C107_two_values_refuted`, `C107_zero_refuted`, `C107_classes_refuted`, `C107_endless_refuted`, `C107_signed_refuted`.
* C108: `C108_mean`, `C108_empty`.
* C109: `C109_barycenter_partial`, `C109_barycenter_inside`, `C109_moments`, `C109_centered_partial`, `C109_inertia`, `C109_massless_refuted`, `C109_negative_refuted`.
* C110: `C110_covariance_partial`, `C110_products`, `C110_origin`, `C110_step_refuted`, `C110_overflow_refuted`, `C110_normalised_refuted`.
* C111: `C111_product_partial`, `C111_rejected`, `C111_unique`, `C111_associative`, `C111_identity`, `C111_transposed`, `C111_overflow_refuted`, `C111_inplace_refuted`.
* C112: `C112_horizontal_partial`, `C112_vertical_partial`, `C112_convolve_partial`, `C112_unique`, `C112_range_partial`, `C112_monotone_partial`, `C112_asymmetric_refuted`, `C112_unnormalised_refuted`, `C112_narrow_refuted`, `C112_inplace_refuted`, `C112_empty`.
* C113: `C113_means_partial`, `C113_range_partial`, `C113_monotone_partial`.
* C114: `C114_comparisons`, `C114_order`, `C114_ne_refuted`, `C114_ne_partial`, `C114_total_refuted`, `C114_strict_refuted`, `C114_number_refuted`, `C114_number_partial`, `C114_sup_refuted`, `C114_sup_partial`.
* C115: `C115_walk_partial`, `C115_plus_after_steps`, `C115_walk_refuted`, `C115_backwards_refuted`, `C115_read_back`, `C115_item_refuted`, `C115_mean`, `C115_mean_exact`.
* C116: `C116_split_partial`, `C116_merge_partial`, `C116_merge_rejects`, `C116_split_merge_partial`, `C116_merge_split_partial`, `C116_volume_refuted`, `C116_large_refuted`, `C116_copyChannel`, `C116_copyToChannel`.
* C117: `C117_sup`, `C117_inf`, `C117_equ_partial`, `C117_complement_refuted`, `C117_true`, `C117_equal`, `C117_equ_whole_partial`, `C117_equ_whole_refuted`.
* C118: `C118_closest_partial`, `C118_values_partial`, `C118_same_size_partial`, `C118_pointwise_partial`, `C118_volume_never`, `C118_volume_refuted`, `C118_column_refuted`, `C118_inplace_refuted`.
* C119: `C119_bilinear_partial`, `C119_trilinear_partial`, `C119_range2_partial`, `C119_range3_partial`, `C119_same_size_partial`, `C119_monotone_partial`, `C119_column_refuted`.
* C120: `C120_isBinary`, `C120_auto_partial`, `C120_auto_grey`, `C120_unknown`, `C120_auto_volume_refuted`.
* C121: `C121_asBuildOpen`, `C121_asBuildClose`, `C121_asBuildOpen_increasing`, `C121_asBuildClose_increasing`, `C121_asBuildOpen_absorbs`, `C121_asBuildClose_absorbs`, `C121_asBuildOpen_between`, `C121_asBuildClose_between`, `C121_dual`, `C121_zones`.
* C122: `C122_opening_partial`, `C122_slices`, `C122_volumes_refuted`, `C122_agree_partial`, `C122_sort`, `C122_closing_refuted`, `C122_sizes_refuted`.
* C123: `C123_values_partial`, `C123_order_partial`, `C123_order_refuted`, `C123_drawn`, `C123_slice_refuted`, `C123_clip_refuted`.
* C124: `C124_maxima_partial`, `C124_maxima_refuted`.
* C125: `C125_mean_partial`, `C125_mean_refuted`.
* C126: `C126_weighted_partial`, `C126_labels_partial`, `C126_inside`, `C126_zero_refuted`.
* C127: `C127_boxes`, `C127_labels`.
* C128: `C128_under`, `C128_moments`, `C128_centred_partial`, `C128_labels`, `C128_negative_refuted`.
* C129: `C129_min_max`, `C129_values`, `C129_mode_partial`, `C129_mode_refuted`.
* C130: `C130_median_partial`, `C130_median_refuted`.
