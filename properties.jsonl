{"id": "C01", "title": "Offset and coordinates are inverse", "statement": "For an image of any size, getOffsetFromCoords and getCoordsFromOffset are inverse bijections between the coordinates inside the image and the offsets 0..pixelCount-1; coordinates outside the image yield -1 and no in-image coordinate does; the line and slice tables built by setSize point at exactly these offsets, so every pixel lies in exactly one line.", "quantifier": "all widths, heights, depths, all coordinates (also negative) and all offsets", "why_tests_cant": "the set of sizes and coordinates is unbounded; a stride mistake only shows on non-square or 3D sizes", "anchors": ["Core/include/DBaseImage.h: getOffsetFromCoords, getCoordsFromOffset, isCoordsInImage", "Core/include/private/DImage.hxx: setSize, restruct"]}
{"id": "C02", "title": "isOffsetInImage accepts exactly the valid offsets", "statement": "BaseImage::isOffsetInImage(off) returns true exactly when 0 <= off < pixelCount.", "quantifier": "all image sizes and all offsets", "why_tests_cant": "only the single offset equal to pixelCount is wrong, for every size", "anchors": ["Core/include/DBaseImage.h: isOffsetInImage"]}
{"id": "C03", "title": "ImageBox reference and shift agree with the offset formula", "statement": "After ImageBox::setReference by coordinates, by point or by offset, the stored point and the stored offset denote the same voxel; shift moves both consistently.", "quantifier": "all boxes, points, offsets and shifts", "why_tests_cant": "three overloads compute the offset with different formulas that coincide on square or 2D images", "anchors": ["Core/include/DCommon.h: ImageBox::setReference, ImageBox::shift, ImageBox::getOffset, ImageBox::getCoords"]}
{"id": "C04", "title": "Pixelwise operations do not depend on the thread schedule and may run in place", "statement": "For every pixelwise image operation (unary, with a constant, binary, ternary) the output image is the pixel-by-pixel application of the pixel function, whatever the order in which threads process the lines, also when the output image is one of the inputs; no other memory changes.", "quantifier": "all image sizes, pixel values, pixel functions, line schedules, and aliasings of output with inputs", "why_tests_cant": "the number of schedules and aliasings is exponential; tests run one schedule", "anchors": ["Base/include/private/DBaseImageOperations.hxx: unaryImageFunction::_exec, binaryImageFunction::_exec, tertiaryImageFunction::_exec"]}
{"id": "C05", "title": "In-place binary operation stores its result", "statement": "The two-image form binaryImageFunction(imIn, imInOut) leaves in imInOut the pixelwise result of the function applied to imIn and the previous imInOut.", "quantifier": "all images, all pixel functions", "why_tests_cant": "the overload is not used by the tested API", "anchors": ["Base/include/private/DBaseImageOperations.hxx: binaryImageFunction::_exec(const imageType &imIn, imageType &imInOut)"]}
{"id": "C06", "title": "add and sub saturate exactly", "statement": "add yields min(max, a+b) and sub yields max(min, a-b) on every pixel for every unsigned pixel type, both for image/image and image/constant forms; addNoSat and subNoSat wrap modulo 2^n; the saturating forms never wrap.", "quantifier": "all unsigned pixel types, all pixel pairs, all image sizes; the signed types are covered by the refutation part", "why_tests_cant": "saturation tests use a cast (T)(max-b) that behaves differently per type and sign", "anchors": ["Base/include/private/DLineArith.hpp: addLine, subLine, addNoSatLine, subNoSatLine", "Base/include/private/DImageArith.hpp: add, sub, addNoSat, subNoSat"]}
{"id": "C07", "title": "mul, div and absolute difference", "statement": "mul yields min(max, a*b), div yields floor(a/b) with division by zero giving max, absDiff yields |a-b|, on every pixel of unsigned images.", "quantifier": "all unsigned pixel types, all pixel pairs", "why_tests_cant": "products overflow the intermediate type only for particular pairs", "anchors": ["Base/include/private/DLineArith.hpp: mulLine, divLine, absDiffLine"]}
{"id": "C08", "title": "mulNoSat wraps", "statement": "mulNoSat(a,b) yields the product modulo 2^n (no saturation).", "quantifier": "all pixel pairs", "why_tests_cant": "only pairs whose product exceeds max discriminate", "anchors": ["Base/include/private/DImageArith.hpp: mulNoSat", "Base/include/private/DLineArith.hpp: mulNoSatLine, mulLine"]}
{"id": "C09", "title": "inv is an involution that reverses order", "statement": "inv(inv(im)) = im for every pixel type, inv maps min to max and max to min, and a <= b iff inv(b) <= inv(a); hence inv exchanges sup and inf (De Morgan).", "quantifier": "all pixel types including signed, all images", "why_tests_cant": "the formula max - x - min mixes signed bounds", "anchors": ["Base/include/private/DLineArith.hpp: invLine, supLine, infLine", "Base/include/private/DImageArith.hpp: inv, sup, inf"]}
{"id": "C10", "title": "Comparison, test, compare and mask select the documented value", "statement": "Each comparison (grt, grtOrEqu, low, lowOrEqu, equ, diff) writes the type maximum where the relation holds and 0 elsewhere; test(imIn1,x,y) picks x where imIn1 is nonzero and y elsewhere; compare(im1,op,im2,x,y) picks x exactly where the relation named by op holds; mask keeps imIn where the mask is nonzero and writes 0 elsewhere.", "quantifier": "all image sizes, pixel values, operator strings and mixtures of image and constant operands", "why_tests_cant": "six operators times eight operand mixtures times all values", "anchors": ["Base/include/private/DLineArith.hpp: grtLine .. diffLine, testLine", "Base/include/private/DImageArith.hpp: test, compare, _compare_base, mask"]}
{"id": "C11", "title": "threshold partitions the range", "statement": "threshold(imIn, minVal, maxVal, trueVal, falseVal) writes trueVal exactly where minVal <= pixel <= maxVal when minVal <= maxVal, and falseVal exactly where maxVal <= pixel <= minVal when minVal > maxVal; no third value occurs.", "quantifier": "all images, bounds and output values", "why_tests_cant": "swapped bounds path is a separate branch", "anchors": ["Base/include/private/DImageHistogram.hpp: threshold", "Base/include/private/DLineHistogram.hpp: threshLine"]}
{"id": "C12", "title": "Histogram counts every pixel exactly once", "statement": "histogram(imIn) has for every value v the number of pixels equal to v; the counts sum to pixelCount; the masked version counts exactly the pixels where the mask is nonzero.", "quantifier": "all images and masks", "why_tests_cant": "sums over all values of all images", "anchors": ["Base/include/private/DImageHistogram.hpp: histogram"]}
{"id": "C13", "title": "Copy of a sub-window", "statement": "copy(imIn, x0,y0,z0, w,h,d, imOut, ox,oy,oz) writes into imOut exactly the part of the requested window that lies in both images, leaves every other output pixel unchanged and never touches memory outside the two images; out-of-range start points are rejected; crop and addBorder follow; cropping an image with a border back gives the original image.", "quantifier": "all image sizes, start points, window sizes and pixel data", "why_tests_cant": "clipping happens independently in three directions on two images", "anchors": ["Base/include/private/DImageTransform.hpp: copy, crop, addBorder"]}
{"id": "C14", "title": "Flips, rotation, translation and transposition move pixels bijectively", "statement": "vertFlip and horizFlip are involutions and put pixel (x,y) at its mirror image, in place or not; translate puts pixel p at p+d and fills the uncovered part with the border value; rotateX90 by k quarter turns composes and four quarter turns are the identity.", "quantifier": "all image sizes and contents, all turn counts and translation vectors", "why_tests_cant": "index arithmetic errors vanish on square images", "anchors": ["Base/include/private/DImageTransform.hpp: horizFlip, vertFlip, translate, rotateX90", "Base/include/private/DImageMatrix.hpp: matTrans"]}
{"id": "C15", "title": "Area, volume, minimum, maximum and range are exact", "statement": "area counts the nonzero pixels, vol sums all pixels, minVal/maxVal return the least and greatest pixel value (and with a point argument the first raster position attaining it), rangeVal returns the pair.", "quantifier": "all nonempty images", "why_tests_cant": "run-splitting over zero pixels is stateful", "anchors": ["Base/include/private/DMeasures.hpp: area, vol, minVal, maxVal, rangeVal", "Base/include/private/DBaseMeasureOperations.hpp: MeasureFunctionBase::processImage"]}
{"id": "C16", "title": "valueList, modeVal, medianVal, boundBox and nonZeroOffsets", "statement": "valueList returns the strictly increasing list of the (nonzero) values present; modeVal a value of maximal frequency among nonzero pixels; medianVal the smallest nonzero value v such that more than half of the nonzero pixels are <= v; measBoundBox the tightest box around the nonzero pixels; nonZeroOffsets the offsets of the nonzero pixels in increasing order.", "quantifier": "all images", "why_tests_cant": "depends on the joint distribution of all pixels", "anchors": ["Base/include/private/DMeasures.hpp: valueList, modeVal, medianVal, measBoundBox, nonZeroOffsets"]}
{"id": "C17", "title": "computeBlobs partitions the labelled pixels and drawBlobs restores them", "statement": "computeBlobs(imLabels) returns, for every label present (excluding 0 when onlyNonZero), runs that are disjoint, ordered, inside single lines and cover exactly the pixels with that label; drawing all blobs with their own label gives the label image back.", "quantifier": "all label images", "why_tests_cant": "runs are produced by a stateful scan with line-end special cases", "anchors": ["Base/include/private/DBlob.hpp: computeBlobs, drawBlobs"]}
{"id": "C18", "title": "applyLookup maps every pixel through the table", "statement": "applyLookup(imLabels, lut, imOut, default) writes lut[v] when v is a key of the table and the default otherwise, for every pixel value v.", "quantifier": "all images, tables and defaults", "why_tests_cant": "one value of 256 or 65536 may be mishandled", "anchors": ["Base/include/private/DImageArith.hpp: applyLookup"]}
{"id": "C19", "title": "Structuring element algebra", "statement": "addPoint never stores a duplicate; transpose reflects every point through the origin and is an involution on non-hexagonal elements; homothety of size n of a non-hexagonal element is the n-fold Minkowski sum; noCenter removes exactly the origin.", "quantifier": "all point lists and sizes", "why_tests_cant": "all finite point sets", "anchors": ["Morpho/src/DStructuringElement.cpp: addPoint, transpose, homothety, noCenter"]}
{"id": "C20", "title": "dilate and erode compute the max and min over the structuring element", "statement": "For every structuring element of size 1 handled by the generic path, dilate(im)(q) is the maximum of im(q-p) over the points p with q-p inside the image and erode(im)(q) the minimum of im(q+p), with the type minimum (maximum) as value when no point falls inside; the result does not depend on the order of the points or the line schedule.", "quantifier": "all images, sizes, structuring elements (including hexagonal ones through the row parity rule) and schedules", "why_tests_cant": "unbounded images and elements; borders and parity interact", "anchors": ["Morpho/include/private/DMorphImageOperations.hxx: _exec_single_generic", "Morpho/include/private/DMorphoBase.hpp: dilate, erode"]}
{"id": "C21", "title": "The fast paths equal the generic definition", "statement": "dilate/erode with SquSE, HorizSE, VertSE, CrossSE, CubeSE return the same image as the generic definition over the points of the element, for images at least two lines high, whatever the number of threads used by the vertical pass.", "quantifier": "all images with height at least 2, all thread counts", "why_tests_cant": "the vertical pass is split in blocks per thread with shared line buffers", "anchors": ["Morpho/include/private/DMorphImageOperations.hxx: _exec_single_square, _exec_single_vertical_segment, _exec_single_horizontal_segment, _exec_single_depth_segment, _exec_single_cube"]}
{"id": "C22", "title": "Vertical fast path on one-line images", "statement": "dilate/erode with SquSE or VertSE never reads outside the image, also for images of height 1.", "quantifier": "all image sizes", "why_tests_cant": "the out-of-bounds read usually stays inside the line table and changes nothing visible", "anchors": ["Morpho/include/private/DMorphImageOperations.hxx: _exec_single_vertical_segment"]}
{"id": "C23", "title": "Erosion and dilation form an adjunction", "statement": "dilate(f) <= g iff f <= erode(g) for the same structuring element; hence both are increasing, dilate commutes with sup, erode with inf, and dilate/erode are dual under inv for a transposed element.", "quantifier": "all images of the same size, all non-hexagonal structuring elements and the hexagonal one", "why_tests_cant": "relates two arbitrary images", "anchors": ["Morpho/include/private/DMorphoBase.hpp: dilate, erode"]}
{"id": "C24", "title": "open and close are morphological filters", "statement": "open is increasing, anti-extensive and idempotent; close is increasing, extensive and idempotent; open and close are exchanged by inv; topHat and dualTopHat are the exact differences, never wrapping.", "quantifier": "all images and structuring elements", "why_tests_cant": "idempotence must hold for every image including at the borders", "anchors": ["Morpho/include/private/DMorphoFilter.hpp: open, close", "Morpho/include/private/DMorphoResidues.hpp: topHat, dualTopHat, gradient"]}
{"id": "C25", "title": "Sizes compose", "statement": "dilate with an element of size n equals n successive dilations of size 1 (also when imIn and imOut are the same image), size 0 copies the image, and for SquSE the size n result is the maximum over the (2n+1)x(2n+1) window clipped to the image.", "quantifier": "all sizes n and all images", "why_tests_cant": "the ping-pong buffering differs for odd and even sizes and for in-place calls", "anchors": ["Morpho/include/private/DMorphImageOperations.hxx: MorphImageFunction::_exec"]}
{"id": "C26", "title": "Hierarchical queue pops in priority then arrival order", "statement": "For any sequence of push and pop on a HierarchicalQueue, pop returns an element of the lowest (highest when reversed) priority present, and among equal priorities the one pushed first; isEmpty and getSize are exact.", "quantifier": "all operation sequences within the capacity announced at initialisation, unsigned pixel types", "why_tests_cant": "unbounded histories", "anchors": ["Morpho/include/private/DMorphoHierarQ.hpp: HierarchicalQueue, FIFO_Queue"]}
{"id": "C27", "title": "FIFO queue behaves like a queue", "statement": "A FIFO_Queue initialised for n elements behaves as an unbounded first-in first-out queue for every sequence of operations in which at most n elements are present at any time.", "quantifier": "all operation sequences", "why_tests_cant": "compaction happens after a history-dependent number of pushes", "anchors": ["Morpho/include/private/DMorphoHierarQ.hpp: FIFO_Queue"]}
{"id": "C28", "title": "label assigns one label per connected component", "statement": "label(imIn, imOut, se) gives two pixels the same nonzero label exactly when they have the same value and are connected by a path of se-neighbours of that value, gives 0 exactly to the zero pixels and returns the number of components, provided there are fewer components than the output type maximum.", "quantifier": "all images and symmetric structuring elements", "why_tests_cant": "connectivity is a global property of the image", "anchors": ["Morpho/include/private/DMorphoLabel.hpp: labelFunctGeneric, label"]}
{"id": "C29", "title": "Labels stay unique when there are many components", "statement": "label never gives two different components the same label without reporting it through its return value.", "quantifier": "all images", "why_tests_cant": "needs more components than the label type can hold", "anchors": ["Morpho/include/private/DMorphoLabel.hpp: labelFunctGeneric"]}
{"id": "C30", "title": "Geodesic reconstruction by hierarchical queue is exact", "statement": "build(marker, mask) at pixel p is the maximum over paths q..p of the minimum of marker(q) and the mask along the path; dualBuild is the dual; the result lies between inf(marker,mask) and mask and is idempotent.", "quantifier": "all UINT8 and UINT16 markers and masks of less than 2^31 pixels, all structuring elements (hexagonal ones on one slice)", "why_tests_cant": "propagation over arbitrarily long paths, in the order decided by a priority queue", "anchors": ["Morpho/include/private/DMorphoGeodesic.hpp: build, dualBuild, processBuildHierarchicalQueue"]}
{"id": "C31", "title": "Iterated geodesic dilation reaches the same reconstruction", "statement": "geoBuild(marker, mask) terminates and returns the same image as build; geoDualBuild and dualBuild likewise.", "quantifier": "all markers, masks and structuring elements containing the origin", "why_tests_cant": "termination and the fixed point depend on the whole image", "anchors": ["Morpho/include/private/DMorphoGeodesic.hpp: geoBuild, geoDilate, geoDualBuild"]}
{"id": "C32", "title": "fillHoles, buildOpen, buildClose and h-extrema", "statement": "fillHoles raises exactly the pixels that cannot reach the image border below; levelPics dually; buildOpen is anti-extensive, increasing and idempotent and buildClose its counterpart; minima/maxima mark exactly the regional extrema, hMinima/hMaxima those of the corresponding reconstruction.", "quantifier": "all UINT8 and UINT16 images and structuring elements, input and output distinct", "why_tests_cant": "composition of global operators", "anchors": ["Morpho/include/private/DMorphoGeodesic.hpp: fillHoles, buildOpen, buildClose, hBuild", "Morpho/include/private/DMorphoExtrema.hpp: minima, maxima, hMinima, hMaxima"]}
{"id": "C33", "title": "Marker-based flooding keeps markers and labels everything reachable", "statement": "basins(imIn, imMarkers, imBasins) keeps every marker label, gives a label to exactly the pixels connected to a marker, uses only marker labels, and every labelled pixel is connected to a marker pixel of the same label inside its own basin.", "quantifier": "all images, marker images and structuring elements", "why_tests_cant": "the flooding order depends on all grey levels", "anchors": ["Morpho/include/private/DMorphoWatershed.hpp: BaseFlooding, basins"]}
{"id": "C34", "title": "Watershed lines separate basins", "statement": "After watershed(imIn, imMarkers, imOut, imBasins) the line image holds only 0 and the type maximum, and two neighbouring pixels that are not on a line carry the same basin label.", "quantifier": "all images, markers with labels in the admissible range, symmetric structuring elements", "why_tests_cant": "depends on the flooding order", "anchors": ["Morpho/include/private/DMorphoWatershed.hpp: WatershedFlooding, watershed"]}
{"id": "C35", "title": "Thinning shrinks, thickening grows, both to a fixed point", "statement": "thin(im) <= im <= thick(im) on binary images for every pair of structuring elements; fullThin and fullThick terminate with an image that one more pass leaves unchanged.", "quantifier": "all binary images and all hit-or-miss pairs and lists", "why_tests_cant": "termination for every image", "anchors": ["Morpho/include/private/DHitOrMiss.hpp: thin, thick, fullThin, fullThick, hitOrMiss"]}
{"id": "C36", "title": "Graph bookkeeping", "statement": "After any sequence of addNode, addEdge, removeEdge and removeNodeEdges, the per-node edge lists contain exactly the indices of the active edges at that node; addEdge with checking never stores the same undirected edge twice.", "quantifier": "all operation sequences", "why_tests_cant": "unbounded histories", "anchors": ["Core/include/private/DGraph.hpp: Graph"]}
{"id": "C37", "title": "labelizeNodes gives one label per connected component", "statement": "labelizeNodes maps two nodes to the same label exactly when they are connected by active edges, the label being the smallest node of the component.", "quantifier": "all graphs", "why_tests_cant": "recursion over arbitrary graphs", "anchors": ["Core/include/private/DGraph.hpp: labelizeNodes, propagateLabel"]}
{"id": "C38", "title": "graphMST returns a minimum spanning tree", "statement": "graphMST returns a set of edges of the graph that is acyclic, spans the component of the smallest node and has minimal total weight among all spanning trees of that component.", "quantifier": "all weighted graphs with at least one edge", "why_tests_cant": "minimality quantifies over all spanning trees", "anchors": ["Core/include/private/DGraph.hpp: graphMST"]}
{"id": "C39", "title": "Buffer pool never hands out a buffer twice", "statement": "Between getBuffer and releaseBuffer a buffer is owned by one caller only; buffers are freed exactly once.", "quantifier": "all sequences of getBuffer, releaseBuffer, initialize and destruction", "why_tests_cant": "unbounded histories", "anchors": ["Core/include/private/DBufferPool.hpp: BufferPool"]}
{"id": "C40", "title": "Signals and slots stay mutually consistent", "statement": "After any sequence of connect, disconnect, slot destruction and signal destruction, a slot is in a signal's list exactly when the signal is in the slot's list, no list has duplicates, and trigger runs every connected live slot exactly once in connection order, never a destroyed one.", "quantifier": "all operation sequences", "why_tests_cant": "unbounded histories with destruction in any order", "anchors": ["Core/include/DSignal.h: Signal", "Core/src/DSlot.cpp: BaseSlot"]}
{"id": "C41", "title": "Bit arrays store independent bits", "statement": "BitArray::setValue(i,v) followed by getValue(j) returns v when i=j and the old value otherwise, for every width including those that are not multiples of the word size.", "quantifier": "all widths, heights, indices and word contents", "why_tests_cant": "padding bits appear only for particular widths", "anchors": ["NSTypes/Bit/include/DBitArray.h: getValue, setValue"]}
{"id": "C42", "title": "Cross distance is the exact city-block distance", "statement": "distance(im, out, CrossSE) gives every pixel the city-block distance to the nearest zero pixel of its slice, saturated at the type maximum.", "quantifier": "all images and output types", "why_tests_cant": "two sweeps in each direction must combine for every configuration of zeros", "anchors": ["Morpho/include/private/DMorphoDistance.hpp: distCross"]}
{"id": "C43", "title": "Area opening by max-tree", "statement": "areaOpen(im, n) at pixel p is the largest level h such that the connected component of {im >= h} containing p has at least n pixels (or the image minimum); it is increasing in the image, anti-extensive and idempotent.", "quantifier": "all images and thresholds", "why_tests_cant": "tree construction depends on the flooding order", "anchors": ["Morpho/include/private/DMorphoMaxTree.hpp: MaxTree2, attributeOpen, areaOpen"]}
{"id": "C44", "title": "Drawing stays inside the image and draws the exact shape", "statement": "drawDisc, drawRectangle, drawBox and drawLine modify exactly the pixels of the requested shape that lie in the image and touch no memory outside it.", "quantifier": "all image sizes and shape parameters, including shapes partly outside", "why_tests_cant": "clipping errors show only for particular overlaps", "anchors": ["Base/include/private/DImageDraw.hpp: drawDisc, drawRectangle, drawBox, drawLine", "Base/include/DImageDraw.h: bresenhamPoints"]}
{"id": "C45", "title": "Measures of labelled zones", "statement": "For a label image and a measured image of the same size, the blob measures (area, volume, range) return one entry per label present, computed from exactly the pixels carrying that label.", "quantifier": "all label images, measured images and labels", "why_tests_cant": "the runs of a label are scattered over lines; an off-by-one in a run only shows for particular layouts", "anchors": ["Base/include/private/DBaseMeasureOperations.hpp: processImage(blob), processBlobMeasure", "Base/include/private/DBlob.hpp: computeBlobs"]}
{"id": "C46", "title": "Aligned and unaligned parts of the line functors cover each line once", "statement": "A line functor that splits a line at the alignment boundary of its buffers handles every index of the line exactly once and no index outside it.", "quantifier": "every line length, misalignment and buffer", "why_tests_cant": "The split depends on buffer addresses modulo 16 and on the length; tests run on lines allocated aligned and long.", "anchors": ["Base/include/private/DBaseLineOperations.hpp:68-90", "Base/include/private/DBaseLineOperations.hpp:197-226"]}
{"id": "C47", "title": "Dilation depends only on the points of the element", "statement": "Two structuring elements on the same grid, of equal size and with the same set of points give the same dilation, whatever their type tag.", "quantifier": "every image, border value, pair of elements", "why_tests_cant": "The type tag silently selects the algorithm; tests use predefined elements whose tag and points agree.", "anchors": ["Morpho/include/private/DMorphImageOperations.hxx:417-443", "Morpho/include/DStructuringElement.h"]}
{"id": "C48", "title": "Reconstruction functions may be called in place", "statement": "hBuild, hDualBuild, minima, maxima, buildOpen, buildClose and fillHoles give the same result when the output is the input image.", "quantifier": "all images and structuring elements", "why_tests_cant": "the in-place branch runs on a copy whose contents are whatever the allocator returns; on fresh zero pages or recycled buffers tests may pass", "anchors": ["Morpho/include/private/DMorphoGeodesic.hpp:512-610", "Morpho/include/private/DMorphoExtrema.hpp:54-101", "Core/include/private/DImage.hxx:67-74"]}
{"id": "C49", "title": "Geodesic dilation of size n", "statement": "geoDilate (geoErode) of size n gives at every pixel the highest (lowest) level that flows from the marker along paths of at most n steps that stay below (above) the mask.", "quantifier": "all markers, masks, sizes and structuring elements containing the origin", "why_tests_cant": "n is unbounded and the steps interact through the mask", "anchors": ["Morpho/include/private/DMorphoGeodesic.hpp: geoDilate, geoErode"]}
{"id": "C50", "title": "label may be called in place", "statement": "label(im, im, se) gives the same labels as label(im, out, se) with another output image.", "quantifier": "all images and structuring elements", "why_tests_cant": "the in-place branch calls label on a copy without passing the element; tests use the default element", "anchors": ["Morpho/include/private/DMorphoLabel.hpp:554-577"]}
{"id": "C51", "title": "Labels by area and by volume", "statement": "labelWithArea writes at every nonzero pixel the number of pixels of its connected component and labelWithVolume the sum of the image over that component; both write 0 elsewhere.", "quantifier": "all images and symmetric structuring elements whose component count and measures fit in the output type", "why_tests_cant": "the components are arbitrary sets", "anchors": ["Morpho/include/private/DMorphoLabel.hpp: labelWithArea, labelWithVolume"]}
{"id": "C52", "title": "areaThreshold keeps the components by area", "statement": "areaThreshold keeps exactly the connected components (binary image) or the labels (label image) whose area is at least, or at most, the threshold, whatever the number of threads.", "quantifier": "all images, thresholds and schedules", "why_tests_cant": "depends on the interleaving of the threads", "anchors": ["Base/include/private/DBlobOperations.hpp:73-125"]}
{"id": "C53", "title": "Labelled extrema", "statement": "minimaLabeled (maximaLabeled) gives a nonzero label exactly to the pixels of the regional minima (maxima), and the same label to two of them exactly when they belong to the same plateau.", "quantifier": "all images and symmetric structuring elements of size 1", "why_tests_cant": "plateaus are arbitrary connected sets", "anchors": ["Morpho/include/private/DMorphoExtrema.hpp: minimaLabeled, maximaLabeled"]}
{"id": "C54", "title": "Watershed and basins of the regional minima", "statement": "watershed(im, out, se) and basins(im, out, se) without markers flood, with the element se, from the regional minima of the image for se, one label per minimum.", "quantifier": "all images and symmetric structuring elements of size 1 with fewer minima than the maximum of the label type", "why_tests_cant": "the minima, their labels and the flooding order depend on the whole image", "anchors": ["Morpho/include/private/DMorphoWatershed.hpp:371-382", "Morpho/include/private/DMorphoWatershed.hpp:424-434"]}
{"id": "C55", "title": "Hit-or-miss in place", "statement": "hitOrMiss(im, fg, bg, im) and hitOrMiss(im, list, im) compute the same image as with a distinct output image.", "quantifier": "all images and hit-or-miss pairs and lists", "why_tests_cant": "which pixels differ depends on the image and the elements", "anchors": ["Morpho/include/private/DHitOrMiss.hpp:70-87", "Morpho/include/private/DHitOrMiss.hpp:118-138"]}
{"id": "C56", "title": "Rotations of composite elements", "statement": "The list built from a pair of elements and a number n of rotations holds the pair turned by the multiples of the n-th of the full circle, on the square and on the hexagonal grid, and one more rotation would bring back to the first pair; the predefined lists are of this form.", "quantifier": "all pairs of elements made of the centre and its neighbours, all numbers of rotations", "why_tests_cant": "all pairs and all numbers", "anchors": ["Morpho/src/DCompositeSE.cpp:37-98", "Morpho/src/DCompositeSE.cpp:182-189", "Morpho/include/DCompositeSE.h:192-393"]}
{"id": "C57", "title": "Morphological skeleton", "statement": "skeleton(im, out, se) is the highest of the residues of the opening of the image and of all its erosions (Lantuejoul's formula); it terminates.", "quantifier": "all images and structuring elements", "why_tests_cant": "the number of erosions is not bounded", "anchors": ["Morpho/include/private/DSkeleton.hpp:92-118"]}
{"id": "C58", "title": "Sorting the edges of a graph", "statement": "sortEdges keeps the nodes, the edges and the correctness of the per-node lists, and orders the edges by weight.", "quantifier": "all graphs, any sorting algorithm that meets the contract of std::sort", "why_tests_cant": "all graphs and histories; depends on the state left by removals", "anchors": ["Core/include/private/DGraph.hpp:334-350"]}
{"id": "C59", "title": "Adding an edge that exists", "statement": "addEdge with checking, on an edge that exists, gives it the minimum of the existing and of the new weight (documentation of addEdge).", "quantifier": "all graphs and edges", "why_tests_cant": "all graphs and histories", "anchors": ["Core/include/private/DGraph.hpp:294-314"]}
{"id": "C60", "title": "Traversal of the neighbourhoods", "statement": "The base class of the neighbourhood operators calls its pixel function once for every pixel, in raster order, with exactly the places of the structuring element that lie inside the image, and touches nothing outside.", "quantifier": "all images, structuring elements and pixel functions", "why_tests_cant": "the bounds of the three parts of a line depend on the element and on the width of the image; sizes and elements are unbounded", "anchors": ["Morpho/include/private/DMorphImageOperations.hxx:42-263"]}
{"id": "C61", "title": "Local filters", "statement": "mean, median, rank and neighbors write at every pixel the truncated mean, the median, the requested rank and the number of distinct values of its neighbourhood, in place or not.", "quantifier": "all images and structuring elements", "why_tests_cant": "depends on the neighbourhoods at the borders and on rounding for all values", "anchors": ["Morpho/include/private/DMorphoFilter.hpp:228-363", "Morpho/include/private/DMorphoLabel.hpp:866-921"]}
{"id": "C62", "title": "Graph of a mosaic", "statement": "mosaicToGraph builds a graph with one node per label and exactly one edge per pair of adjacent labels, weighing the least edge value over the pixels where they meet.", "quantifier": "all label images, value images and structuring elements", "why_tests_cant": "adjacency and minimum range over all contacts of two arbitrary regions", "anchors": ["Morpho/include/private/DMorphoGraph.hpp:46-200"]}
{"id": "C63", "title": "Segmentation by a threshold on the graph of a mosaic", "statement": "After removing from the graph of a mosaic the edges heavier than a threshold, graphToMosaic gives two pixels the same label exactly when their regions are joined by contacts whose value does not exceed the threshold.", "quantifier": "all mosaics, values and thresholds", "why_tests_cant": "composition of three traversals over unbounded graphs", "anchors": ["Morpho/include/private/DMorphoGraph.hpp:352-363", "Core/include/private/DGraph.hpp:469-477"]}
{"id": "C64", "title": "Three-dimensional cross distance", "statement": "distance(im, out, Cross3DSE) gives every pixel the city-block distance in three dimensions to the nearest zero pixel, saturated at the type maximum.", "quantifier": "all images and output types", "why_tests_cant": "the sweeps in the three directions must combine for every configuration of zeros", "anchors": ["Morpho/include/private/DMorphoDistance.hpp:215-316"]}
{"id": "C65", "title": "Square distance is the exact chessboard distance", "statement": "distance(im, out, SquSE) gives every pixel the chessboard distance to the nearest zero pixel of its slice, saturated at the type maximum, also in place.", "quantifier": "all images and output types", "why_tests_cant": "the lower envelope of the second pass depends on a whole row of column distances", "anchors": ["Morpho/include/private/DMorphoDistance.hpp:415-606"]}
{"id": "C66", "title": "Euclidean distance", "statement": "distanceEuclidean gives every pixel the square of the Euclidean distance to the nearest zero pixel of the volume, saturated at the type maximum.", "quantifier": "all images and output types", "why_tests_cant": "the lower envelopes depend on whole lines and the values overflow only for large distances", "anchors": ["Morpho/include/private/DMorphoDistance.hpp:814-976"]}
{"id": "C67", "title": "Distance by propagation", "statement": "distance with any other symmetric structuring element gives every pixel the least number of steps of the element, inside the image, that lead to a zero pixel.", "quantifier": "all images, elements, sizes and output types, in place or not", "why_tests_cant": "the fronts of the propagation are arbitrary sets and the number of levels is not bounded", "anchors": ["Morpho/include/private/DMorphoDistance.hpp:111-209"]}
{"id": "C68", "title": "Bit images: three ways to a pixel", "statement": "In a bit image, the pixel (x,y,z), the bit x of the line (y,z) and the bit at the offset of the pixel are the same bit, whatever the padding of the rows, and distinct pixels are distinct bits.", "quantifier": "all widths, heights, depths and contents", "why_tests_cant": "padding bits appear only for particular widths", "anchors": ["NSTypes/Bit/include/DBitArray.h", "NSTypes/Bit/src/DImage_Bit.cpp"]}
{"id": "C69", "title": "Line functors on bits", "statement": "The line functors specialised for Bit, which work on 64 pixels at a time, compute at every pixel the same value as the generic functors on 0 and 1, and leave the padding harmless.", "quantifier": "all line lengths and contents", "why_tests_cant": "the last word of a line is partial only for particular widths", "anchors": ["NSTypes/Bit/include/DLineArith_Bit.h:48-404"]}
{"id": "C70", "title": "Shift of a bit line", "statement": "shiftLine<Bit> moves the pixels by dx and gives the freed pixels the border value, like the generic shiftLine.", "quantifier": "all line lengths, shifts and borders", "why_tests_cant": "depends on the shift and the width modulo 64", "anchors": ["NSTypes/Bit/include/DLineArith_Bit.h:149-221"]}
{"id": "C71", "title": "SSE functors agree with the generic functors", "statement": "The SSE specialisations for UINT8 compute the same value as the generic functors at every element of a line, including those after the last whole vector.", "quantifier": "all lengths and byte values", "why_tests_cant": "the remaining elements only exist for lengths that are not multiples of the vector size", "anchors": ["Base/include/DLineArith_SSE.h"]}
{"id": "C72", "title": "Points of a digital line", "statement": "bresenhamPoints(p1, p2) lists the pixels of the digital segment, consecutive ones being neighbours, from p1 to p2.", "quantifier": "all pairs of points", "why_tests_cant": "the error term decides pixel by pixel and the order depends on the octant", "anchors": ["Base/include/DImageDraw.h:61-196"]}
{"id": "C73", "title": "Circles", "statement": "drawCircle draws a closed digital circle, symmetric and without gaps, each pixel within half a pixel of the radius, clipped to the image.", "quantifier": "all centres, radii and image sizes", "why_tests_cant": "the error term accumulates over the whole octant", "anchors": ["Base/include/private/DImageDraw.hpp:233-277"]}
{"id": "C74", "title": "Tiling with a pattern", "statement": "copyPattern fills the output with copies of the pattern, side by side, at most the number of copies asked for, cut at the border.", "quantifier": "all sizes of the pattern and of the output, all schedules", "why_tests_cant": "partial tiles only appear for particular sizes", "anchors": ["Base/include/private/DImageDraw.hpp:514-594"]}
{"id": "C75", "title": "Height and width openings by max-tree", "statement": "heightOpen(im, n) and widthOpen(im, n) at pixel p are the largest level h such that the connected component of {im >= h} containing p spans at least n lines (columns), or the image minimum; both are openings: increasing, anti-extensive and idempotent.", "quantifier": "all images, elements and thresholds", "why_tests_cant": "the extent of a component is merged along the tree; which node a pixel belongs to depends on the flooding order", "anchors": ["Morpho/include/private/DMorphoMaxTree.hpp: HeightCriterion, WidthCriterion, heightOpen, widthOpen"]}
{"id": "C76", "title": "Attribute closings by max-tree are dual to the openings", "statement": "areaClose, heightClose and widthClose at pixel p give the least level h such that the component of {im <= h} containing p has the attribute (or the image maximum); they are closings: increasing, extensive and idempotent.", "quantifier": "all images, elements and thresholds", "why_tests_cant": "duality goes through two negations in the pixel type and a whole tree construction", "anchors": ["Morpho/include/private/DMorphoMaxTree.hpp: areaClose, heightClose, widthClose"]}
{"id": "C77", "title": "Area openings by union-find: result, termination, agreement with the max-tree", "statement": "areaOpening (union-find) gives every pixel the highest level not above its value whose connected component around it has at least the given number of pixels (the least reachable value if there is none); areaClosing is its dual; the recursion FindRoot ends, never deeper than the number of pixels; the result is the one areaOpen gets from the max-tree. It should also hold when the output is the input, on hexagonal elements and for the size 0.", "quantifier": "For all images (any dimensions, any integer pixel type), all symmetric structuring elements without the hexagonal shift, all sizes from 1 to 2^63-1, output image distinct from the input", "why_tests_cant": "The invariant of the parent array (roots ordered by level, exact or saturated areas, components of the pixels already seen) is about every prefix of the sort; tests look at final images of a few samples and cannot show termination of the recursion.", "anchors": ["Advanced/include/private/AreaOpening/DAreaOpenUnionFind.hpp:75-341", "Advanced/include/private/AreaOpening/DAreaOpen.hpp:69-116"]}
{"id": "C78", "title": "PGM files give back the image", "statement": "Reading a PGM file that write made gives the same image and RES_OK, whatever the receiving image held; what is written follows the format; every binary PGM file, with any comments and white space, gives its pixels.", "quantifier": "all 2-D UINT8 images and file names, all comments and separators", "why_tests_cant": "the text parsing depends on the bytes of the name and of the header, and the pixels may look like text", "anchors": ["IO/src/DImageIO_PBM.cpp:41-116", "IO/include/private/DImageIO_PBM.hpp"]}
{"id": "C79", "title": "Netpbm files are read as the format says", "statement": "P2 files give their values scaled to 0..255, P4 files their bits, P1 files their digits; the program does not write out of its buffers; it ends on every file; it refuses truncated files.", "quantifier": "all headers, sizes, values and truncations", "why_tests_cant": "the faults need particular numbers of pixels modulo the vector size or particular truncations", "anchors": ["IO/src/DImageIO_PBM.cpp:41-116", "IO/include/private/DImageIO_PBM.hpp"]}
{"id": "C80", "title": "BMP files give back the image", "statement": "The 8-bit and 24-bit BMP files that are written follow the format and give back the image; every uncompressed 8-bit file gives the mean of the colour of each pixel in its table.", "quantifier": "all sizes, pixels, colour tables and positions of the pixels", "why_tests_cant": "the padding of lines depends on the width modulo 4 and the table on the file", "anchors": ["IO/src/DImageIO_BMP.cpp", "IO/include/private/DImageIO_BMP.hpp"]}
{"id": "C81", "title": "RAW files give back the image", "statement": "Reading a RAW file with the sizes of the image that was written gives the image; the bytes are those of the pixels, least significant first.", "quantifier": "all integer types, sizes and pixels, in three dimensions", "why_tests_cant": "depends on every byte of every value", "anchors": ["IO/include/private/DImageIO_RAW.hpp:70-122"]}
{"id": "C82", "title": "VTK files give back the image", "statement": "Reading a VTK file that write made gives the same image, for every pixel type.", "quantifier": "all images of every integer type", "why_tests_cant": "the end of the header is recognised by the first byte of the pixels", "anchors": ["IO/include/private/DImageIO_VTK.hpp", "IO/src/DImageIO_VTK.cpp"]}
{"id": "C83", "title": "Stacks of files give back the volume", "statement": "Writing a volume as a list of 2-D files and reading the list gives the volume, and touches no other file.", "quantifier": "all volumes, lists of names and kinds of files that give back 2-D images, all schedules of the copies", "why_tests_cant": "depends on the number of slices and on the order of the copies", "anchors": ["IO/include/private/DImageIO.hxx:141-216"]}
{"id": "C84", "title": "Dilations and erosions along a line are maxima and minima over digital segments", "statement": "lineDilate and lineErode give each pixel the maximum and minimum over the pixels of the image that are at most r steps away on the translate of the digital line through it; lineOpen and lineClose are an opening and a closing; images of several slices or of different sizes are turned down.", "quantifier": "all sizes, values, lengths and directions (dx, dy), any contents of uninitialised memory, in place or not", "why_tests_cant": "each direction, each length against the size of the image and each phase of the digital line is a case; the faults show for one width or at one corner", "anchors": ["Advanced/include/private/FastLine/FastLineSoille.hpp"]}
{"id": "C85", "title": "Fast squares agree with the square structuring element", "statement": "squareDilate, squareErode, squareOpen and squareClose give the same image as dilate, erode, open and close by SquSE(r).", "quantifier": "all 2-D images, sizes r and schedules", "why_tests_cant": "equality of two unrelated algorithms on all images", "anchors": ["Advanced/include/private/FastLine/FastLineSoille.hpp:669-716", "Morpho/include/private/DMorphoBase.hpp"]}
{"id": "C86", "title": "The fast line opening keeps exactly the runs that are long enough", "statement": "imFastLineOpen gives each pixel the highest level at which it belongs to a run of at least 2 r + 1 pixels of its line (or at which its whole line does), imFastLineClose the dual; the result is an opening; memory is never left.", "quantifier": "all images of 8 bits, directions, lengths, contents of uninitialised memory", "why_tests_cant": "the stack of levels depends on all the values of a line and on the order in which they come", "anchors": ["Advanced/include/private/FastLine/FastLineMorard.hpp", "Advanced/include/DFastLine.h:190-231"]}
{"id": "C87", "title": "Zones of influence of labels", "statement": "lblSkiz returns; in the first image each pixel of the mask has the label of the nearest labelled pixels, counted in steps of the element inside the mask, when they all have the same label; the two images tell the pixels where nearest labels differ; pixels no label reaches have 0.", "quantifier": "all label images, masks, elements of size 1, schedules and contents of uninitialised memory", "why_tests_cant": "the number of turns depends on the distances; the result is a property of all the paths in the mask", "anchors": ["Morpho/include/private/DMorphoWatershed.hpp:444-478"]}
{"id": "C88", "title": "Influence basins", "statement": "inflBasins gives each pixel the label of the nearest component of the image when it is unique.", "quantifier": "all images, elements and default elements", "why_tests_cant": "the last opening changes few pixels, for some shapes of the components and some elements only", "anchors": ["Morpho/include/private/DMorphoWatershed.hpp:487-509"]}
{"id": "C89", "title": "Borders between influence zones", "statement": "inflZones marks the pixels where the basins of different components meet; the result depends on the image only.", "quantifier": "all images and contents of uninitialised memory", "why_tests_cant": "uninitialised memory is often 0 in a test", "anchors": ["Morpho/include/private/DMorphoWatershed.hpp:518-534", "Core/include/DStructuringElement.h:70-74"]}
{"id": "C90", "title": "Waterfalls", "statement": "waterfall returns the reconstruction by erosion of the gradient from its values on the lines, and the watershed of that image from its minima; the gradient is raised and kept on the lines; with levels it is repeated as many times as asked, from the watershed of the gradient.", "quantifier": "all 8 and 16 bit images, lines, symmetric elements of size 1 and numbers of levels", "why_tests_cant": "the hierarchy depends on all the values of the image and on the order of two floods per level", "anchors": ["Morpho/include/private/DMorphoWatershed.hpp:540-581"]}
{"id": "C91", "title": "Arrow images", "statement": "arrow sets bit k of a pixel exactly when the operation holds between the pixel and the one that point k of the element leads to, the border value standing outside the image; no other bit is set; unknown operations are errors.", "quantifier": "all images, sizes, elements of at most 64 points, operations, border values, schedules and contents of uninitialised memory", "why_tests_cant": "each of the 64 bits, the two parities of the hexagonal grid, the borders and the aliasing of the two images are cases of their own", "anchors": ["Morpho/include/private/DMorphoArrow.hpp:71-237", "Morpho/include/private/DMorphImageOperations.hxx:314-409", "Base/include/private/DLineArith.hpp:206-395"]}
{"id": "C92", "title": "Arrows to the lowest neighbours", "statement": "arrowMin points to the neighbours whose value is the lowest among the pixel and its neighbours; arrowMinStep points to the lowest of the neighbours that are not below the pixel.", "quantifier": "all images, elements and border values", "why_tests_cant": "ties between neighbours, found in any order, are what tells the implementations apart; slices matter only in 3-D", "anchors": ["Morpho/include/private/DMorphoArrow.hpp:333-625"]}
{"id": "C93", "title": "Propagation along arrows", "statement": "arrowPropagate returns and writes its value exactly at the pixels that a path of arrows reaches from the first pixel, through pixels that do not have the value.", "quantifier": "all arrow images (with cycles), elements, output images and first pixels", "why_tests_cant": "reachability on arbitrary directed graphs, and termination with cycles", "anchors": ["Morpho/include/private/DMorphoArrow.hpp:240-322"]}
{"id": "C94", "title": "Fast extrema", "statement": "fastMinima and fastMaxima mark the pixels from which one cannot go down (up) along the neighbours of the element.", "quantifier": "all images, symmetric elements, in place or not", "why_tests_cant": "plateaus of any shape are crossed by propagations whose order depends on the whole image", "anchors": ["Morpho/include/private/DMorphoExtrema.hpp:249-377"]}
{"id": "C95", "title": "Alternating sequential filters", "statement": "asfClose and asfOpen apply closings and openings (openings and closings) of sizes 1 to n in turn; they are increasing, a filter of size p followed by one of size n >= p is the filter of size n (so they are idempotent), they lie between the opening and the closing of size n, and they are dual of each other.", "quantifier": "all images of all pixel types, elements, sizes and schedules, in place or not", "why_tests_cant": "idempotence and absorption are relations between compositions of 4n neighbourhood operators on all images", "anchors": ["Morpho/include/private/DMorphoFilter.hpp:163-227"]}
{"id": "C96", "title": "Granulometries", "statement": "measGranulometry returns the differences of volume between the openings of sizes 0, step, 2 step, ...; they are not negative and add up to what the image has above its minimum; as a CDF they increase to 1; the computation ends.", "quantifier": "all images, elements, steps and size limits", "why_tests_cant": "the number of turns depends on the image; the differences relate openings of all sizes; termination fails only for some pairs of an image and an element", "anchors": ["Morpho/include/private/DMorphoMeasures.hpp:45-101"]}
{"id": "C97", "title": "Basins of extinction flooding", "statement": "watershedExtinction computes the basins of `basins`, writes 0 outside the markers and a single value on each marker; the call is free of undefined behaviour.", "quantifier": "all images, markers, structuring elements and criteria", "why_tests_cant": "the flooding merges basins in an order that depends on the whole image; one pixel type or image without markers leaves an offset uninitialised", "anchors": ["Morpho/include/private/DMorphoWatershedExtinction.hpp:40-578"]}
{"id": "C98", "title": "Graph of extinction flooding", "statement": "watershedExtinctionGraph builds a forest on the labels that links the labels of neighbours, with an edge for each marker but one in each tree, weighted by the extinction value of that marker.", "quantifier": "all images, markers, symmetric structuring elements and criteria", "why_tests_cant": "minimality and acyclicity are global; the loop on the labels does not end for one value of the greatest label", "anchors": ["Morpho/include/private/DMorphoWatershedExtinction.hpp:129-144", "Morpho/include/private/DMorphoWatershedExtinction.hpp:217-346", "Morpho/include/private/DMorphoWatershedExtinction.hpp:602-625"]}
{"id": "C99", "title": "Dynamics", "statement": "With the criterion \"d\", the value of a regional minimum is the height to climb before reaching another minimum that is not higher.", "quantifier": "all images, elements and types", "why_tests_cant": "a minimax over all the paths between all the minima; ties between equal minima", "anchors": ["Morpho/include/private/DMorphoWatershedExtinction.hpp:367-411", "Morpho/include/private/DMorphoWatershedExtinction.hpp:478-508", "Morpho/include/private/DMorphoWatershedExtinction.hpp:517-594"]}
{"id": "C100", "title": "Area and volume extinction values", "statement": "With the criteria \"a\" and \"v\", the value of a regional minimum is the number of pixels (the volume of water) of its lake when it meets a lake that is not smaller.", "quantifier": "all images, elements and types", "why_tests_cant": "sizes of connected components at levels that depend on the image; arithmetic modulo 2^32", "anchors": ["Morpho/include/private/DMorphoWatershedExtinction.hpp:349-476"]}
{"id": "C101", "title": "Extinction ranks", "statement": "With rankOutput the markers are numbered from 1 by decreasing extinction value, each with its own number.", "quantifier": "all images, markers, criteria, output types and sorting algorithms that satisfy the contract of std::sort", "why_tests_cant": "std::sort is not stable and its order of ties is not specified; the ranks are stored in the type of the output", "anchors": ["Morpho/include/private/DMorphoWatershedExtinction.hpp:46-68", "Morpho/include/private/DMorphoWatershedExtinction.hpp:177-208"]}
{"id": "C102", "title": "Indices of similarity between two images", "statement": "For two binary images of unsigned type and the same size, Jaccard, precision, sensitivity, recall, specificity, fall-out, miss rate and overlap are the quotients of the numbers of true and false positives and negatives that the documentation gives, both sides moved by one half; Jaccard is symmetric, lies in ]0, 1] and is 1 exactly when the objects are the same; Ruzicka likewise on grey levels; the F-score is the weighted harmonic mean of precision and recall and lies between them; overlap is the greater of the two; accuracy is the share of correct pixels.", "quantifier": "all sizes, all unsigned types, all pairs of images, all beta and thresholds", "why_tests_cant": "tests compare a few images with stored numbers; the ranges, symmetry and the equality case hold for all images", "anchors": ["Base/include/private/DImageCompare.hpp:106-575"]}
{"id": "C103", "title": "Hamming distance between two images", "statement": "distanceHamming is the number of positions where the two images differ; it is symmetric, zero exactly on equal images and satisfies the triangle inequality; images of different sizes are reported.", "quantifier": "all triples of images of the same size and unsigned type", "why_tests_cant": "the laws of a distance quantify over all images", "anchors": ["Base/include/private/DImageCompare.hpp:589-600"]}
{"id": "C104", "title": "Hausdorff distance between two images", "statement": "distanceHausdorff is the Hausdorff distance of the two objects: every pixel of one is within that distance of the other, and the distance is attained.", "quantifier": "all pairs of binary images with a border, all schedules of the gradients, all increasing square roots", "why_tests_cant": "the maximum of minima over all pairs of border pixels is a statement on all of them", "anchors": ["Base/include/private/DImageCompare.hpp:621-672", "Core/include/DCommon.h:516-555"]}
{"id": "C105", "title": "Stretched histograms", "statement": "stretchHist applies the linear function that takes inMin to outMin and inMax to outMax, rounded to the nearest integer and bounded by the output type; it keeps the order of the pixels, both ends are exact, and from the range of the image to the range of the type both extreme values are reached.", "quantifier": "all images, all pairs of pixel types, all input and output ranges", "why_tests_cant": "rounding and saturation at every pair of ranges; degenerate ranges", "anchors": ["Base/include/private/DImageHistogram.hpp:353-452", "Base/include/private/DLineHistogram.hpp:57-81"]}
{"id": "C106", "title": "Range of a histogram and contrast enhancement", "statement": "histogramRange with accumulation gives the greatest value such that at most the given percentage of the pixels lie at or below it, and the least value with the same property from above; enhanceContrast maps the values up to the first to black, the values from the second to white, linearly and increasingly in between, and reports different sizes.", "quantifier": "all images and percentages", "why_tests_cant": "the two loops stop at data-dependent values; the percentages and the counts of pixels range over all images", "anchors": ["Base/include/private/DImageHistogram.hpp:454-546"]}
{"id": "C107", "title": "Otsu threshold", "statement": "otsuThresholdValues finds the threshold that maximizes the variance between the class of the values at most the threshold and the class of the others, and otsuThreshold separates these two classes.", "quantifier": "all images, masks and pixel types, for one threshold", "why_tests_cant": "an optimum over all thresholds computed with incremental means and frequencies while the histogram grows", "anchors": ["Base/include/private/DImageHistogram.hpp:548-871", "Base/include/private/DImageHistogram.hpp:344-351"]}
{"id": "C108", "title": "The mean and the deviation of an image are those of its pixels", "statement": "meanVal returns the mean m of the considered pixels (all, or the nonzero ones), and the square of the deviation it returns is the mean of the squares of the differences to m; the argument of the square root is never negative, it is null exactly when all the considered pixels are equal, and both results are 0 when no pixel is considered.", "quantifier": "all images whose sums stay exact, with and without onlyNonZero", "why_tests_cant": "the code subtracts the square of the mean from the mean of the squares; that the difference is a variance, never negative, is an identity over all the images", "anchors": ["Base/include/private/DMeasures.hpp:165-211"]}
{"id": "C109", "title": "Barycentres and moments are the weighted sums of the coordinates, centred moments are those about the barycentre", "statement": "measBarycenter returns the quotients of the sums of v.x, v.y, v.z by the sum of v; for a non-negative image the barycentre lies within the extent of the nonzero pixels. measMoments returns the raw moments of orders 0 to 2, whether or not the null pixels are skipped; with centered, it returns the second moments about the barycentre, and for non-negative images they form a positive semidefinite inertia matrix.", "quantifier": "all images, 2D and 3D, whose sums stay exact", "why_tests_cant": "the centring formula m11 - m10.m01/m00 must agree with the definition of the centred moment on all images; the order of the results differs in 2D and 3D", "anchors": ["Base/include/private/DMeasures.hpp:658-697", "Base/include/private/DMeasures.hpp:781-931"]}
{"id": "C110", "title": "Covariances are the means of the products of the pixels with the displaced pixels", "statement": "measCovariance in the direction (dx,dy,dz) returns, for each h from 0 to the number of steps, the mean over the positions p such that p and p + h(dx,dy,dz) lie in the image of im1(p).im2(p + h(dx,dy,dz)); with normalize, these values divided by the first one. The number of steps is limited by the size of the image along the direction only.", "quantifier": "all pairs of images of the same size, directions, numbers of steps and pixel types", "why_tests_cant": "the displacements, the sizes of the overlaps and the integer type of the products all depend on the inputs", "anchors": ["Base/include/private/DMeasures.hpp:940-1023", "Base/include/private/DMeasures.hpp:1168-1220"]}
{"id": "C111", "title": "The product of two images is the product of the matrices", "statement": "matMultiply gives at column x and row y the sum over i of im1(i,y).im2(x,i) in the arithmetic of the pixel type (modulo its cardinal), whatever the order of the parallel loops; images that are not matrices or whose sizes do not match are rejected and the output is left alone. Consequently the product is associative, the identity matrix is neutral and the transposed of a product is the product of the transposed in the other order.", "quantifier": "all pairs of images, pixel types and thread schedules", "why_tests_cant": "the accumulator wraps around at each step, so that associativity and the independence of the order are facts of modular arithmetic over all matrices", "anchors": ["Base/include/private/DImageMatrix.hpp:208-266"]}
{"id": "C112", "title": "Convolutions by a kernel are weighted means", "statement": "horizConvolve, vertConvolve and convolve replace each pixel by the integer part of the mean, weighted by the kernel, of the pixels of its line (column, column then line) that the kernel covers, the weights being normalised near the borders; horizConvolve may work in place; the result does not depend on the order of the threads, lies between the extreme values of the window, keeps constant images and grows with the image.", "quantifier": "all images, kernels, pixel types, thread schedules, outputs of the same size or resized", "why_tests_cant": "three loops with different bounds and normalisations must implement one formula for every width, radius and kernel", "anchors": ["Base/include/private/DImageConvolution.hpp:277-348", "Base/include/private/DImageConvolution.hpp:361-433", "Base/include/private/DImageConvolution.hpp:447-465"]}
{"id": "C113", "title": "The Gaussian filter takes three means", "statement": "gaussianFilter computes the integer parts of the weighted means along x, then along y, then along z, over the pixels that the kernel covers, on images of any size; each pixel of the result lies between the extreme values of the cube about it, constant images are kept and the result grows with the image.", "quantifier": "all images, nonnegative kernels with a positive centre, pixel types and thread schedules", "why_tests_cant": "range, constants and monotonicity hold for all images and kernels only because every pass is normalised by the weights inside the image", "anchors": ["Base/include/private/DImageConvolution.hpp:50-250"]}
{"id": "C114", "title": "Colours are compared as a whole and ordered channel by channel", "statement": "For two colour pixels, == holds exactly when all their channels are equal, != is its negation, <= is the partial order of the channels and <, >, >= are the matching relations; comparing with a number compares each channel with it; the supremum of two colours is their least upper bound.", "quantifier": "all pairs of colours, numbers of channels and integer channel types", "why_tests_cant": "order laws and complementarity are statements about all pairs and triples of colours", "anchors": ["Core/include/private/DMultichannelTypes.hpp:88-140", "Base/include/private/DLineArith.hpp:169-187"]}
{"id": "C115", "title": "A colour line behaves as a pointer to its pixels", "statement": "After any sequence of additions, increments and copies, item i of a colour line designates the pixel at the sum of the displacements plus i in each channel; assigning an item and reading it gives the colour back and leaves the other items alone; a pixel converts to the mean of its channels, which lies between the extreme channels, and to false exactly when it is black.", "quantifier": "all sequences of pointer operations, memories, positions and colours", "why_tests_cant": "the state (base pointers and an index) is normalised by some operations only: the claim is an invariant over all sequences", "anchors": ["Core/include/private/DMultichannelTypes.hpp:305-343", "Core/include/private/DMultichannelTypes.hpp:355-383", "Core/include/private/DMultichannelTypes.hpp:403-532"]}
{"id": "C116", "title": "Splitting and merging channels are inverse", "statement": "splitChannels puts channel k of a 2D colour image in slice k of a 3D image, mergeChannels does the converse, and each undoes the other for all values held by both types; mergeChannels rejects a wrong number of slices; copyChannel and copyToChannel copy one channel and leave the others unchanged, and reject wrong channels and sizes.", "quantifier": "all images, numbers of channels, channel numbers, pixel types, previous contents and sizes of the outputs", "why_tests_cant": "the round trips must hold for all sizes and all pairs of types, including the resizing of outputs and the width of the counters", "anchors": ["Base/include/private/DImageArith.hpp:1785-1905"]}
{"id": "C117", "title": "RGB suprema, infima and comparisons of images", "statement": "On RGB lines the supremum and the infimum are the least upper bound and the greatest lower bound of the colours; equ is white exactly where the colours are equal and diff is its complement; an RGB image is true exactly when it is white, and two images compare equal exactly when they are equal.", "quantifier": "all pairs of RGB lines and images of the same size", "why_tests_cant": "an equality test that accepts different images is only visible on particular pairs of images", "anchors": ["NSTypes/RGB/include/DLineArith_RGB.h:99-156", "NSTypes/RGB/include/DImage_RGB.h:156-180", "Base/include/private/DImageArith.hpp:411-427"]}
{"id": "C118", "title": "Resizing by the closest pixel takes nearest pixels and no new value", "statement": "resize with the method closest sets the output to the requested size and gives each pixel the value of an input pixel nearest to its position, the positions being spread evenly from corner to corner; it creates no value, leaves the image unchanged at its own size, commutes with any function of the values, and ends for all images, in place or not.", "quantifier": "all images and volumes, requested sizes, previous outputs and thread schedules", "why_tests_cant": "termination on every kind of image and nearest positions for every pair of sizes are universal statements", "anchors": ["Base/include/private/DImageTransform.hpp:852-884", "Base/include/private/DImageTransform.hpp:940-1024"]}
{"id": "C119", "title": "Linear resizing interpolates between the neighbours", "statement": "resize with the methods bilinear and trilinear gives each pixel the truncated linear interpolation of the image at its position: it lies between the extreme values of the neighbours, grows with the image, and the image is unchanged at its own size.", "quantifier": "all images and volumes, pixel types, requested sizes, previous outputs and thread schedules", "why_tests_cant": "the special weights at the borders must agree with interpolation for all pairs of sizes, with all reads inside the image", "anchors": ["Base/include/private/DImageTransform.hpp:1037-1149"]}
{"id": "C120", "title": "Binary images are recognised and stay binary when resized", "statement": "isBinary holds exactly for the images that take two values, one of them 0; the method auto resizes them without creating values and interpolates the other images; unknown methods are rejected and the output is left alone.", "quantifier": "all images, sizes and method names", "why_tests_cant": "the early exit and the insertion of the key 0 by the final test must be right for all sets of values", "anchors": ["Base/include/private/DMeasures.hpp:1386-1400", "Base/include/private/DImageTransform.hpp:852-884"]}
{"id": "C121", "title": "Alternate sequential reconstructions are filters that create no contour", "statement": "asBuildOpen returns the image obtained from its input by the opening by reconstruction then the closing by reconstruction of sizes 1, 2, ..., n in turn (asBuildClose: the closing first), also when the output is the input. Both are increasing. With a symmetric element containing its origin, a filter of size p followed by one of size n >= p is the filter of size n, in particular they are idempotent, and the result lies between the opening and the closing by reconstruction of size n; the two are dual by negation. Neighbouring pixels of equal value keep a common value.", "quantifier": "all images of UINT8 and UINT16 in range, all element sizes below 2^32 - 1, all legal schedules, all contents of new images", "why_tests_cant": "idempotence and absorption relate runs of unbounded length, each made of floodings in an order that depends on the data", "anchors": ["Morpho/include/private/DMorphoGeodesic.hpp:612-673"]}
{"id": "C122", "title": "The array-based union-find area opening removes exactly the small components", "statement": "ImAreaOpening_UnionFind gives every pixel the highest level, not above its value, whose 4-connected component around it has at least the given number of pixels (the least value of the image if there is none), it terminates, it never accesses memory outside its arrays, and it agrees with the two other implementations of the area opening; PixelDownSort lists every pixel once, from the highest value down and in scan order among equal values; ImAreaClosing_UnionFind is the dual closing.", "quantifier": "all UINT8 images, all sizes, all initial contents of the sorted array and of the output", "why_tests_cant": "the forest of labels depends on the whole history of links and path compressions; the result must be right for every shape of component", "anchors": ["Addons/PathOpening/include/FastAreaOpening/AreaOpeningUnionFind.hpp:57-230", "Addons/PathOpening/include/DFastAreaOpening.h:90-119"]}
{"id": "C123", "title": "profile reads the pixels of the line, in order", "statement": "profile(im, x0, y0, x1, y1, z) returns the values of the pixels of slice z that lie on the digital segment between the two points and in the image, one per pixel, from neighbour to neighbour and from the first point to the second; a line drawn by drawLine is found again; nothing is read outside the image, whatever the points and the slice.", "quantifier": "all images, all points and slices, all values", "why_tests_cant": "the segment and its clipping depend on four unbounded coordinates; reads outside the arrays need not fail in a test", "anchors": ["Base/include/private/DMeasures.hpp:622-647", "Base/include/DImageDraw.h:61-196"]}
{"id": "C124", "title": "labelWithMaxima writes the greatest value of each component", "statement": "labelWithMaxima(imIn, imLabelIn, imOut) writes, at every nonzero pixel of imLabelIn, the greatest value that imIn takes on its connected component of equal values, and 0 elsewhere, whenever these values can be written in the type of imOut.", "quantifier": "all images and types, all elements with symmetric points, all contents of new images", "why_tests_cant": "the components are of unbounded size and shape; the table is read by one of two functions according to the types", "anchors": ["Morpho/include/private/DMorphoLabel.hpp:779-808", "Base/include/private/DMeasures.hpp:297-309"]}
{"id": "C125", "title": "labelWithMean writes the mean of each component", "statement": "labelWithMean(imIn, imLabelIn, imOut) writes, at every nonzero pixel of imLabelIn, the integer part of the mean of imIn on its connected component of equal values, and 0 elsewhere, whenever these means can be written in the type of imOut.", "quantifier": "all images with values within 2^22, all types, all elements with symmetric points, all contents of new images", "why_tests_cant": "the components are of unbounded size and shape; the test of the largest mean concerns all of them at once", "anchors": ["Morpho/include/private/DMorphoLabel.hpp:826-869", "Base/include/private/DMeasures.hpp:165-195"]}
{"id": "C126", "title": "blobsBarycenter gives the mean position of each label", "statement": "blobsBarycenter(imLbl, onlyNonZero) returns, for every label present and asked for, the mean of the coordinates of its pixels, which lies within their extreme coordinates; blobsBarycenter(imIn, blobs) returns the means weighted by the values of imIn on the label, when these do not sum to 0. The keys are exactly the labels.", "quantifier": "all images, labels of any shape and number of pieces, sums below 2^53", "why_tests_cant": "the pixels of a label form any number of runs over any number of lines, each with coordinates recomputed from its offset", "anchors": ["Base/include/private/DBlobMeasures.hpp:209-228", "Base/include/private/DBaseMeasureOperations.hpp:224-241", "Base/include/private/DMeasures.hpp:658-685"]}
{"id": "C127", "title": "blobsBoundBox gives the smallest box of each label", "statement": "blobsBoundBox returns, for every label present and asked for, the smallest and the largest coordinates of its pixels along each axis: every pixel of the label is in the box and every side of the box touches one. The keys are exactly the labels.", "quantifier": "all images below 2^32 along each axis, labels of any shape and number of pieces", "why_tests_cant": "the pixels of a label form any number of runs over any number of lines and slices", "anchors": ["Base/include/private/DBlobMeasures.hpp:238-261", "Base/include/private/DBaseMeasureOperations.hpp:224-241", "Base/include/private/DMeasures.hpp:709-756"]}
{"id": "C128", "title": "blobsMoments gives the moments of each label", "statement": "blobsMoments(imIn, blobs, central) returns, for every label present and asked for, the moments of order 0 to 2 of the part of imIn under the label, and with central the second moments about the barycentre of this part; blobsMoments(imLbl, onlyNonZero, central) does the same with the label as the weight of its pixels. The keys are exactly the labels.", "quantifier": "all images, labels of any shape and number of pieces, sums below 2^53", "why_tests_cant": "sums over labels of unbounded size; ten interleaved accumulators reordered at the end", "anchors": ["Base/include/private/DBlobMeasures.hpp:279-326", "Base/include/private/DMeasures.hpp:781-872"]}
{"id": "C129", "title": "blobsMinVal, blobsMaxVal, blobsValueList and blobsModeVal describe the values on each label", "statement": "for every label present and asked for, blobsMinVal and blobsMaxVal return the least and the greatest value of imIn on its pixels, blobsValueList the values found there, increasing and each once, and blobsModeVal a most frequent one. The keys are exactly the labels.", "quantifier": "all images and types, labels of any shape and number of pieces", "why_tests_cant": "the values are collected over any number of runs; ties and absent values depend on the whole content", "anchors": ["Base/include/private/DBlobMeasures.hpp:105-123", "Base/include/private/DBlobMeasures.hpp:164-184", "Base/include/private/DMeasures.hpp:222-234", "Base/include/private/DMeasures.hpp:424-509"]}
{"id": "C130", "title": "blobsMedianVal gives the median of the values on each label", "statement": "blobsMedianVal(imIn, blobs) returns, for every label present and asked for, the least value of imIn on its pixels such that more than half of the values there are at or below it. The keys are exactly the labels.", "quantifier": "all images and types, labels of any shape and number of pieces", "why_tests_cant": "the counts are collected over any number of runs and scanned in the order of the map", "anchors": ["Base/include/private/DBlobMeasures.hpp:193-197", "Base/include/private/DMeasures.hpp:540-592"]}
