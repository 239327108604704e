{"id": "C01", "title": "Grid coordinates and linear cell index are inverse of each other", "statement": "For a grid whose axes all have at least one knot, the linear index computed from in-range coordinates is smaller than size(), distinct coordinates give distinct indices, every index below size() is reached, and the axis index reported for a cell is the coordinate it was addressed with.", "quantifier": "all numbers of axes, all axis sizes >= 1, all coordinate tuples, all linear indices", "why_tests_cant": "The number of axes and their sizes are unbounded; a test fixes a handful of shapes.", "anchors": ["GridContainer/GridContainer/_impl/GridIndexHelper.icpp: totalIndex, axisIndex", "GridContainer/GridContainer/_impl/GridConstructionHelper.h: createAxisIndexFactorVector"]}
{"id": "C02", "title": "at() accepts exactly the in-range coordinates and returns the addressed cell", "statement": "at(coords) on a grid or a slice throws exactly when a coordinate is not smaller than its axis size or a fixed axis is addressed with a non-zero coordinate; otherwise it returns the parent cell whose coordinate is the fixed index on fixed axes and the given one elsewhere, never reading outside the cell storage.", "quantifier": "all grids, all sets of fixed axes, all coordinate tuples", "why_tests_cant": "Quantifies over all shapes, slices and coordinates, including the out-of-range ones.", "anchors": ["GridContainer/GridContainer/_impl/GridContainer.icpp: at, operator()", "GridContainer/GridContainer/_impl/GridIndexHelper.icpp: totalIndexChecked, checkBounds, checkAllFixedAreZero"]}
{"id": "C03", "title": "Iterating a grid or slice visits exactly the matching cells once, in order", "statement": "for (auto& c : grid) over a grid with any set of fixed axes terminates, and visits exactly the cells whose coordinates on the fixed axes are the fixed indices, each exactly once, in increasing storage order (first axis fastest).", "quantifier": "all grids with non-empty axes, all sets of fixed axes and fixed indices", "why_tests_cant": "The loop jumps over non matching cells with axis dependent strides; the claim is about every shape and every fixed set.", "anchors": ["GridContainer/GridContainer/_impl/GridIterator.icpp: operator++, forwardToIndex, fixAxisByIndex", "GridContainer/GridContainer/_impl/GridContainer.icpp: begin, end"]}
{"id": "C04", "title": "Incrementing a fixed iterator moves to the next matching cell", "statement": "From a cell matching all fixed axes, ++ moves to the matching cell with the smallest larger linear index, or to end() when there is none; it never stops on a non matching cell.", "quantifier": "all grids, all fixed sets, all matching positions", "why_tests_cant": "Needs all positions of all shapes, in particular wrap-around of several axes at once.", "anchors": ["GridContainer/GridContainer/_impl/GridIterator.icpp: operator++, forwardToIndex"]}
{"id": "C05", "title": "Writes through a slice reach the parent grid and nothing else", "statement": "Writing a cell through a slice's checked access changes, in the grid it was made from, exactly the cell with the fixed index on the fixed axes and the given coordinates elsewhere; every other cell keeps its value, and reads through any other slice see the change iff that cell belongs to it.", "quantifier": "all grids, slices, coordinates and written values", "why_tests_cant": "Aliasing between arbitrary overlapping slices cannot be enumerated.", "anchors": ["GridContainer/GridContainer/_impl/GridContainer.icpp: slice constructor, at, operator()"]}
{"id": "C06", "title": "Fixing an axis validates its argument; slice metadata", "statement": "fixAxisByIndex throws iff the index is out of the original axis or the axis is already fixed; fixAxisByValue throws iff the value is not a knot (or the axis is fixed) and otherwise fixes the first equal knot. A single slice reports one knot on the fixed axis and size() equal to the number of cells it iterates. For a slice of a slice this last sentence is false: only the last fixed axis is reported as single valued.", "quantifier": "all grids, axes, indices, knot values", "why_tests_cant": "Requires all slicing histories; the defect only shows from the second fixing on.", "anchors": ["GridContainer/GridContainer/_impl/GridContainer.icpp: fixAxisByIndex, fixAxisByValue, slice constructor, getAxis, size"]}
{"id": "C07", "title": "infimum finds the greatest knot not above the value", "statement": "On an axis with sorted knots, infimum(v) points to the last knot <= v, and to the first knot when all knots are above v; the grid version does this independently on every axis.", "quantifier": "all sorted knot vectors, all values", "why_tests_cant": "Ranges over every knot vector, with ties, and every value.", "anchors": ["GridContainer/GridContainer/_impl/GridAxis.icpp: infimum", "GridContainer/GridContainer/_impl/GridContainer.icpp: infimum"]}
{"id": "C08", "title": "Grid to table conversion lists every cell exactly once with its coordinates", "statement": "The table built from a grid has one row per cell; the row of a cell holds the knot values of its coordinates and its value, and rows appear in storage order.", "quantifier": "all grids with non-empty axes", "why_tests_cant": "The nested loop is generated by variadic recursion for every number of axes.", "anchors": ["GridContainer/GridContainer/_impl/GridContainerToTable.icpp: gridContainerToTable"]}
{"id": "C09", "title": "Grid serialization round trip", "statement": "Loading an archive produced by saving a grid gives a grid with the same axis names, the same knots in the same order and the same cell values, and consumes exactly the saved items.", "quantifier": "all grids, including empty axes; any data following in the archive", "why_tests_cant": "All axis counts, names, knots and cell contents.", "anchors": ["GridContainer/GridContainer/serialization/GridContainer.h", "GridContainer/GridContainer/serialization/GridAxis.h", "GridContainer/GridContainer/serialization/tuple.h"]}
{"id": "C10", "title": "Fixing an axis of a moving iterator", "statement": "Fixing an axis on an iterator that stands on a cell moves it to a cell matching the fixed axis without moving backwards. It moves to the first such cell only if the coordinates of all faster axes are zero or the cell already matches; otherwise matching cells are skipped.", "quantifier": "all grids, positions, axes, indices", "why_tests_cant": "Depends on the position at which the axis is fixed.", "anchors": ["GridContainer/GridContainer/_impl/GridIterator.icpp: fixAxisByIndex, forwardToIndex"]}
{"id": "C11", "title": "NdArray element addressing is in bounds and injective", "statement": "at(coords) throws exactly when the number of coordinates differs from the number of dimensions or one is out of range; otherwise it addresses a position inside the container, and different coordinates address different positions.", "quantifier": "all shapes, all coordinate vectors", "why_tests_cant": "All shapes and arities.", "anchors": ["NdArray/NdArray/_impl/NdArray.icpp: get_offset, at, update_strides"]}
{"id": "C12", "title": "NdArray iteration is row-major for arrays and views", "statement": "The i-th element met by iteration is the element whose coordinates are the row-major digits of i, for arrays built from a shape, and for views obtained by any sequence of slice and rslice.", "quantifier": "all shapes, all view histories, all positions", "why_tests_cant": "Unbounded nesting of views.", "anchors": ["NdArray/NdArray/_impl/NdArray.icpp: begin, end, slice, rslice, Iterator"]}
{"id": "C13", "title": "Slices of an NdArray alias the parent", "statement": "slice(i).at(c) and the parent's at(i,c) are the same element, rslice(i).at(c) and at(c,i) are the same element, so a write through either is seen through the other; out of range indices and one-dimensional arrays throw.", "quantifier": "all arrays, indices, coordinates, written values, sequences of writes", "why_tests_cant": "Aliasing over arbitrary shapes and write histories.", "anchors": ["NdArray/NdArray/_impl/NdArray.icpp: slice, rslice, at"]}
{"id": "C14", "title": "reshape keeps the element sequence", "statement": "reshape with the same number of elements keeps the iteration sequence and with another number throws. For a view made with rslice the sequence is not kept.", "quantifier": "all contiguous arrays and views, all new shapes", "why_tests_cant": "All shape pairs and view histories.", "anchors": ["NdArray/NdArray/_impl/NdArray.icpp: reshape"]}
{"id": "C15", "title": "concatenate appends along the first axis", "statement": "After a.concatenate(b), at(i,...) is the old a for i < rows(a) and b's element for the rest, and incompatible shapes throw leaving a unchanged. size() and iteration still report the old number of elements.", "quantifier": "all pairs of arrays", "why_tests_cant": "All shapes and contents.", "anchors": ["NdArray/NdArray/_impl/NdArray.icpp: concatenate"]}
{"id": "C16", "title": "copy is independent of the original", "statement": "copy() of a freshly built array has the same shape and elements, and later writes to either are not seen by the other. For a slice the copied elements are those at the start of the underlying container, not the slice's.", "quantifier": "all arrays, all later writes", "why_tests_cant": "All arrays and write histories.", "anchors": ["NdArray/NdArray/_impl/NdArray.icpp: copy"]}
{"id": "C17", "title": "Element count arithmetic wraps at 32 bits", "statement": "Constructing an array from a shape and data accepts the data iff its length equals the product of the shape, as long as the product is below 2^32; from 2^32 on the check compares with the product modulo 2^32, so a shape with 2^32 elements and no data is accepted.", "quantifier": "all shapes and data lengths", "why_tests_cant": "A test would need 2^32 elements.", "anchors": ["NdArray/NdArray/_impl/NdArray.icpp: constructors (std::accumulate with 1u)"]}
{"id": "C18", "title": "Reductions: sum, argmax, argmin, unravel_index", "statement": "sum equals the sum over all elements; argmax/argmin return the coordinates of the first extremal element in iteration order; unravel_index inverts the row-major index and throws for indices not below the number of elements.", "quantifier": "all non-empty arrays, all indices", "why_tests_cant": "All shapes and contents.", "anchors": ["NdArray/NdArray/_impl/Operations.icpp", "NdArray/src/Operations.cpp"]}
{"id": "C19", "title": "npy write/read round trip", "statement": "Reading the bytes produced by writeNpy returns an array with the same shape, attribute names and elements, for shapes with at least one dimension and attribute names without quote, bracket and header keywords.", "quantifier": "all shapes, all element values, all admissible attribute names", "why_tests_cant": "The header is a text grammar; all shapes, names and lengths.", "anchors": ["NdArray/NdArray/io/_impl/NpyWriter.icpp", "NdArray/NdArray/io/_impl/NpyReader.icpp", "NdArray/NdArray/io/_impl/NpyCommon.h: NpyHeader"]}
{"id": "C20", "title": "npy data section is 64-byte aligned", "statement": "The header written by writeNpy, including magic, version, length field and newline, has a length that is a multiple of 64, and the recorded length is the exact length of what follows.", "quantifier": "all shapes and attribute names", "why_tests_cant": "All header lengths modulo 64.", "anchors": ["NdArray/NdArray/io/_impl/NpyCommon.h: writeNpyHeader"]}
{"id": "C21", "title": "KdTree radius search equals the exhaustive search", "statement": "findPointsWithinRadius(c, r) returns, up to order and with multiplicity, exactly the points whose distance to c is smaller than r, for every r >= 0 and every leaf size.", "quantifier": "all point sets (with duplicates), dimensions, leaf sizes, centres, radii >= 0", "why_tests_cant": "All point sets; pruning errors only show for particular geometry.", "anchors": ["KdTree/KdTree/_impl/KdTree.icpp: Leaf, Split, findPointsWithinRadius"]}
{"id": "C22", "title": "Edge binning puts every value in its half-open bin", "statement": "For strictly increasing edges, getBinIndex(v) = i iff edge[i] <= v < edge[i+1] (the last bin also contains its upper edge), and values outside the range get no bin.", "quantifier": "all edge vectors, all values", "why_tests_cant": "All edges and values, in particular values on edges.", "anchors": ["Histogram/Histogram/Binning/EdgeVector.h: getBinIndex"]}
{"id": "C23", "title": "Histogram counts are conserved", "statement": "The count of bin i is the sum of the weights of the data whose bin index is i, and the total of the counts is the total weight of the data inside the range.", "quantifier": "all data sequences, weights, binnings", "why_tests_cant": "All data sequences.", "anchors": ["Histogram/Histogram/_impl/ComputationImpl.icpp: computeBins", "Histogram/Histogram/Histogram.h"]}
{"id": "C24", "title": "Clipping never widens and keeps a valid bin range", "statement": "After any sequence of clip(min,max) calls the visible bin range is a non-empty sub-range of the previous one, and clip throws iff min > max.", "quantifier": "all histograms and sequences of clip calls", "why_tests_cant": "Unbounded call sequences.", "anchors": ["Histogram/Histogram/_impl/ComputationImpl.icpp: clip"]}
{"id": "C25", "title": "ThreadPool starts tasks in submission order, each at most once", "statement": "The sequence in which tasks leave the queue is a prefix of the submission sequence; no task is started twice.", "quantifier": "all numbers of workers, all submit/worker interleavings", "why_tests_cant": "Schedules are unbounded.", "anchors": ["AlexandriaKernel/src/lib/ThreadPool.cpp", "AlexandriaKernel/AlexandriaKernel/ThreadPool.h"]}
{"id": "C26", "title": "block() without exception waits for all submitted tasks", "statement": "When block() returns normally, every task submitted before the call has finished without throwing, whatever other threads and the tasks themselves submit meanwhile; and block() is never stuck: from any reachable state the workers can make it end.", "quantifier": "all numbers of workers >= 1, all interleavings, all tasks not throwing", "why_tests_cant": "Schedules are unbounded.", "anchors": ["AlexandriaKernel/src/lib/ThreadPool.cpp", "AlexandriaKernel/AlexandriaKernel/ThreadPool.h"]}
{"id": "C27", "title": "A failing task stops the pool and reaches the caller of block", "statement": "Once checkForException() reports that a task has thrown, each worker takes at most one more task from the queue. If a task submitted before block() throws, block() does not return normally but throws the exception of a task that failed; when it throws and nothing was submitted meanwhile, no task is running and none of the tasks submitted so far will start.", "quantifier": "all interleavings, any number of failing tasks", "why_tests_cant": "Schedules are unbounded.", "anchors": ["AlexandriaKernel/src/lib/ThreadPool.cpp", "AlexandriaKernel/AlexandriaKernel/ThreadPool.h"]}
{"id": "C28", "title": "Destruction leaves no running task", "statement": "When the destructor returns no task is running and none will start; tasks still queued are dropped without being run.", "quantifier": "all interleavings", "why_tests_cant": "Schedules are unbounded.", "anchors": ["AlexandriaKernel/src/lib/ThreadPool.cpp", "AlexandriaKernel/AlexandriaKernel/ThreadPool.h"]}
{"id": "C29", "title": "The number of open files never exceeds the limit", "statement": "After any sequence of requests, releases, closings and failed opens, each taken as a whole, the number of open files is at most the limit of the manager; a request that opens a file at the limit first closes exactly one file of another handler, and a request that does not return an accessor opens nothing. With n threads inside open() at the same time the limit can be exceeded by at most n - 1.", "quantifier": "all operation sequences, all limits >= 1", "why_tests_cant": "Histories are unbounded.", "anchors": ["FilePool/src/lib/LRUFileManager.cpp", "FilePool/FilePool/_impl/FileManager.icpp"]}
{"id": "C30", "title": "The least recently used closable file is evicted", "statement": "When the limit is reached the file closed is, among those at rest in other handlers, the one whose last use is oldest; the request throws iff no file of another handler is at rest and its own handler has no open file (when it has one, the request can wait for itself for ever).", "quantifier": "all histories of opens, uses and closes", "why_tests_cant": "Histories are unbounded.", "anchors": ["FilePool/src/lib/LRUFileManager.cpp: notifyIntentToOpen, notifyUsed"]}
{"id": "C31", "title": "A file in use is never closed", "statement": "A file descriptor held by a live accessor is not closed by the manager or by other requests until the accessor is destroyed; it is then available again for reuse.", "quantifier": "all histories of accessor creation/destruction and evictions", "why_tests_cant": "Histories are unbounded.", "anchors": ["FilePool/FilePool/_impl/FileHandler.icpp", "FilePool/src/lib/FileHandler.cpp"]}
{"id": "C32", "title": "Writers are exclusive", "statement": "At any time a handler has either any number of live read accessors and no write accessor, or exactly one write accessor and no read accessor.", "quantifier": "all histories", "why_tests_cant": "Histories are unbounded.", "anchors": ["FilePool/FilePool/_impl/FileHandler.icpp: getReadAccessor, getWriteAccessor"]}
{"id": "C33", "title": "Try-mode accessors", "statement": "A try-mode request on a free file does not succeed: after the successful try_lock the code locks again and an exception is thrown; on a busy file it returns a null accessor.", "quantifier": "all handler states", "why_tests_cant": "Depends on the lock state history.", "anchors": ["FilePool/FilePool/_impl/FileHandler.icpp: 32-36, 90-94"]}
{"id": "C34", "title": "One handler per path while it is alive", "statement": "getFileHandler returns the same handler for the same canonical path as long as someone holds it, and distinct handlers for distinct paths.", "quantifier": "all histories of handler requests and releases", "why_tests_cant": "Histories are unbounded.", "anchors": ["FilePool/FilePool/_impl/FileManager.icpp", "FilePool/src/lib/FileManager.cpp: getFileHandler, hasHandler"]}
{"id": "C35", "title": "Piecewise functions evaluate the right piece", "statement": "A piecewise function is zero outside its knots, equals the first function on [k0,k1] and function i on (k_i, k_{i+1}].", "quantifier": "all knots, functions and abscissae", "why_tests_cant": "All knot vectors, with repeated knots.", "anchors": ["MathUtils/src/lib/function/Piecewise.cpp: operator()"]}
{"id": "C36", "title": "Integration of piecewise functions is exact", "statement": "integrate(a,b) of a piecewise function of integrable pieces is the Riemann integral of the function from a to b, for any order of a and b, inside, across or outside the knots.", "quantifier": "all knots, polynomial pieces, bounds", "why_tests_cant": "A statement about all reals.", "anchors": ["MathUtils/src/lib/function/Piecewise.cpp: integrate", "MathUtils/src/lib/function/Polynomial.cpp: indefiniteIntegral"]}
{"id": "C37", "title": "Polynomial calculus", "statement": "Evaluation, derivative and indefinite integral of a polynomial are those of the mathematical polynomial.", "quantifier": "all coefficient lists, all abscissae", "why_tests_cant": "All degrees, all reals.", "anchors": ["MathUtils/src/lib/function/Polynomial.cpp"]}
{"id": "C38", "title": "Products of functions", "statement": "multiply(f,g) of two functions evaluates to f(x)*g(x): polynomials and generic functions for every x; two piecewise functions for every x other than the first knot of the product, when their ranges overlap.", "quantifier": "all polynomials and piecewise functions, all x", "why_tests_cant": "All pairs of knot vectors.", "anchors": ["MathUtils/src/lib/function/multiplication.cpp", "MathUtils/src/lib/function/function_tools.cpp"]}
{"id": "C39", "title": "Linear interpolation passes through its points and stays between them", "statement": "For strictly increasing x the linear interpolation takes value y_i at x_i, lies between neighbouring y values in between, is continuous on the range and zero outside unless extrapolating.", "quantifier": "all point sequences of length >= 2", "why_tests_cant": "All sequences, all reals.", "anchors": ["MathUtils/src/lib/interpolation/linear.cpp", "MathUtils/src/lib/interpolation/interpolation.cpp"]}
{"id": "C40", "title": "Cubic spline interpolation", "statement": "For strictly increasing x the spline passes through all points, has continuous first and second derivatives at inner knots and zero second derivative at the ends.", "quantifier": "all point sequences of length >= 2", "why_tests_cant": "All sequences; the system is solved by recursion over the knots.", "anchors": ["MathUtils/src/lib/interpolation/spline.cpp"]}
{"id": "C41", "title": "Simpson rule: refinement and exactness", "statement": "The value the rule computes at order n+1 from the value at order n equals the value it computes directly at order n+1, and the rule is exact for polynomials of degree at most 3.", "quantifier": "all functions, intervals, orders >= minimal order", "why_tests_cant": "All orders and functions.", "anchors": ["MathUtils/src/lib/numericalIntegration/SimpsonsRule.cpp", "MathUtils/MathUtils/numericalIntegration/_impl/AdaptativeIntegration.icpp"]}
{"id": "C42", "title": "findMinInterval returns the narrowest interval with the requested mass", "statement": "For a non-decreasing cumulative over increasing abscissae, the returned interval holds at least the requested fraction, and no interval between two different samples that holds it is narrower.", "quantifier": "all cumulatives, all fractions in (0,1]", "why_tests_cant": "All sample sequences.", "anchors": ["MathUtils/src/lib/PDF/Cumulative.cpp: findMinInterval"]}
{"id": "C43", "title": "findValue returns the first abscissa reaching the ratio", "statement": "For a non-decreasing cumulative with positive total and ratio in [0,1], findValue returns the abscissa of the first (or last, or middle of the plateau) sample reaching that ratio of the total.", "quantifier": "all cumulatives, ratios, positions", "why_tests_cant": "All sample sequences.", "anchors": ["MathUtils/src/lib/PDF/Cumulative.cpp: findValue"]}
{"id": "C44", "title": "Mode extraction returns the requested number of modes", "statement": "extractNHighestModes(n) returns exactly n modes; extractNBigestModes(n) with n >= 1 terminates after at most 3n+2 rounds and returns at least n modes sorted by decreasing area, but can return more than n.", "quantifier": "all pdfs, all n", "why_tests_cant": "All pdfs; termination.", "anchors": ["MathUtils/src/lib/PDF/PdfModeExtraction.cpp"]}
{"id": "C45", "title": "Inverse cumulative sampling inverts the cumulative", "statement": "For a discrete pdf with non-negative values of positive sum and p in (0,1], the sampled knot is the first knot whose cumulative probability reaches p and it has positive probability.", "quantifier": "all pdfs, all p", "why_tests_cant": "All pdfs and reals.", "anchors": ["MathUtils/MathUtils/helpers/InverseCumulative.h"]}
{"id": "C46", "title": "Column lookup and table invariants", "statement": "ColumnInfo accepts exactly the non-empty lists of distinct names; find(name) returns the unique index of the name; Row accepts exactly the cell lists matching the columns in number and type with no empty or multi-line string; Table accepts exactly the non-empty lists of rows with equal columns.", "quantifier": "all column lists, cells, rows", "why_tests_cant": "All lists.", "anchors": ["Table/src/lib/ColumnInfo.cpp", "Table/src/lib/Row.cpp", "Table/src/lib/Table.cpp"]}
{"id": "C47", "title": "Quoted text survives the ASCII format", "statement": "Text written with quoted() and followed by a separator is read back as the same text by the quoted extractor, whatever quotes, backslashes and blanks it contains.", "quantifier": "all strings without line breaks, all following text", "why_tests_cant": "All strings.", "anchors": ["Table/src/lib/AsciiWriterHelper.cpp: quoted", "Table/src/lib/AsciiReader.cpp: readImpl"]}
{"id": "C48", "title": "ASCII table round trip", "statement": "Reading what AsciiWriter wrote returns the same columns and the same rows, for tables of bool, integer and string cells whose text does not contain the comment indicator and whose first column needs no quoting. The last condition is necessary: a first cell with a blank is split.", "quantifier": "all tables in the domain, all column counts", "why_tests_cant": "All tables.", "anchors": ["Table/src/lib/AsciiWriter.cpp", "Table/src/lib/AsciiReader.cpp", "Table/src/lib/AsciiReaderHelper.cpp"]}
{"id": "C49", "title": "Reading a table in chunks equals reading it at once", "statement": "read(n1), read(n2), ... returns consecutive disjoint runs of the data rows whose concatenation is read(-1); rowsLeft and hasMoreRows agree with what is left; skip(n) skips what read(n) would return.", "quantifier": "all inputs, all chunk sequences", "why_tests_cant": "All chunk sequences.", "anchors": ["Table/src/lib/AsciiReader.cpp: readImpl, skip, rowsLeft, hasMoreRows", "Table/src/lib/FitsReader.cpp"]}
{"id": "C50", "title": "Column type keywords and FITS formats round trip", "statement": "The keyword written for a column type is read back as the same type. The FITS format written for a column is read back as the same type except for one-character strings, one-element vectors and boolean vectors.", "quantifier": "all column types and lengths", "why_tests_cant": "All lengths.", "anchors": ["Table/src/lib/AsciiWriterHelper.cpp: typeToKeyword", "Table/src/lib/AsciiReaderHelper.cpp: keywordToType", "Table/src/lib/FitsWriterHelper.cpp: getBinaryFormatList", "Table/src/lib/FitsReaderHelper.cpp: binaryFormatToType"]}
{"id": "C51", "title": "Qualified names: parsing, printing and ordering", "statement": "Parsing the printed form of a qualified name gives back the same groups and name; printing is injective; invalid texts are rejected; operator< is a strict total order consistent with == whatever the hash function.", "quantifier": "all names, all hash functions", "why_tests_cant": "All strings and any hash function.", "anchors": ["XYDataset/src/lib/QualifiedName.cpp"]}
{"id": "C52", "title": "belongsInGroup is the prefix relation", "statement": "a.belongsInGroup(g) iff the path of g is a proper prefix of the path of a's groups and name.", "quantifier": "all pairs of names", "why_tests_cant": "All names.", "anchors": ["XYDataset/src/lib/QualifiedName.cpp: belongsInGroup"]}
{"id": "C53", "title": "The cached provider is transparent and asks at most once", "statement": "Over any history of requests the cached provider returns what the wrapped provider returned the first time, and calls the wrapped provider at most once per distinct group and per distinct name.", "quantifier": "all request histories", "why_tests_cant": "Histories are unbounded.", "anchors": ["XYDataset/src/lib/CachedProvider.cpp"]}
{"id": "C54", "title": "Listing a group of a file system provider", "statement": "listContents(g), with any number of leading and trailing slashes in g, returns exactly the datasets whose qualified name lies below g, in provider order; the empty group lists everything.", "quantifier": "all providers, all group strings", "why_tests_cant": "All strings.", "anchors": ["XYDataset/src/lib/FileSystemProvider.cpp: listContents"]}
{"id": "C55", "title": "order.txt only reorders", "statement": "The recursive listing of a directory contains every file exactly once when order.txt names no entry twice, with the entries of order.txt first in their order.", "quantifier": "all directory trees and order files", "why_tests_cant": "All trees.", "anchors": ["XYDataset/src/lib/FileSystemProvider.cpp: getOrder, getRecursiveDirectoryContents"]}
{"id": "C56", "title": "Configurations are initialized after their dependencies, once each", "statement": "When closeRegistration succeeded, initialize() calls initialize of every registered configuration exactly once, after all of its dependencies, with all preInitialize calls before and all postInitialize calls after.", "quantifier": "all registered sets and dependency graphs", "why_tests_cant": "All graphs.", "anchors": ["Configuration/src/lib/ConfigManager.cpp: initialize, recursiveInitialization"]}
{"id": "C57", "title": "Circular dependencies are never accepted", "statement": "closeRegistration returns normally iff the dependency relation among registered configurations is acyclic. With a cycle it throws or recurses for ever: it recurses for ever when a configuration outside every cycle that reaches a cycle comes first in the type order.", "quantifier": "all dependency graphs", "why_tests_cant": "All graphs; non-termination.", "anchors": ["Configuration/src/lib/ConfigManager.cpp: hasCircularDependencies, closeRegistration"]}
{"id": "C58", "title": "Manager life cycle", "statement": "Registration calls after closeRegistration throw, getConfiguration throws before initialize and for unregistered types, registering twice has no further effect, dependencies on unregistered types are ignored.", "quantifier": "all call histories", "why_tests_cant": "Histories are unbounded.", "anchors": ["Configuration/Configuration/_impl/ConfigManager.icpp", "Configuration/src/lib/ConfigManager.cpp"]}
{"id": "C59", "title": "Excluding filters keeps the band mappings aligned", "statement": "With distinct filter names the three mappings (columns, thresholds, magnitude flags) list the same filters in the same order after exclusion, and unknown names to exclude throw. With repeated names the mappings can differ in length.", "quantifier": "all mapping files and exclusion lists", "why_tests_cant": "All files.", "anchors": ["Configuration/src/lib/PhotometricBandMappingConfig.cpp: initialize"]}
{"id": "C60", "title": "Catalog lookup by identifier", "statement": "A catalog is built iff the identifiers are distinct; find(id) returns the source with that identifier or null when there is none.", "quantifier": "all source lists, identifiers", "why_tests_cant": "All lists.", "anchors": ["SourceCatalog/src/lib/Catalog.cpp"]}
{"id": "C61", "title": "Photometry parsed from a row satisfies the error/flag contract", "statement": "Every photometry entry produced has: missing flag only if enabled and then error 0; upper-limit flag only if enabled and then positive flux; a strictly positive or NaN error whenever not missing; every rejected row is one of the documented cases. NaN errors are accepted.", "quantifier": "all rows, option combinations, thresholds", "why_tests_cant": "All value combinations including NaN and infinities.", "anchors": ["SourceCatalog/src/lib/PhotometryAttributeFromRow.cpp"]}
{"id": "C62", "title": "Best matching unit", "statement": "findBMU returns in-range coordinates of a cell whose distance to the input is minimal, the first one in iteration order, and that distance.", "quantifier": "all maps, inputs", "why_tests_cant": "All maps.", "anchors": ["SOM/SOM/_impl/SOM.icpp: findBMU_impl"]}
{"id": "C63", "title": "Training keeps weights inside the range of data", "statement": "If neighbourhood and learning factors lie in [0,1], after any training every weight lies between the smallest and the largest of the initial weights and the input values of that component.", "quantifier": "all maps, inputs, iteration counts, neighbourhood functions with values in [0,1]", "why_tests_cant": "All training histories.", "anchors": ["SOM/SOM/SOMTrainer.h: train"]}
{"id": "C64", "title": "Neighbourhood disc is one-sided", "statement": "linearUnitDisk gives factor 1 to cells inside the shrinking radius only when neither coordinate of the cell exceeds the one of the best matching unit; cells on the other side get 0 because of unsigned wrap-around.", "quantifier": "all cells and radii", "why_tests_cant": "All coordinates.", "anchors": ["SOM/src/lib/NeihbourhoodFunc.cpp: linearUnitDisk"]}
{"id": "C65", "title": "Jackknife sampling is without replacement", "statement": "A jackknife pass over a non-empty range yields min(sample size, range size) distinct elements of the range whatever the random draws, for sample size >= 1.", "quantifier": "all ranges, sample sizes and random draws", "why_tests_cant": "All draws.", "anchors": ["SOM/SOM/SamplingPolicy.h: Jackknife"]}
{"id": "C66", "title": "Projection counts every input once", "statement": "Projecting inputs onto a map applies the adder once per input to the cell of its best matching unit, in input order, and leaves other cells at the initial value.", "quantifier": "all maps, inputs, adders", "why_tests_cant": "All inputs.", "anchors": ["SOM/SOM/_impl/SOMProjector.icpp"]}
{"id": "C67", "title": "U-matrix uses exactly the existing neighbours", "statement": "Each u-matrix cell is the min/max/mean of the distances to the existing cells among its eight neighbours; a 1x1 map has none and the result is undefined.", "quantifier": "all maps", "why_tests_cant": "All sizes.", "anchors": ["SOM/SOM/_impl/UMatrix.icpp"]}
{"id": "C68", "title": "Fixing all axes from another grid's iterator addresses the same knots", "statement": "fixAllAxes on an iterator at the first cell of a grid, with an iterator of another grid whose knot values all occur in this grid, moves to the cell whose coordinates are the first occurrences of those knot values.", "quantifier": "all pairs of grids (axes may be in different orders of knots), positions", "why_tests_cant": "All pairs of grids.", "anchors": ["GridContainer/GridContainer/_impl/GridIterator.icpp: fixAllAxes"]}
{"id": "C69", "title": "Directory provider registers each dataset under its path", "statement": "Construction of the file system provider succeeds exactly when the datasets found have valid and distinct qualified names; then each dataset with a non-empty name is registered, in listing order, under its directories and its name, and a lookup gives the file registered under that path or nothing.", "quantifier": "all file lists, parsers, hash functions (collisions included)", "why_tests_cant": "All directory contents.", "anchors": ["XYDataset/src/lib/FileSystemProvider.cpp: FileSystemProvider, getDataset"]}
{"id": "C70", "title": "Path string helpers normalise slashes and extensions", "statement": "checkEndSlashes leaves exactly one slash at the end; checkBeginSlashes and checkNoBeginSlashes leave exactly one or no slash at the beginning of any text with a non-slash character (texts of slashes only are mishandled); removeExtension cuts at the last dot; removeAllBeforeLastSlash keeps what follows the last slash.", "quantifier": "all texts", "why_tests_cant": "All texts.", "anchors": ["XYDataset/src/lib/StringFunctions.cpp"]}
{"id": "C71", "title": "The program options of all configurations are grouped by name", "statement": "When ConfigManager::closeRegistration returns, the options description holds exactly one group per group name used by a registered configuration, in the order of the names; each group holds the options all registered configurations put in it, none lost or duplicated, in the order of the configuration types.", "quantifier": "all sets of registered configurations, all option maps they return and all histories before closeRegistration", "why_tests_cant": "Tests register one or two configurations; the statement quantifies over all maps and all registration histories.", "anchors": ["Configuration/src/lib/ConfigManager.cpp:closeRegistration"]}
{"id": "C72", "title": "Pool counters never understate the pending work", "statement": "At any moment queued() is the number of submitted tasks no worker has taken, running() is at least the number of tasks being executed and at most the number of threads, checkForException() is true only after a task threw, and when activeThreads() is 0 no task runs and no task will ever start.", "quantifier": "all numbers of workers and all interleavings", "why_tests_cant": "The counters are read while the workers move; only an invariant over all interleavings shows they cannot understate.", "anchors": ["AlexandriaKernel/src/lib/ThreadPool.cpp:queued", "AlexandriaKernel/src/lib/ThreadPool.cpp:running", "AlexandriaKernel/src/lib/ThreadPool.cpp:activeThreads", "AlexandriaKernel/src/lib/ThreadPool.cpp:checkForException"]}
{"id": "C73", "title": "An accessor holds a descriptor of its own file, type and mode", "statement": "At any time the descriptor of a live accessor was opened for its handler, with its type and in its mode (read or write), and has not been closed since; no two live accessors share a descriptor; and no request leads the manager to erase a file it does not know.", "quantifier": "all histories of requests, releases, closings and handler destructions", "why_tests_cant": "Reuse of descriptors depends on the whole history of mode and type changes.", "anchors": ["FilePool/FilePool/_impl/FileHandler.icpp:getReadAccessor", "FilePool/FilePool/_impl/FileHandler.icpp:getWriteAccessor", "FilePool/FilePool/_impl/FileManager.icpp"]}
{"id": "C74", "title": "No open file is lost by the pool", "statement": "If each file is always requested with the same type of descriptor, every open file is held by a live accessor or at rest in its handler, and with no accessor left closing all files closes every one. (With two types a write request forgets the open descriptor of the other type.)", "quantifier": "all histories, all assignments of types to files", "why_tests_cant": "A leak shows only after particular histories.", "anchors": ["FilePool/FilePool/_impl/FileHandler.icpp:getWriteAccessor", "FilePool/src/lib/FileManager.cpp:closeAll"]}
{"id": "C75", "title": "A training step moves each weight by the stated fraction", "statement": "Training with one object leaves the size of the map unchanged and replaces each weight w of each cell by (1 - f) w + f v, where v is the object's weight of that component and f the product of the neighbourhood factor of the cell (relative to the best matching unit of the object) and the learning factor; cells with neighbourhood factor 0 are unchanged, and iterations with learning factor 0 change nothing. (Exact arithmetic.)", "quantifier": "all maps, objects, distance, neighbourhood and learning functions", "why_tests_cant": "Tests train a few maps; the statement is for every map and function.", "anchors": ["SOM/SOM/SOMTrainer.h:train"]}
{"id": "C76", "title": "Stored maps are read back unchanged", "statement": "A map written to a boost archive or to a FITS file and read back with the same distance type and dimension has the same size and the same weights in every cell; reading with another distance type (archive and FITS) or another dimension (FITS) throws.", "quantifier": "all maps, sizes and dimensions", "why_tests_cant": "Order of cells and components must agree for every size.", "anchors": ["SOM/SOM/serialization/SOM.h", "SOM/SOM/serialize.h:somFitsExport", "SOM/SOM/serialize.h:somFitsImport"]}
{"id": "C77", "title": "The kohonen neighbourhood does not depend on earlier calls", "statement": "The value of a kohonen neighbourhood function depends on the arguments of the call only (the internal buffer never shows), decreases with the distance between the two cells and is 0 exactly from the cut-off on.", "quantifier": "all histories of calls, sizes and cut-offs", "why_tests_cant": "The buffered sigma could be stale after some histories only.", "anchors": ["SOM/src/lib/NeihbourhoodFunc.cpp:kohonen"]}
{"id": "C78", "title": "A new map is filled from the initialization function in order", "statement": "A new map of size x by y has x*y cells of ND weights each, the weight k of cell (a, b) being the value of call number (a + b*x)*ND + k of the initialization function.", "quantifier": "all sizes, dimensions and initialization functions", "why_tests_cant": "All sizes.", "anchors": ["SOM/SOM/_impl/SOM.icpp:SOM"]}
{"id": "C79", "title": "Casts of table cells keep the value or throw", "statement": "Converting a cell to double, float, int64, int32, bool or a vector of double either throws or returns a value in the range of the target; integers that fit are kept exactly, a wider cast agrees with a narrower one when both succeed, vectors are converted element by element in order and never lose elements.", "quantifier": "all cells of all column types, all target types", "why_tests_cant": "The casts range over every value of fifteen cell types and every text; tests use a few literals.", "anchors": ["Table/Table/CastVisitor.h"]}
{"id": "C80", "title": "Comments of ASCII tables are read back and do not disturb the table", "statement": "getComment() on a file written with user comments returns the trimmed comment lines in order, and the table read afterwards is the one read without asking. Comments are refused after the first table. Without user comments getComment() consumes the column descriptions, so the column types are lost.", "quantifier": "all comments, tables and comment indicators in the domain of the round trip", "why_tests_cant": "Holds for every comment text and table; the interaction of getComment and read is not tested.", "anchors": ["Table/src/lib/AsciiReader.cpp: getComment, readColumnInfo", "Table/src/lib/AsciiWriter.cpp: addComment"]}
{"id": "C81", "title": "A dataset is built from two vectors exactly when they have equal lengths", "statement": "XYDataset::factory(xs, ys) succeeds iff the vectors have equal lengths, and the dataset then has exactly these x and y values in order.", "quantifier": "all pairs of vectors", "why_tests_cant": "Quantifies over all vectors.", "anchors": ["XYDataset/src/lib/XYDataset.cpp: factory"]}
{"id": "C82", "title": "Equality of photometry entries", "statement": "Two photometry entries compare equal when both are missing or when flux, error and upper-limit flag agree; the comparison is symmetric, != is its negation, and an entry differs from itself only when it is present and holds a NaN. It is transitive among entries with the same missing flag, but not in general.", "quantifier": "all photometry entries, including NaN and infinite values", "why_tests_cant": "Transitivity and symmetry range over all triples of values.", "anchors": ["SourceCatalog/src/lib/FluxErrorPair.cpp: operator=="]}
{"id": "C83", "title": "Catalogs converted from tables", "statement": "Converting a table gives exactly one source per row in row order, with the identifier read from the identifier column and the attributes in the order of the attribute makers. The conversion succeeds iff all identifiers are integers or texts, all attributes can be made and the identifiers are distinct.", "quantifier": "all tables, identifier columns and attribute makers", "why_tests_cant": "All tables and failure positions.", "anchors": ["SourceCatalog/src/lib/CatalogFromTable.cpp: createCatalog", "SourceCatalog/SourceCatalog/Source.h: CastSourceIdVisitor"]}
{"id": "C84", "title": "Spectroscopic redshifts from rows", "statement": "The redshift attribute of a row holds the number of the value column and the number of the error column (0 without error column); construction throws iff a named column does not exist.", "quantifier": "all column lists and rows", "why_tests_cant": "All rows and column lists.", "anchors": ["SourceCatalog/SourceCatalog/SourceAttributes/SpectroscopicRedshiftAttributeFromRow.h: createAttribute"]}
{"id": "C85", "title": "Bins of constant width cover the data", "statement": "For every non-empty data set the Sqrt binning has ceil(sqrt(n)) bins, and with Sqrt or Scott binning every value of the data falls in one bin, between the edges of that bin, so the counts without weights sum to the number of values.", "quantifier": "all non-empty data sets; for Scott, all positive width estimates", "why_tests_cant": "the index is a truncated quotient and the last edge a special case: values on edges, equal values and the maximum must all be covered, for every data set", "anchors": ["Histogram/Histogram/Binning/Sqrt.h: computeBins, getBinIndex", "Histogram/Histogram/Binning/Scott.h: computeBins, getBinIndex"]}
{"id": "C86", "title": "Histogram mean and standard deviation", "statement": "getStats returns the mean of the bin centres weighted by the visible counts and the square root of the weighted variance; the mean lies between the first and the last visible centre. With no counts the mean is not a number and the deviation is zero.", "quantifier": "all histograms with non-negative counts, all visible ranges", "why_tests_cant": "the variance is computed by a one-pass formula that has to equal the two-pass definition for all counts and centres", "anchors": ["Histogram/Histogram/_impl/ComputationImpl.icpp: getStats"]}
{"id": "C87", "title": "Histogram median", "statement": "The median returned by getStats is within half a bin width of an edge such that half of the visible counts is reached in one of the two bins next to that edge.", "quantifier": "all histograms with non-negative counts of positive sum, all visible ranges", "why_tests_cant": "the two-pointer loop must keep its balance invariant for every distribution of the counts", "anchors": ["Histogram/Histogram/_impl/ComputationImpl.icpp: getStats"]}
{"id": "C88", "title": "Cumulative of a pdf and its normalisation", "statement": "fromPdf(xs, pdf) is refused when the sizes differ; otherwise the value at position i is the sum of the first i+1 samples, so for a non-negative pdf the values never decrease. normalize divides by the last value: for a positive total the last value becomes 1 and findValue answers the same positions as before.", "quantifier": "all samplings, all pdfs", "why_tests_cant": "All lengths and values.", "anchors": ["MathUtils/src/lib/PDF/Cumulative.cpp: fromPdf, normalize"]}
{"id": "C89", "title": "The centred interval is ordered and centred", "statement": "For a strictly rising cumulative and a rate in (0,1], findCenteredInterval returns an ordered interval whose ends are the positions of the ratios (1-rate)/2 and (1+rate)/2; with plateaus the two ends can come out reversed.", "quantifier": "all strictly rising cumulatives, all rates", "why_tests_cant": "All shapes of the cumulative and all rates.", "anchors": ["MathUtils/src/lib/PDF/Cumulative.cpp: findCenteredInterval"]}
{"id": "C90", "title": "What a mode of a pdf is", "statement": "For a non-negative pdf on rising abscissae, the first of the highest modes has its peak at the first highest sample and covers the samples on both sides up to a zero, a valley below (1-merge_ratio) times the peak, or the border; area and mean are those of these samples and the mean lies between them; the remaining modes are those of the pdf with these samples set to zero. Peaks come by decreasing height, no part of the pdf is counted twice, and with as many modes as samples the areas add up to the area of the pdf. The sample at the border is left out of a neighbouring peak and can become a mode of its own.", "quantifier": "all pdfs with at least three samples, all merge ratios, all n", "why_tests_cant": "All pdf shapes and numbers of modes.", "anchors": ["MathUtils/src/lib/PDF/PdfModeExtraction.cpp: catchPeak, avgArea, flatternPeak, extractNHighestModes"]}
{"id": "C91", "title": "Interpolated position of a mode", "statement": "When the highest sample is not at the border, the interpolated position is within half a step of it, and is the vertex of the parabola through the sample and its neighbours unless they are aligned. It is always within the sampling. At the border it can be at the other end of the sampling.", "quantifier": "all pdfs with at least three samples", "why_tests_cant": "All values of three neighbouring samples.", "anchors": ["MathUtils/src/lib/PDF/PdfModeExtraction.cpp: getInterpolationAround"]}
{"id": "C92", "title": "simple_interpolation agrees with interpolate", "statement": "For strictly increasing abscissae, simple_interpolation(x, xp, yp, extrapolate) returns the value at x of the function that interpolate(xp, yp, LINEAR, extrapolate) returns, inside the range, outside it and at the points; empty or unequal vectors throw.", "quantifier": "all point sequences of length >= 2, all x between the limits of double, both extrapolation settings", "why_tests_cant": "Two separate implementations must agree on every point list and every abscissa, including the cell boundaries where they search differently (upper and lower bound).", "anchors": ["MathUtils/src/lib/interpolation/interpolation.cpp: simple_interpolation", "MathUtils/src/lib/interpolation/linear.cpp: linearInterpolation"]}
{"id": "C93", "title": "Finite differences are derivatives near the point", "statement": "The numerical first derivative of a differentiable function equals its derivative at some point within one step of the requested one, and the numerical second derivative its second derivative at some point within one step; the first is exact for affine functions and the second for polynomials of degree at most 3.", "quantifier": "all functions with the required derivatives, all points, all non-zero steps (values as real numbers)", "why_tests_cant": "All functions and points.", "anchors": ["MathUtils/src/lib/numericalDifferentiation/FiniteDifference.cpp: derivative, derivative2nd"]}
{"id": "C94", "title": "Grid interpolation is multilinear", "statement": "An interpolator over a grid of ascending continuous axes and discrete axes returns, for every call, the multilinear interpolation of the values: the value of the line between the neighbouring knots along each continuous axis, the stored values at the knots, a result within the bounds of the values inside the grid, zero outside of it unless extrapolation is requested.", "quantifier": "all numbers of axes, all axes with distinct knots, all arrays of values, all arguments (values as real numbers)", "why_tests_cant": "All dimensions, knots, values and arguments; the recursion over the axes composes.", "anchors": ["MathUtils/MathUtils/interpolation/_impl/GridInterpolation.icpp: InterpN, InterpolationImpl"]}
{"id": "C95", "title": "Which grids an interpolator accepts", "statement": "The constructor of a grid interpolator accepts exactly the grids whose axes match the dimensions of the values in reverse order and whose continuous axes, except the last, are in order; it throws otherwise.", "quantifier": "all grids with non-empty axes, all shapes", "why_tests_cant": "All dimensions and shapes.", "anchors": ["MathUtils/MathUtils/interpolation/_impl/GridInterpolation.icpp: InterpN::InterpN, checkOrder"]}
{"id": "C96", "title": "Inverse cumulative of a continuous variable", "statement": "For knots in order and a non-negative density given at the knots, the inverse cumulative of a probability p is, up to 2e-8, a point with the fraction p of the integral of the piecewise linear density at its left; it is defined for every p in [0,1], also with steps and regions of zero density, and throws for other p.", "quantifier": "all sorted knots, all non-negative densities, all probabilities (values as real numbers)", "why_tests_cant": "All densities and probabilities; root selection and degenerate segments.", "anchors": ["MathUtils/MathUtils/helpers/_impl/InverseCumulative.icpp: InverseCumulative (floating point)", "MathUtils/src/lib/helpers/Solvers.cpp: solveSquare"]}
{"id": "C97", "title": "Reading the files of numpy.save", "statement": "The reader returns shape and elements of every non-empty array with at least one axis that numpy.save writes in C order, little endian, with a type of the same name on both sides (all but the 8-bit integers); Fortran order, big endian files, other types and files without the magic sequence throw.", "quantifier": "all shapes, elements, paddings and trailing bytes", "why_tests_cant": "The header grammar over all shapes and paddings.", "anchors": ["NdArray/NdArray/io/_impl/NpyReader.icpp: readNpy", "NdArray/NdArray/io/_impl/NpyCommon.h: readNpyHeader, parseNpyDict", "AlexandriaKernel/AlexandriaKernel/StringUtils.h: stringToVector"]}
{"id": "C98", "title": "Memory-mapped arrays", "statement": "After any sequence of creating or opening a memory-mapped npy file, assigning elements and resizing, the file is byte for byte what writeNpy would write for the current shape, names and elements; the old elements survive a resize and the new ones are zero; a resize succeeds exactly if the header keeps its length and the file fits in the maximum size, and a failing one leaves the file unchanged; reopening gives the same array.", "quantifier": "all types, shapes, names, contents and histories", "why_tests_cant": "All histories of assignments and resizes.", "anchors": ["NdArray/NdArray/io/_impl/NpyMmap.icpp: MappedContainer, createMmapNpy, mmapNpy", "NdArray/NdArray/_impl/NdArray.icpp: concatenate"]}
{"id": "C99", "title": "Tables survive a binary FITS file", "statement": "Tables with the same columns written one after the other with the binary FITS writer, whose columns are single values, texts without trailing blanks that are not wider than the widest text of the first table, vectors of one length of at least two, or arrays of one shape with at least two cells, are read back as one table with the column names, types, units and descriptions of the first table and all the rows in order. A table with other columns is refused.", "quantifier": "all tables, all numbers of tables, rows and columns, all sizes", "why_tests_cant": "All sizes and all combinations of column types; a test only writes a few tables.", "anchors": ["Table/src/lib/FitsWriter.cpp: init, append", "Table/src/lib/FitsWriterHelper.cpp", "Table/src/lib/FitsReader.cpp: readImpl", "Table/src/lib/FitsReaderHelper.cpp"]}
{"id": "C100", "title": "Reading a FITS table in chunks", "statement": "After any sequence of reads, skips and queries, reading k rows from a FITS table returns the next k rows, or those that are left; hasMoreRows tells whether there are any; rowsLeft is their number as long as nothing was skipped beyond the end; reading at the end throws. Reads of any positive sizes concatenate to the whole table.", "quantifier": "all histories of the reader and all chunk sizes", "why_tests_cant": "All histories; off by one errors show up only for some split points.", "anchors": ["Table/src/lib/FitsReader.cpp: readImpl, skip, hasMoreRows, rowsLeft"]}
{"id": "C101", "title": "Parameters of an ASCII dataset file", "statement": "AsciiParser::getParameter returns the values of all the lines '# KEY : value' of the file, stripped of the white space around them, in the order of the lines and separated by semicolons; empty values before the first non-empty one leave no trace. A file that cannot be opened makes it throw.", "quantifier": "every file contents and every keyword taken as a literal text that does not begin with white space", "why_tests_cant": "the set of files is unbounded: white space around every part of the line, any number of matching lines, values that are empty", "anchors": ["XYDataset/src/lib/AsciiParser.cpp:getParameter"]}
{"id": "C102", "title": "Name of an ASCII dataset", "statement": "AsciiParser::getName returns the NAME parameter if it is not empty, otherwise the word of the first non-empty line if that line is only '# word', otherwise the name of the file between the last slash and the last dot.", "quantifier": "every file contents and every path", "why_tests_cant": "three fallbacks, each with its own condition over all lines of the file; the path is an arbitrary text", "anchors": ["XYDataset/src/lib/AsciiParser.cpp:getName", "XYDataset/src/lib/StringFunctions.cpp:removeExtension", "XYDataset/src/lib/StringFunctions.cpp:removeAllBeforeLastSlash"]}
{"id": "C103", "title": "Recognition of ASCII dataset files", "statement": "AsciiParser::isDatasetFile holds exactly for the files that can be opened, whose first line that is neither empty nor a comment has exactly two words that are both numbers and is ended by a line feed. (It is not the same as being readable: three kinds of readable files are not recognised.)", "quantifier": "every file contents and every conversion of texts to doubles", "why_tests_cant": "an exact characterisation over all texts, including the end of the file", "anchors": ["XYDataset/src/lib/AsciiParser.cpp:isDatasetFile"]}
{"id": "C104", "title": "Dataset of an ASCII file", "statement": "AsciiParser::getDataset returns one pair per line of data, in the order of the lines, and fails if and only if there is no data or some line of data is not two numbers; blank lines and comments between and behind the data do not matter. Comments before the data do not matter unless they describe a column or are the same word twice.", "quantifier": "every file without quotes whose leading comments say nothing about the columns, every conversion of texts to doubles", "why_tests_cant": "all layouts of white space, comments and numbers over any number of lines", "anchors": ["XYDataset/src/lib/AsciiParser.cpp:getDataset", "Table/src/lib/AsciiReader.cpp"]}
{"id": "C105", "title": "Dataset of a FITS file", "statement": "For a FITS file written by the library, FitsParser::getDataset returns the first two columns, row by row, if they are columns of doubles, and throws otherwise; the name is the value of the keyword or the name of the file; what is read is recognised.", "quantifier": "every sequence of tables that can be written to one FITS table, every set of keywords", "why_tests_cant": "any number of rows, tables and further columns", "anchors": ["XYDataset/src/lib/FitsParser.cpp:getDataset", "XYDataset/src/lib/FitsParser.cpp:getName", "XYDataset/src/lib/FitsParser.cpp:isDatasetFile"]}
{"id": "C106", "title": "Comoving distances follow the expansion rate", "statement": "The Hubble parameter is the expansion rate E(z) of the Friedmann equation, 1 today and non-decreasing in the redshift for cosmologies with 0 <= Omega_m and 2 Omega_lambda <= Omega_m + 2. The comoving distance is 0 at redshift 0; otherwise it lies between D_H z / E(z) and D_H z and differs from D_H times the integral of 1/E by at most 5/128 of D_H z (1 - 1/E(z)). The computation ends with a value unless the relative precision is finer than 2^30 steps can give; with the default precision it ends in every flat universe up to redshift 14. A k times larger Hubble constant gives a k times smaller distance, and an empty flat universe with a cosmological constant gives exactly D_H z.", "quantifier": "all cosmologies of that kind, all positive redshifts and all precisions", "why_tests_cant": "tests compare with a few tabulated distances; they cannot show that the adaptive integration ends and stays within bounds for every cosmology and redshift", "anchors": ["PhysicsUtils/src/lib/CosmologicalDistances.cpp: comovingDistance, hubbleParameter, hubbleDistance", "MathUtils/MathUtils/numericalIntegration/AdaptativeIntegration.h", "PhysicsUtils/src/lib/CosmologicalParameters.cpp"]}
{"id": "C107", "title": "Observer distances are consistent", "statement": "The transverse comoving distance equals the comoving one in a flat space, is at least as large in an open one and at most as large in absolute value in a closed one. The luminous distance is (1 + z) times the transverse one for z other than 0, and 10 at z = 0; the distance modulus mu satisfies 10 * 10^(mu / 5) = luminous distance, is 0 at z = 0, and is a number for every positive redshift of a space that is not closed. The dimensionless volume element is never negative and at most z^2 / E(z) when the space is not open. (The luminous distance is not monotone: near z = 0 it drops below 10.)", "quantifier": "all cosmologies with a non-decreasing expansion rate and all positive redshifts", "why_tests_cant": "curvature is real valued and the branches meet in a limit; a test sees one curvature at a time", "anchors": ["PhysicsUtils/src/lib/CosmologicalDistances.cpp: transverseComovingDistance, luminousDistance, distanceModulus, dimensionlessComovingVolumeElement"]}
{"id": "C108", "title": "Multidimensional sampling follows the density", "statement": "For axes with ascending knots or distinct discrete values and a density without negative values, drawing n samples ends with n rows and uses one random number per value. The last variable of a row is the value its random number selects from the distribution with the other variables integrated out; each variable before it is selected from the interpolated density at the values selected so far (continuous ones up to 2e-8). The area of that conditional density is the interpolated distribution of the other variables, so the rows sample the interpolated joint density. Every value is one of the discrete values or lies between the first knot less 1e-8 and the last. Other shapes and unsorted knots are rejected, as is an output area of another size. (With a single axis the shape is not checked in time; a value below its first knot makes the conditional density vanish.)", "quantifier": "all grids, densities, numbers of draws and sequences of random numbers", "why_tests_cant": "a statistical test of samples sees a few densities and cannot separate a wrong conditional from noise", "anchors": ["MathUtils/MathUtils/PDF/NdSampler.h", "MathUtils/MathUtils/PDF/_impl/NdSampler.icpp: NdSampler, draw, TrapzHelper, _CallHelper", "MathUtils/MathUtils/helpers/_impl/InverseCumulative.icpp"]}
{"id": "C109", "title": "Samplers of a grid use its cells", "statement": "A sampler made from a grid samples a density that equals, at the knots with the coordinates of a cell, the content of that cell; for cells that are lists the position within the cell is one more variable, the first, with the given knots or the positions 0, 1, ... as values.", "quantifier": "all grids with non-negative cells", "why_tests_cant": "the order of the axes is reversed between the grid and the array; tests with symmetric or one-dimensional grids do not notice", "anchors": ["MathUtils/MathUtils/PDF/NdSamplerFromGrid.h: createSamplerFromGrid, ExtractKnots"]}
{"id": "C110", "title": "The format of a catalog is recognised from its first bytes", "statement": "With the format AUTO a catalog file of at least nine bytes is read as FITS iff it begins with 'SIMPLE  ='; otherwise as ASCII. (For a shorter file the answer depends on uninitialised memory, and whenever the first 80 bytes hold no zero byte the buffer is read past its end.)", "quantifier": "all contents of files and all contents of uninitialised memory", "why_tests_cant": "what is behind the buffer is usually zero when tests run, so neither defect shows", "anchors": ["Configuration/src/lib/CatalogConfig.cpp: isFitsFile, getFormatFromOptions"]}
{"id": "C111", "title": "Options of the input catalog", "statement": "Before the initialization the options are refused exactly if both the name and the number of the identifier column are given, the number is below 1, or the format is not AUTO, FITS or ASCII. The initialization succeeds iff the file (relative ones in the base directory) exists, is a table in its format and the chosen identifier column exists; the configuration then shows this file, its columns and the identifier column, and reads the table of the file. (A missing column ID is noticed only when the catalog is read.)", "quantifier": "all parsed options, file systems, base directories and file contents", "why_tests_cant": "combinations of options and file systems; tests cover a few", "anchors": ["Configuration/src/lib/CatalogConfig.cpp: preInitialize, initialize, getFilename, getColumnInfo, getIdColumn, readAsTable"]}
{"id": "C112", "title": "Attribute handlers and base directory over the life of a catalog configuration", "statement": "Whatever calls other configurations make before, between and after the steps of the configuration: all handlers added before the finalization are used in the order of the calls, the last base directory set before the initialization counts, later calls are refused and change nothing. File name and columns are refused before the initialization, reading before the finalization. (The name of the identifier column is not guarded.)", "quantifier": "all histories of calls", "why_tests_cant": "the order of calls depends on the other configurations of the program", "anchors": ["Configuration/src/lib/CatalogConfig.cpp: setBaseDir, addAttributeHandler, postInitialize, getTableToCatalogConverter, readAsCatalog"]}
{"id": "C113", "title": "Catalog of a program", "statement": "A program with any list of the photometry, redshift, density and row configurations starts iff its options are valid, the catalog is ready and each configuration finds what it needs. The catalog it reads has one source per row of the file, in order, with the identifier of the row and, for each configuration in turn, the attribute that its options define on that row; it is read whenever such a catalog exists.", "quantifier": "all options, file systems, lists of configurations and file contents", "why_tests_cant": "end-to-end behaviour over several components; tests use one file", "anchors": ["Configuration/src/lib/CatalogConfig.cpp", "Configuration/src/lib/PhotometryCatalogConfig.cpp", "Configuration/src/lib/SpecZCatalogConfig.cpp", "Configuration/Configuration/PdfCatalogConfig.h", "SourceCatalog/src/lib/SourceAttributes/TableRowAttributeFromRow.cpp"]}
{"id": "C114", "title": "Options of the spectroscopic redshift", "statement": "The options are refused exactly if the redshift column is given twice or not at all, the error column twice, or a number is below 1. With valid options the redshift handler exists iff the columns exist; the redshift of a row is the number in the chosen column with the error in the chosen error column, or 0 without one.", "quantifier": "all parsed options, columns and rows", "why_tests_cant": "tests cover some combinations of four optional options", "anchors": ["Configuration/src/lib/SpecZCatalogConfig.cpp: preInitialize, initialize, getColumnFromOptions"]}
{"id": "C115", "title": "Options of the photometry", "statement": "The photometry handler exists iff the mapping file can be read and its columns exist. Missing data are recognised iff a missing photometry flag is given, upper limits iff they are enabled with YES; both flags default to -99. The photometry of a row has one entry per filter of the mapping that is not excluded, made from the columns of that filter.", "quantifier": "all parsed options, mapping files, columns and rows", "why_tests_cant": "the settings interact with each other and with the mapping; tests use a single mapping", "anchors": ["Configuration/src/lib/PhotometryCatalogConfig.cpp", "Configuration/src/lib/PhotometricBandMappingConfig.cpp"]}
{"id": "C116", "title": "Densities of a source", "statement": "Each name given to addPdfColumn yields, on every row, a density with the knots of the first call for that name and the values of its column; other names are refused. A column of another size is refused with an exception, and so is a call after the initialization.", "quantifier": "all sequences of calls and rows", "why_tests_cant": "repeated names and sizes of other rows are not covered by tests", "anchors": ["Configuration/Configuration/PdfCatalogConfig.h: addPdfColumn, initialize", "SourceCatalog/SourceCatalog/SourceAttributes/PdfFromRow.h", "SourceCatalog/SourceCatalog/SourceAttributes/Pdf.h"]}
{"id": "C117", "title": "Options with wildcards", "statement": "findWildcardNames returns, sorted and without repetition, exactly what follows one of the given names and one more character in an option; in particular every instance made with wildcard(). (The separator is not checked, so another option that begins with the name counts too.)", "quantifier": "all sets of names and options", "why_tests_cant": "prefix relations between option names arise only in some programs", "anchors": ["Configuration/src/lib/ProgramOptionsHelper.cpp: findWildcardNames, wildcard"]}
{"id": "C118", "title": "Identifiers of managers", "statement": "Identifiers obtained one after the other differ, whatever the clock shows; if the clock never goes back they increase, so all differ. (A clock that is set back can repeat one; a clock that stands still makes the function run forever.)", "quantifier": "all sequences of clock readings", "why_tests_cant": "depends on the clock of the machine", "anchors": ["Configuration/src/lib/Utils.cpp: getUniqueManagerId"]}
{"id": "C119", "title": "A grid exported to FITS is imported back", "statement": "Exporting a grid, or a slice of a grid along one axis, to a FITS file under a name appends to the extensions of the file and leaves the others as they are. Importing from the first new extension gives a grid with the same axes (names and knots in order) and the same cell, or the same refusal, at all coordinates, whatever is added to the file later. This needs knots of the declared types, texts that are not empty, have no line break and no blank at the end, axis names that differ and fit the name of an extension with the name of the grid, and names that the file does not use. A slice of a slice, two axes of the same name, and longer names do not come back.", "quantifier": "all files, names, numbers and types of axes, knots, cells, slices of one axis, coordinates, and extensions added later", "why_tests_cant": "the round trip goes through the traversal of the grid, the layout of an image, the formats of the tables, names cut from other names and the numbers of extensions", "anchors": ["GridContainer/GridContainer/_impl/FitsSerialize.icpp: gridFitsExport, gridFitsImport, GridAxisFitsReader"]}
{"id": "C120", "title": "Layout of the FITS file of a grid", "statement": "The extension of an exported grid is an image with one axis per axis of the grid, in that order, with the number of knots as its length, and the pixel at any coordinates is the cell of the grid at those coordinates, the first coordinate varying fastest. The tables of the axes follow in order; each is called after the axis and the grid and lists the positions from zero and the knots. A file with fewer pixels than its axes need is not refused: the import reads out of bounds.", "quantifier": "all files, names, axes, knots, cells and coordinates, grids and slices of one axis", "why_tests_cant": "other programs read these files by coordinates; tests look at some files", "anchors": ["GridContainer/GridContainer/_impl/FitsSerialize.icpp: gridFitsExport, GridAxesToFitsHelper::addGridAxesToFitsFile"]}
{"id": "C121", "title": "A grid with an empty axis is not exported to FITS", "statement": "Exporting a grid that has an axis without knots throws, wherever the axis is and whatever the other axes are.", "quantifier": "all files, names and grids with at least one axis without knots", "why_tests_cant": "quantifies over the position of the axis and the other axes", "anchors": ["GridContainer/GridContainer/_impl/FitsSerialize.icpp: gridFitsExport, GridAxesToFitsHelper::addGridAxesToFitsFile", "Table/src/lib/Table.cpp: Table::Table"]}
{"id": "C122", "title": "interpn interpolates an array with its axes in their own order", "statement": "interpn over strictly ascending axes with at least a knot and an array whose dimensions are the lengths of the axes in the same order returns a function. Called with a coordinate per axis it gives the multilinear interpolation of the array: at knots (i, j, ...) element (i, j, ...) itself; outside of an axis zero, or with extrapolation the continuation of the nearest cell; the value on the only knot of an axis. It throws for other than linear interpolation, for an array of other dimensions and for an axis but the first that is out of order; the order of the first axis is not checked.", "quantifier": "all numbers and lengths of axes, arrays, coordinates, both settings of extrapolation", "why_tests_cant": "the axes are reversed for the construction and the arguments for the call: an array with equal dimensions hides a wrong order, and every number of axes is another instantiation", "anchors": ["MathUtils/MathUtils/interpolation/_impl/interpolation.icpp:InterpNAdapter", "MathUtils/MathUtils/interpolation/_impl/interpolation.icpp:interpn"]}
{"id": "C123", "title": "The distance of self-organizing maps is the Euclidean distance", "statement": "For vectors of the dimension of the distance, L2 gives the square root of the sum of the squared differences: it is never negative, symmetric, zero exactly for equal vectors, satisfies the triangle inequality, and is at least the difference along every coordinate.", "quantifier": "all dimensions and all triples of vectors of real numbers", "why_tests_cant": "a test checks a few vectors; the triangle inequality ranges over all triples in all dimensions", "anchors": ["SOM/SOM/Distance.h:L2", "SOM/SOM/Distance.h:Interface"]}
{"id": "C124", "title": "Distance with uncertainties", "statement": "L2 with uncertainties gives the Euclidean distance of the coordinates divided by their uncertainties: a metric for every vector of uncertainties other than zero, the plain distance for uncertainties of one, scaled by 1/|c| when all are multiplied by c, never larger for larger uncertainties. An uncertainty of zero gives infinity, or NaN when the coordinates are equal. A distance without this function throws.", "quantifier": "all dimensions, vectors and uncertainties, zero included", "why_tests_cant": "scaling and monotonicity relate infinitely many pairs of calls", "anchors": ["SOM/SOM/Distance.h:L2", "SOM/SOM/Distance.h:Interface"]}
{"id": "C125", "title": "Cumulatives of sampled pdfs in double precision", "statement": "With IEEE double arithmetic, the cumulative of a pdf without negative values or NaN is never NaN and never decreases, and each finite value is the exact sum but for a relative error of (1+2^-53)^n - 1 for n terms. Normalizing one with a positive finite total makes the last value exactly 1 and the others rounded quotients in [0,1] that do not decrease. A finite pdf can overflow to an infinite total, whose normalization is NaN.", "quantifier": "all lists of doubles, with infinities, denormals and signed zeros", "why_tests_cant": "rounding depends on every bit of every term; a test covers a few sums", "anchors": ["MathUtils/src/lib/PDF/Cumulative.cpp:fromPdf", "MathUtils/src/lib/PDF/Cumulative.cpp:normalize"]}
{"id": "C126", "title": "Reading a cumulative in double precision", "statement": "With IEEE double arithmetic and a finite total, findValue never fails or leaves its vectors for a ratio in [0,1] and returns the first sample reaching the rounded part of the total, the end of its plateau or half their sum; a larger ratio never gives a smaller abscissa; findCenteredInterval never fails for a rate in ]0,1]. NaN ratios are not rejected, a NaN in the cumulative makes findValue step before its first sample, the middle of two finite abscissae can be infinite, and normalizing can change the result.", "quantifier": "all cumulatives of doubles and all ratios", "why_tests_cant": "whether rounding can push the searched value past the total cannot be settled by examples", "anchors": ["MathUtils/src/lib/PDF/Cumulative.cpp:findValue", "MathUtils/src/lib/PDF/Cumulative.cpp:findCenteredInterval"]}
{"id": "C127", "title": "Smallest interval of a cumulative in double precision", "statement": "With IEEE double arithmetic, finite samples and a required part that does not underflow, findMinInterval returns two different samples in order that hold the required part as computed, or the whole range; no pair that holds it as computed is narrower as computed; what is computed to hold a part holds it exactly but for a factor (1+2^-53)^2. When the part underflows to zero the interval can be reversed, and rounding can hide the narrowest interval.", "quantifier": "all cumulatives of doubles and all rates", "why_tests_cant": "the loop compares rounded differences of all pairs of samples", "anchors": ["MathUtils/src/lib/PDF/Cumulative.cpp:findMinInterval"]}
{"id": "C128", "title": "Discrete sampling in double precision", "statement": "With IEEE double arithmetic, for a pdf without negative values and with a positive finite sum the table of the discrete inverse cumulative does not decrease, stays in [0,1] and ends with exactly 1, so that every p in [0,1] gives a knot: the first one whose value reaches p, never one of probability zero unless p is zero. NaN is not rejected, and an overflow of the sum makes knots unreachable.", "quantifier": "all lists of doubles and all p", "why_tests_cant": "an end value of 1 - 2^-53 would be enough to read past the knots for one p only", "anchors": ["MathUtils/MathUtils/helpers/_impl/InverseCumulative.icpp"]}
{"id": "C129", "title": "Counts of histograms are floats", "statement": "The count of a bin of a histogram with the default weight type is the sum of the weights of its values rounded to float after each term. It is exact for integer weights up to a total of 2^24, has a relative error of at most one rounding per value for weights that are not negative, and without weights is the number of values of the bin, but stays at 2^24 = 16777216 when there are more.", "quantifier": "all binnings, data and weights", "why_tests_cant": "the counts are exact for any data a test would use; the seventeen-millionth value of a bin is the first that is lost", "anchors": ["Histogram/Histogram/Histogram.h", "Histogram/Histogram/_impl/ComputationImpl.icpp"]}
{"id": "C130", "title": "Square root binning in double precision", "statement": "With IEEE double arithmetic, for finite data whose range neither overflows nor underflows, getBinIndex gives every value an index between 0 and the number of bins, that of its equal bin up to a relative error of 2^-50; the largest value is in the last bin, the indices of the others rise with the values, and a value not within 2^-50 of the range of the largest is counted. The edges rise and are within 2^-50 of those of equal bins. Values next to the largest can be lost, a value next to an edge can be counted on its other side, the last edge can be below the largest value, and the index is undefined when the width underflows or the range overflows.", "quantifier": "all lists of finite doubles", "why_tests_cant": "the cases need values one unit in the last place from an edge", "anchors": ["Histogram/Histogram/Binning/Sqrt.h"]}
{"id": "C131", "title": "Scott binning in double precision", "statement": "With IEEE double arithmetic, for data with a standard deviation that is not zero the indices are those of equal bins between the extremes up to a relative error of 2^-50, and the number of bins is the ceiling of the rounded quotient of range and width. Equal values up to 2^50 in magnitude are all counted in one bin or two; equal values of 2^53 have no bin and nothing is counted.", "quantifier": "all lists of finite doubles, all standard deviations and widths", "why_tests_cant": "only some values have two bins, and only large ones none", "anchors": ["Histogram/Histogram/Binning/Scott.h"]}
{"id": "C132", "title": "A KdTree search in doubles agrees with the computed distances", "statement": "For data whose coordinates are finite and smaller than 2^1023, a search with a radius that is not negative returns, each as often as it was given, exactly the elements whose squared distance, computed in doubles, is smaller than the computed square of the radius, whatever the coordinates of the query: rounding never makes the search skip a branch with an element to return.", "quantifier": "all traits functions, sorts, numbers of dimensions, leaf sizes, data, query coordinates (infinities and NaN included) and radii", "why_tests_cant": "All rounding errors of the split values and of the bounds of the query; a lost element shows only for coordinates that straddle a split value.", "anchors": ["KdTree/KdTree/KdTree.h", "KdTree/KdTree/_impl/KdTree.icpp: Leaf, Split, findPointsWithinRadius"]}
{"id": "C133", "title": "A KdTree search in doubles is accurate", "statement": "With up to 1024 dimensions, finite query coordinates and a radius from 2^-400 to 2^500, an element whose exact squared distance is smaller than the squared radius by a relative 2^-40 is found, and one whose exact squared distance is larger by as much is not found.", "quantifier": "all data with finite coordinates smaller than 2^1023, all finite queries, all such radii", "why_tests_cant": "The bound must hold for every sequence of roundings.", "anchors": ["KdTree/KdTree/_impl/KdTree.icpp: findPointsWithinRadius"]}
{"id": "C134", "title": "every submitted task is eventually run", "statement": "In a thread pool with at least one thread whose destructor has not been called, however a scheduler that never forgets a thread goes on, every submitted task is eventually run to its end, unless some task throws; if no task throws, every task finishes. After a task has thrown, tasks still in the queue may never run.", "quantifier": "every number of threads, reachable state, infinite fair schedule and later submissions", "why_tests_cant": "a liveness statement about infinite executions; a test only sees finite ones", "anchors": ["AlexandriaKernel/src/lib/ThreadPool.cpp: Worker::operator(), submit", "AlexandriaKernel/AlexandriaKernel/ThreadPool.h: ThreadPool"]}
{"id": "C135", "title": "the destructor of a thread pool ends under every fair scheduler", "statement": "Once the destructor of a thread pool has been called, it ends, with all threads joined, however a scheduler that never forgets a thread goes on, whatever the workers were doing and however many tasks are submitted meanwhile.", "quantifier": "every number of threads, reachable state inside the destructor and infinite fair schedule", "why_tests_cant": "a liveness statement about infinite executions", "anchors": ["AlexandriaKernel/src/lib/ThreadPool.cpp: ThreadPool::~ThreadPool, waitWorkers, Worker::operator()"]}
{"id": "C136", "title": "block() ends", "statement": "Once an exception has been recorded, block() throws the exception of a failed task under every fair scheduler. Without exception, when only finitely many more tasks are submitted, block() ends under every fair scheduler that also lets the caller run again and again while a worker is asleep, for instance one that lets the caller run between any two steps of workers. Fairness alone is not enough: the caller may look at a worker's flag only while it is awake, and then block() never returns although there is nothing to do.", "quantifier": "every number of threads, reachable state inside block() and infinite fair schedule", "why_tests_cant": "a liveness statement about infinite executions; the missed wake-ups need an adversarial scheduler", "anchors": ["AlexandriaKernel/src/lib/ThreadPool.cpp: ThreadPool::block, waitWorkers, Worker::operator()"]}
{"id": "C137", "title": "concurrent accessors own their descriptors", "statement": "However the calls of any number of threads on one file pool interleave at its mutexes, two live accessors never share a descriptor, the descriptor of a live accessor is open, belongs to the file asked for and was opened in the mode asked for, and while an accessor for writing is alive it is the only accessor of its file.", "quantifier": "all limits, numbers of threads, interleavings of getAccessor, accessor destruction and closeAll, and outcomes of opening", "why_tests_cant": "tests sample a few schedules; a double hand-out needs one particular interleaving", "anchors": ["FilePool/_impl/FileHandler.icpp: getReadAccessor, getWriteAccessor", "FilePool/_impl/FileManager.icpp: open, close", "FilePool/src/lib/LRUFileManager.cpp: notifyIntentToOpen"]}
{"id": "C138", "title": "files open in a pool used by several threads", "statement": "With n threads at most limit + n - 1 files are open at any moment of any interleaving. When no call is running every open file is in exactly one place, an accessor or the available descriptors of one file handler, and the manager's records are exactly the open files. (It is not true that the limit itself is never exceeded.)", "quantifier": "all limits, numbers of threads and interleavings", "why_tests_cant": "the check of the limit and the opening are separate critical sections; how far they can drift apart depends on the schedule", "anchors": ["FilePool/src/lib/LRUFileManager.cpp: notifyIntentToOpen, notifyOpenedFile, notifyClosedFile", "FilePool/_impl/FileManager.icpp: open, close"]}
{"id": "C139", "title": "threads of a file pool wait only for accessors", "statement": "As long as the files in the pool and the calls in progress stay within the limit, threads that are all waiting wait for live accessors of the files they ask for, so once the accessors are gone some thread can go on. In general threads that are all waiting include one that is asking for the closing of a file. (At the limit two threads reading two files can wait for each other for ever, and one thread for itself.)", "quantifier": "all limits, numbers of threads and interleavings", "why_tests_cant": "a deadlock needs a particular interleaving; its absence is about all of them", "anchors": ["FilePool/_impl/FileHandler.icpp: getReadAccessor, getWriteAccessor", "FilePool/src/lib/FileHandler.cpp: close", "FilePool/src/lib/LRUFileManager.cpp: notifyIntentToOpen", "FilePool/src/lib/FileManager.cpp: closeAll"]}
{"id": "C140", "title": "defined behaviour of a file pool used by several threads", "statement": "Undefined behaviour can only come from going on with the list of files after a file has refused to close, or from closeAll overlapping other calls: a pool used by one thread has none, and neither has a pool whose files and calls in progress stay within the limit and whose closeAll is not called. (With two threads both sources are real.)", "quantifier": "all limits, numbers of threads and interleavings", "why_tests_cant": "dangling iterators and pointers appear only in rare interleavings", "anchors": ["FilePool/src/lib/LRUFileManager.cpp: notifyIntentToOpen, notifyUsed", "FilePool/src/lib/FileManager.cpp: closeAll", "FilePool/_impl/FileManager.icpp: close"]}
{"id": "C141", "title": "An interrupted writeNpy leaves a file that is refused or whose missing bytes read as zeros", "statement": "When a program is killed after k bytes of writeNpy, at least 12, readNpy throws if k is before the end of the shape in the header, and otherwise returns an array of the written shape and attribute names in which every element whose bytes were written is unchanged and every missing byte is zero; it never returns other values or another shape. (With fewer than 12 bytes the reader uses indeterminate values.)", "quantifier": "every element type, view, content, set of names and every crash point k", "why_tests_cant": "a test would have to kill the writer after each byte of every possible file; crash points and contents are unbounded", "anchors": ["NdArray/NdArray/io/_impl/NpyWriter.icpp writeNpy", "NdArray/NdArray/io/_impl/NpyReader.icpp readNpy", "NdArray/NdArray/io/_impl/NpyCommon.h"]}
{"id": "C142", "title": "An interrupted createMmapNpy leaves a file that is refused or a complete array of zeros", "statement": "When a program is killed at any byte of the header copied by createMmapNpy, mmapNpy throws if the shape in the header is not complete, and otherwise opens an array with the requested shape and as many zero elements as requested, all of which can be accessed.", "quantifier": "every element type, shape, set of names and crash point", "why_tests_cant": "crash points between two bytes of a copy cannot be reached by unit tests", "anchors": ["NdArray/NdArray/io/_impl/NpyMmap.icpp createMmapNpy", "NdArray/NdArray/io/_impl/NpyMmap.icpp mmapNpy"]}
{"id": "C143", "title": "A growing memory-mapped array interrupted before its header is rewritten keeps all its elements", "statement": "When a program is killed after a memory-mapped array has changed the size of its file and before it has rewritten the header, the file opens with the old shape; each old element inside the new size is unchanged, so growing loses nothing. When the array shrinks, access to the elements outside the new size is access behind the end of the file; and when the program is killed inside the header, the shape can be neither the old nor the new one (both are proved as counterexamples).", "quantifier": "every history of creating, opening, assigning and resizing, every new shape", "why_tests_cant": "the state between changing the size and rewriting the header is not observable by a test of a running program", "anchors": ["NdArray/NdArray/io/_impl/NpyCommon.h MappedContainer::resize", "NdArray/NdArray/io/_impl/NpyMmap.icpp mmapNpy"]}
{"id": "C144", "title": "ASCII table left by an interrupted write", "statement": "When a program that writes comments and tables with AsciiWriter is killed at any moment, the file holds the preamble (comments, column descriptions and names) and then one line per row, cut somewhere. If the first row is complete, AsciiReader::read(n), for n not above the number of complete rows, returns the columns that were written and the first n rows; reading everything either throws or returns all the complete rows followed by at most one more, and exactly the complete rows when the file ends with a complete one. If no character of the first row was written and the comment indicator is one character, every read throws. The row that was cut may be read with a wrong value, a file cut in its first row may be read as a table with fewer columns, and with a longer indicator its first character may be read as a row.", "quantifier": "every comment indicator, comments, tables, rows and printed form of the numbers that the format carries, every number of characters that reached the file, every number of rows asked for", "why_tests_cant": "the moment of the interruption ranges over all characters of an arbitrary file; tests read complete files", "anchors": ["Table/src/lib/AsciiWriter.cpp: AsciiWriter::init, append, addComment", "Table/src/lib/TableWriter.cpp: TableWriter::addData", "Table/src/lib/AsciiReader.cpp: AsciiReader::readColumnInfo, readImpl", "Table/src/lib/AsciiReaderHelper.cpp: countColumns, autoDetectColumnNames"]}
{"id": "C145", "title": "The columns of an ASCII file are those its comments announce", "statement": "Reading an ASCII file that nobody's writer made: when the last comment before the data has as many words as the first line of data, these words are the names of the columns, and each column has the type of the description with its name, or string. Otherwise the descriptions (# Column: name type) give the first names and types in their order and the other columns are called colN and hold strings. With neither, all columns are called col1, col2, ... and hold strings. A file without data cannot be read. The table that is read has these columns. (With three columns described only by name and type the last description is taken for a line of names: refuted.)", "quantifier": "all comment indicators that can be told from the layout, all comments, descriptions, lines of names and data, all numbers of columns, with or without fixed names and types", "why_tests_cant": "The header is interpreted by counting words and by matching names between lines; tests have a few headers.", "anchors": ["Table/src/lib/AsciiReader.cpp: readColumnInfo, getInfo", "Table/src/lib/AsciiReaderHelper.cpp: countColumns, autoDetectColumnNames, autoDetectColumnDescriptions"]}
{"id": "C146", "title": "Column names and types fixed by the user are obeyed or refused", "statement": "fixColumnNames accepts exactly lists of different, non empty names without vertical white space, as many as the types fixed before, and only before reading starts; fixColumnTypes accepts exactly lists as long as the names fixed before, before reading starts. Whatever the file holds, a table that is read has exactly the fixed names and types. When their number is not the number of columns of the data, nothing can be read. After any read, skip or request for columns or comment the calls throw and change nothing. A refused call does change the reader: nothing can be read from it afterwards.", "quantifier": "all files, all lists of names and types, all orders of calls, all numbers of rows", "why_tests_cant": "The names are stored before they are checked and are combined with what is found in the file; a test sees a few lists.", "anchors": ["Table/src/lib/AsciiReader.cpp: fixColumnNames, fixColumnTypes, setCommentIndicator, readColumnInfo"]}
{"id": "C147", "title": "The spellings accepted in ASCII cells are exactly the documented ones", "statement": "In a column of booleans exactly true, t, yes, y, 1 and false, f, no, n, 0 are accepted; in integer columns exactly an optional sign and decimal digits within the range of the type; in vector columns the elements separated by commas, empty ones skipped; in array columns the lengths in angle brackets followed by the elements, as many as the product of the lengths (computed with 32 bits); in string columns everything. All other texts throw. The names of the types in descriptions are exactly the listed ones. (Negative lengths are accepted: refuted.)", "quantifier": "all texts, all types", "why_tests_cant": "There are infinitely many texts; rejecting all others cannot be tested.", "anchors": ["Table/src/lib/AsciiReaderHelper.cpp: convertToCellType, convertStringToVector, convertStringToNdArray, keywordToType"]}
{"id": "C148", "title": "Iterators over an array are random access iterators", "statement": "For an iterator over an NdArray or a view of it: advancing by n, going back by n, ++ and --, it + n and it[n] all designate the element n steps further in iteration order; end - begin is the number of elements; the difference of two iterators is the number of steps between them; ordering comparisons agree with that difference; writing through an iterator changes that element and no other. Iterators of two different views are compared by steps, not by place in the buffer.", "quantifier": "every built array and view, every position and every offset that stays inside, every value written", "why_tests_cant": "the tests walk a couple of arrays from begin to end; arithmetic has to agree for all shapes, strides and pairs of positions", "anchors": ["NdArray/NdArray/NdArray.h: NdArray::Iterator", "NdArray/NdArray/_impl/NdArray.icpp: NdArray::Iterator operators"]}
{"id": "C149", "title": "A table written without column information", "statement": "After showColumnInfo(false) the file holds the comments, the names and the rows. A reader given the types of the columns reads back the same names, these types and every row, with empty units and descriptions. A reader given nothing finds the same names and takes every column for text. After the first comment or table has been written, showColumnInfo and setCommentIndicator are refused.", "quantifier": "every list of comments, every list of tables with the same columns that the format carries, every comment indicator", "why_tests_cant": "the tests compare one or two literal files; that names and rows survive without the descriptions must hold for all tables", "anchors": ["Table/src/lib/AsciiWriter.cpp: showColumnInfo, append", "Table/src/lib/AsciiReader.cpp: fixColumnTypes, readColumnInfo, readImpl", "Table/src/lib/AsciiReaderHelper.cpp: autoDetectColumnNames"]}
{"id": "C150", "title": "The mode of a file handler", "statement": "isReadOnly() of a handler is true until the first request for writing. A request that gets the lock of its file sets the mode to the one it asks for, even when it then throws or never returns; no other call, and no call on another handler, changes it. As long as an accessor lives, the mode is that of the accessor.", "quantifier": "every history of getAccessor, release, closeAll and destruction calls, every limit and every answer of the operating system", "why_tests_cant": "the tests look at the mode after a handful of requests; that nothing else changes it has to hold after any history", "anchors": ["FilePool/src/lib/FileHandler.cpp: FileHandler::isReadOnly", "FilePool/FilePool/_impl/FileHandler.icpp: getWriteAccessor, getReadAccessor"]}
{"id": "C151", "title": "Linear interpolation in double precision is total, exact where it can be and close elsewhere", "statement": "For at least two points with finite abscissae in ascending order, the function returned by interpolate(x, y, LINEAR, extrapolate) and the function simple_interpolation return for every finite argument: 0 out of the range of the points without extrapolation, and else the value of the line through the two points around the argument, computed in double precision; strictly between two points both give the same number. A finite value differs from the real line by at most 9*2^-53 times the sizes of the terms of the computation (plus underflow), if the abscissae are not more than 2^1023 apart. Points with equal ordinates give exactly this ordinate; integers up to 2^25 with integer slopes give the exact integer; between two points that do not descend the values do not descend. The curve does not always go through its points, can exceed all of them, can fall where the points rise, can be 0 for points too far apart and not a number for large finite ordinates; a NaN argument makes the function of interpolate read outside of its array.", "quantifier": "All lists of points, both values of extrapolate, all finite arguments (and NaN and infinity where stated)", "why_tests_cant": "Rounding errors depend on every bit of the inputs: tests compare a few values with a tolerance and cannot show that no input leaves the bound, nor that the search never falls outside of the arrays.", "anchors": ["MathUtils/src/lib/interpolation/interpolation.cpp: interpolate, simple_interpolation", "MathUtils/src/lib/interpolation/linear.cpp: linearInterpolation", "MathUtils/src/lib/function/Piecewise.cpp: operator()", "MathUtils/src/lib/function/Polynomial.cpp: operator()"]}
{"id": "C152", "title": "Map distances and best matching units in double precision", "statement": "For finite arrays the distance of two arrays is never NaN and never negative, it is exactly the same for both orders of the arrays, and it is 0 for equal arrays. When it does not overflow and no difference of components is so small that its square underflows, its square is the sum of the squared differences up to one relative rounding error of 2^-53 for each of ND + 5 operations. The cell findBMU returns is the first one no other cell is closer than in the computed distance, whatever the distance function gives (also NaN), and it is (0, 0) with the largest double when no distance is below that; up to the rounding errors it is nearest in the true distance too. Different arrays may be at distance 0, distances may overflow, and an uncertainty of 0 hides the cell that equals the input.", "quantifier": "all arrays of finite doubles of every length, all maps of every size and all distance functions", "why_tests_cant": "Rounding, overflow and underflow depend on the values of every component; tests compare a few small integers.", "anchors": ["SOM/SOM/Distance.h: L2::distance", "SOM/SOM/_impl/SOM.icpp: findBMU_impl"]}
{"id": "C153", "title": "Training a map in double precision keeps the weights in the range of the data", "statement": "With neighbourhood and learning factors between 0 and 1 the training never moves a weight away from the input, and a step gives the weighted mean of the weight and the input up to a fixed number of rounding errors. However many iterations and objects there are, all weights stay finite and within the range of the data and of the initial weights up to 2^-51 of the largest absolute value: the errors do not accumulate. The linear learning factor is in (0, 1] for every number of iterations a size_t holds, so that no iteration is skipped. A weight may exceed the range by a rounding, and a weight may stay away from the input for ever.", "quantifier": "all maps, all training sets and orders of visiting them, all numbers of iterations, all distance functions and all factors in [0, 1]", "why_tests_cant": "The claim is about histories of any length of rounded operations; a test runs one training.", "anchors": ["SOM/SOM/SOMTrainer.h: SOMTrainer::train", "SOM/src/lib/LearningRestraintFunc.cpp: linear", "SOM/src/lib/NeihbourhoodFunc.cpp: linearUnitDisk"]}
{"id": "C154", "title": "Polynomials, their derivatives and integrals in double precision", "statement": "The value of a Polynomial with n coefficients differs from the true value by at most ((1 + 2^-53)^n - 1) times the sum of the absolute values of its terms, unless it overflows or terms are near the smallest doubles; for coefficients and arguments that are not negative this is a relative error. The coefficients of derivative() and indefiniteIntegral() are the true ones rounded once, the value of the derivative and integrate(a, b) differ from the true derivative and integral by at most n and n + 3 such roundings of the sum of the sizes of their terms. There is no bound on the relative error in general: the sign can be wrong.", "quantifier": "all lists of up to 2^49 coefficients and all finite arguments", "why_tests_cant": "A test compares values for a few polynomials with a tolerance; the error bound is about all coefficients, degrees and arguments.", "anchors": ["MathUtils/src/lib/function/Polynomial.cpp: operator(), derivative, indefiniteIntegral", "MathUtils/src/lib/function/Differentiable.cpp: integrate"]}
{"id": "C155", "title": "Cubic splines in double precision are smooth up to rounding, but their values are not", "statement": "For at least two points with finite abscissae in ascending order interpolate(x, y, CUBIC_SPLINE, extrapolate) returns a function that has a value for every finite argument, 0 out of the range of the points without extrapolation. There are numbers c_i such that the piece after the point i is the cubic through it with second derivative 2 c_i there: if no distance between neighbours is extreme, the cubic goes through the next point, has the second derivative 2 c_(i+1) there and the slope of the next cubic, all up to a fixed number of roundings of the sizes of the terms, however many points there are; c is 0 at both ends. The value returned differs from the cubic by at most 8 roundings of the sum of the sizes of its terms in powers of |x| + |x_i|. As this sum is large far from the origin, values there are useless: the points (10^6, 0), (10^6 + 1, 1), (10^6 + 2, 0) give -128, -256 and -128.", "quantifier": "all lists of points, both values of extrapolate and all finite arguments", "why_tests_cant": "The errors of an elimination over all points could accumulate with their number; a test looks at one list of points near the origin.", "anchors": ["MathUtils/src/lib/interpolation/spline.cpp: splineInterpolation", "MathUtils/src/lib/interpolation/interpolation.cpp: interpolate", "MathUtils/src/lib/function/Piecewise.cpp: operator()"]}
{"id": "C156", "title": "Numerical integration in double precision stays inside the range and rounds like its sums", "statement": "Integrating with Simpson's rule, refining an integral, or integrating adaptively, between two finite ends whose difference is a double and is zero or at least 2^-990: the result depends on the values of the function between the ends only. When it is finite, every value of the function that was used is finite, the points lie within 5 roundings of the mesh, and the result is the rule applied to these values up to a relative error of N + 1 roundings of the sum of the sizes of its terms (N/2 + 5 for a refinement). The adaptive integration throws for an order below 3, returns the first estimate whose computed relative change is not above the precision, and has undefined behaviour if there is none up to order 30; it returns a finite number only if all the estimates were finite, stops at once when an estimate is infinite or not a number, and gives zero for a function that is zero. (Refuted: staying inside when the length of the range overflows or is among the smallest doubles.)", "quantifier": "every function on doubles, every pair of ends, order, precision and previous value", "why_tests_cant": "A test integrates a few smooth functions on ordinary ranges with tolerances; it does not reach the ranges whose length overflows or vanishes, functions that are not finite somewhere, nor the accumulation of rounding over up to 2^30 terms.", "anchors": ["MathUtils/src/lib/numericalIntegration/SimpsonsRule.cpp: SimpsonsRule::operator()", "MathUtils/MathUtils/numericalIntegration/_impl/AdaptativeIntegration.icpp: AdaptativeIntegration::operator()"]}
{"id": "C157", "title": "Integration of piecewise polynomials in double precision", "statement": "The integral of the function returned by interpolate (linear or spline, two points or more) between two numbers, finite or infinite, is computed as the sum in the order of the pieces of the integrals of the polynomials over their parts of the interval, rounded at each addition; pieces outside of the interval, and the part of the interval outside of the knots, do not count. Exchanging the bounds changes the sign and nothing else, equal bounds give 0. When the result is finite and no term is tiny, it differs from the exact integral of the piecewise function by at most (1 + 2^-53)^(3 + L + m) - 1 times the sum of the sizes of the terms, for m pieces of at most L coefficients. That size is not the integral: the integral of a positive interpolated function can be negative (-4 for 5), and integrals over neighbouring intervals need not add up. A NaN as the first bound gives 0 and one as the second bound is taken for infinity. The constant returned for a single point cannot be integrated without a numerical scheme.", "quantifier": "all knots in ascending order, all polynomials, all bounds", "why_tests_cant": "All positions of the bounds relative to the knots and all roundings of all doubles.", "anchors": ["MathUtils/src/lib/function/Piecewise.cpp: Piecewise::integrate", "MathUtils/src/lib/function/Differentiable.cpp: integrate", "MathUtils/src/lib/function/function_tools.cpp: integrate"]}
{"id": "C158", "title": "The modes extracted from a pdf in double precision", "statement": "With the rounding of the processor, and for any doubles with NaN and infinities among them: extractNHighestModes returns exactly n modes, and extractNBigestModes with n >= 1 ends within 3n+2 rounds with n to 3n+2 modes, none before one of a bigger area, that are the biggest of the rounds made. For a pdf with values from 0 on at rising finite abscissae: the first mode has its peak at the first of the highest samples, reaches on both sides until a zero, a valley under the rounded threshold (1 - merge_ratio) * peak or the border, and the other modes are those of the pdf without it; peaks come by decreasing height and at different samples; the area of a mode of k samples is within k + 3 roundings of the exact one and its mean within 3k + 11 roundings relative to the mean size of the abscissae, when nothing overflows or gets near the smallest doubles; with only zeros left the area is 0 and the mean a NaN. What rounding takes away: the rounded total area can stop extractNBigestModes before a bigger mode is found, a mean can be outside of its mode, and the interpolated position can be at the wrong end of the sampling or a NaN.", "quantifier": "all vectors of doubles of the same length of at least three, all merge ratios, all n; the values of areas and means for all pdfs without underflow", "why_tests_cant": "The rounding errors depend on all the samples, and the comparisons with rounded thresholds and totals on every bit of them.", "anchors": ["MathUtils/src/lib/PDF/PdfModeExtraction.cpp: extractNHighestModes, extractNBigestModes, findMaximumIndex, catchPeak, avgArea, getInterpolationAround, flatternPeak"]}
{"id": "C159", "title": "Numerical derivatives in double precision", "statement": "With IEEE double arithmetic derivative(f, x) and derivative2nd(f, x) are defined for every function and every finite x but the largest double. They look at f at x and at x + h (and x - h), where h is positive, the distance of x + h and x up to 2^-51 (exactly unless x is next to 0), and never so small that x + h is x. If f is computed up to delta and its derivative varies by at most w over the step, a finite first derivative is within w + 2^28 delta (and 2^-50 of the terms) of the real derivative; the second derivative, for |x| <= 2^36, is within 4w + 2^29 (delta + 2^-53 |f| + 2^-53 (|x| + 1) |f'|) + 2^-38 (|x| + 1) |f''| of the real one. Constants have the derivatives 0. At the largest double the first derivative is NaN, from 2^566 on the second is 0 or NaN whatever the function, and since x - h and x + h need not be at the same distance of x, a line can have a second derivative other than 0: 4096 for t + 2^41 at -2^41.", "quantifier": "all functions from doubles to doubles, all finite arguments, all real functions they approximate, all error bounds", "why_tests_cant": "The step depends on the rounding of the argument: tests try a few arguments of ordinary size, where x + h and x - h are exact.", "anchors": ["MathUtils/src/lib/numericalDifferentiation/FiniteDifference.cpp: guess_h, derivative, derivative2nd"]}
{"id": "C160", "title": "The inverse of a continuous cumulative, in double precision, has p of the area at its left up to rounding", "statement": "For a density sampled at two knots or more (no knot above the next one, no negative value, each number 0 or of a size between 2^-100 and 2^100) the inverse cumulative can be built, and for every probability p in [0, 1] the build without assertions returns a value. A finite value r that is returned belongs to a segment such that the area below the density (extended as a line beyond the segment) up to r is p times the whole area, with an error of at most about (4 n + 400) 2^-53 times the whole area plus the first value of the density plus the condition of the segment: (h + s d)^2 / s for a density of greatest value h and slope s on a segment whose knots are at most d from 0, and h d for a flat one. With assertions what is returned is finite, within 2e-8 (and some roundings of the knots) of that segment, and the same as without them. The probability 0 gives the first knot; 1 gives a knot when the density starts with 0, and the last one if the last segment has 2^-50 of the area or more. Probabilities outside of [0, 1] and knots out of order throw. The condition matters: for the knots 1e9 and 1e9 + 1 every quantile below 1 of a rising density is 1e9; the result can be a NaN, and outside of the knots.", "quantifier": "all numbers and values of the knots in the stated range, all probabilities, builds with and without assertions", "why_tests_cant": "The error depends on cancellation in the quadratic formula, on the index found in rounded sums and on which of two roots is taken; tests use a few well conditioned densities and a tolerance.", "anchors": ["MathUtils/MathUtils/helpers/_impl/InverseCumulative.icpp", "MathUtils/src/lib/helpers/Solvers.cpp", "MathUtils/MathUtils/helpers/InverseCumulative.h"]}
{"id": "C161", "title": "Photometry objects that share their filter names", "statement": "Many photometry objects can point to one vector of filter names, each with its own values. After any sequence of constructions, refused constructions, copies, assignments through iterators and renamings of filters, in which no vector of names changes its length, iterating over an object visits every filter name in order with the value of that object at the same position, size() and end() - begin() both give the number of visits, and find() gives the value at the first position of the name or nothing. A construction makes an object exactly when the pointer is not null and the sizes agree. Assigning through an iterator changes one value of one object and never a copy. Renaming a filter is seen by all the objects that share the vector, by no other, and changes no value. The code does not guard against the rest: if the shared vector grows afterwards, iteration and find() read past the values; if it shrinks, size() and end() - begin() differ and values are missed; and iterators of different objects that share their names compare equal at the same position although they refer to different values.", "quantifier": "every sequence of operations on any number of name vectors and objects, every position, name and value", "why_tests_cant": "aliasing: the effect of one operation on all other objects, for every history; tests build one object", "anchors": ["SourceCatalog/SourceCatalog/SourceAttributes/Photometry.h: Photometry, PhotometryIterator", "SourceCatalog/SourceCatalog/_impl/Photometry.icpp: PhotometryIterator::operator++, operator==, operator*, operator-, filterName", "SourceCatalog/src/lib/Photometry.cpp: find, getFilterNames"]}
{"id": "C162", "title": "Interpolation on a grid in double precision", "statement": "For axes with knots in ascending order, an N-dimensional interpolator can be built and returns for all finite arguments, in any number of dimensions, with continuous and discrete axes in any order. Inside the grid its result, when it is finite, differs from the exact multilinear interpolation of the values by at most a sum with one term per continuous axis, each a few units in the last place of (1 + 4 kappa) M, where M bounds the values and kappa is the size of the knots over their distance; with knots of a usual size and values far from the largest double the result is finite. Equal values are reproduced exactly, inside the grid and, with extrapolation, everywhere. Without extrapolation the result is zero as soon as one argument is outside of the knots of its axis. The following are false: that the order of the axes does not matter, that the values are reproduced at the nodes, that equal knots are refused or handled (values that are all 5 give 3 there), and that knots out of order are refused when there are NaNs among them.", "quantifier": "every number of axes, all knots, all values including infinities and NaN, all finite arguments", "why_tests_cant": "rounding errors compound through the nested interpolations: no finite set of grids shows a bound for all of them", "anchors": ["MathUtils/MathUtils/interpolation/_impl/GridInterpolation.icpp: InterpN, InterpolationImpl", "MathUtils/src/lib/interpolation/interpolation.cpp: simple_interpolation"]}
{"id": "C163", "title": "The interpolation of an N-dimensional array in double precision is close to the multilinear one", "statement": "For axes of finite knots in ascending order and an array whose dimensions are those of the axes in the same order, the function built by interpn returns, in double precision, at every point inside the grid a finite number that differs from the multilinear interpolation of the array by at most a budget to which every axis adds a few units in the last place of (1 + 4 kappa) times the largest value; equal values are reproduced exactly; without extrapolation the result is exactly zero outside; a NaN argument gives NaN over axes with two knots at least unless another argument makes the result zero. The function is built exactly when the kind is linear, the dimensions match in order, and no knot of an axis but the first is smaller than the one before; otherwise the construction throws.", "quantifier": "for all numbers and lengths of axes, all arrays, finite or NaN arguments and both settings of extrapolation", "why_tests_cant": "A test looks at a few arrays with knots that are small integers, where nothing is rounded; the bound has to hold for every number of axes, every spacing of the knots and all values.", "anchors": ["MathUtils/MathUtils/interpolation/_impl/interpolation.icpp:InterpNAdapter", "MathUtils/MathUtils/interpolation/_impl/interpolation.icpp:interpn", "MathUtils/MathUtils/interpolation/_impl/GridInterpolation.icpp:InterpN"]}
{"id": "C164", "title": "The expansion rate and the Hubble distance in double precision", "statement": "The expansion rate E(z) computed in double precision is finite and within a relative error of 2^-48 of the square root of Omega_m (1+z)^3 + Omega_k (1+z)^2 + Omega_Lambda, for densities of a usual size, redshifts from 0 to 2^100 and a space that is not closed by much; in a space that is not closed it never falls when the redshift grows, in spite of the rounding, and so the integrand of the comoving distance never grows. The curvature is stored with an error of at most 2^-52, and is exactly zero, with a rate of today of exactly one, when the two densities add up to one. The Hubble distance is right up to three units in the last place, and the comoving distance is its product with the first estimate of the integral that differs little from the one before.", "quantifier": "for all densities, Hubble constants, redshifts and precisions", "why_tests_cant": "Rounding differs from one redshift to the next; tests compare a few values with tabulated ones to a few digits.", "anchors": ["PhysicsUtils/src/lib/CosmologicalDistances.cpp:hubbleParameter", "PhysicsUtils/src/lib/CosmologicalDistances.cpp:hubbleDistance", "PhysicsUtils/src/lib/CosmologicalDistances.cpp:comovingDistance", "PhysicsUtils/src/lib/CosmologicalParameters.cpp:CosmologicalParameters"]}
{"id": "C165", "title": "Integrals in double precision against the true integral", "statement": "A finite result of the adaptive integration in double precision of a program f that computes a real function F up to a known error is within an explicit distance of the integral of F. The rounding errors do not pile up over the refinements: after each of them the estimate is within three times the length of the range times the error of the values, plus three times the rounding of N+1 operations on the size of the integral, of the value Simpson's rule gives with real numbers and N parts. With the error of the rule itself this bounds the distance to the integral for monotone functions (proportional to the step) and for functions with four derivatives (proportional to the fourth power of the step). For the comoving distance of a space that is not closed the bound holds with the integral of one over the expansion rate, values with a relative error of 2^-47 and at least sixteen parts.", "quantifier": "for all functions with a bounded slope, ranges of doubles of length 2^-600 or more, precisions, initial orders, and for all cosmologies of usual size that are not closed", "why_tests_cant": "Bounds on the error of every function and range; tests compare a few integrals with known values.", "anchors": ["MathUtils/src/lib/numericalIntegration/SimpsonsRule.cpp", "MathUtils/MathUtils/numericalIntegration/_impl/AdaptativeIntegration.icpp", "PhysicsUtils/src/lib/CosmologicalDistances.cpp:comovingDistance"]}
{"id": "C166", "title": "Initial weights of a self-organizing map", "statement": "A self-organizing map takes its initial weights from the initialization function it is given, in a fixed order: the weights of a cell one after the other, the cells by increasing x and then y. It works on a copy of the function: in any program, the weights are the values that follow the calls the program itself has made since it got the function, however many maps were built meanwhile; so two maps of one size built from one function object, even a random one, start with the same weights. uniformRandom is not seeded: two functions it returns for the same limits give the same weights in every program. All weights from uniformRandom(min, max) are at least min and at most min plus the rounded width max - min; for the limits 0 and 1 they are below 1 and within 2^-50 of the numbers that successive pairs of values 16807^j mod 2^31-1 stand for, but for other limits a weight can be the upper limit itself. Weights from normalDistribution with a positive sigma lie on the side of mu that the standard normal value drawn for them has. Without a function all weights are 0.", "quantifier": "every initialization function with a state of its own, every program that assigns it, calls it and builds maps from it in any order, every size of the map and number of weights, every finite limits in double precision, every seed and generator of standard normal values", "why_tests_cant": "a test builds a few maps and cannot tell whether all programs get independent or equal weights, nor that no value out of the whole sequence of the engine leaves the limits after rounding", "anchors": ["SOM/src/lib/InitFunc.cpp: zero, normalDistribution, uniformRandom", "SOM/SOM/InitFunc.h: Signature", "SOM/SOM/_impl/SOM.icpp: SOM::SOM"]}
{"id": "C167", "title": "Several ASCII tables in one stream", "statement": "Writers that are given the same output stream add their comments and tables one after the other. Readers that take turns on a stream with what they wrote, each with the comment indicator of its part and asked for the number of rows of its part, return these tables in order, each with its own columns and rows, whatever follows in the stream, and leave the stream just after the last row read. The number of rows matters: a reader asked for everything can return rows of the next table under its own columns, and after a reader that stopped early the next one takes the remaining rows for a table without names.", "quantifier": "every number of parts, each with any comments and any number of tables with the same columns that the format can carry, any comment indicators, any contents of the stream before and after", "why_tests_cant": "a test writes one table per stream; whether the next reader starts at the right place depends on all the lines before and after", "anchors": ["Table/src/lib/AsciiWriter.cpp: AsciiWriter::AsciiWriter(std::ostream&), init, append", "Table/src/lib/AsciiReader.cpp: AsciiReader::AsciiReader(std::istream&), readImpl, getInfo", "AlexandriaKernel/AlexandriaKernel/_impl/InstOrRefHolder.icpp: RefHolder_Impl"]}
{"id": "C168", "title": "Solving a quadratic or linear equation", "statement": "solveSquare(a, b, c, y) returns the solutions of y = a x^2 + b x + c. With exact arithmetic: if a is not 0 and there is a solution, the two numbers are all of them, the smaller first; without a real solution there is no number to return (a NaN in the program); if a is 0 and b is not, both are the only solution; if both are 0 an exception is thrown, and only then. In double precision, for a between 2^-100 and 2^100 in size, a finite number returned solves the equation up to 400 roundings (2^-53) of |y - c| + |a| (b / 2a)^2 (each term padded with 2^-300), and for a = 0 up to two roundings of |y - c| and an underflow. The term with b matters: a small solution can be lost to cancellation (0 = x^2 + 2^60 x + 1 gives 0), and the square of b / 2a can overflow.", "quantifier": "all real coefficients; all finite double coefficients with the stated range of a", "why_tests_cant": "the error depends on the cancellation between the root and b / 2a and on rounding in six operations; tests compare a few small integers", "anchors": ["MathUtils/src/lib/helpers/Solvers.cpp: solveSquare", "MathUtils/MathUtils/helpers/Solvers.h: solveSquare"]}
