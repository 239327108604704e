# A Rocq model of nikoapos/Alexandria

The source in /repo is read as text. Nothing is compiled or run. Each C++ module
that carries a property has these files in `rocq/theories`:

| file | content |
|---|---|
| `XxxModel.v` | total Gallina functions following the code, each with a comment citing file and lines, no proofs |
| `XxxSpec.v` | small independent vocabulary used by the statements |
| `XxxProofs*.v` | lemmas |
| `XxxProps.v` | the property theorems, `Print Assumptions`, `Example`s showing that hypotheses are met, and refutations |

`Common.v` defines the outcome of a C++ call: `Ok a`, `Throw` (a C++ exception),
`UB` (undefined behaviour: out-of-range access, division by zero, dereferencing
`end()`), `Diverge` (unbounded recursion or a lock that can never be acquired).
Undefined behaviour is never assumed away: it is an outcome the theorems have to
rule out under stated preconditions.

`seeded/LOG.jsonl` records the wrong programs the theorems were tested against: one
line per edit of a model definition, with the property theorems that no longer prove.

## Trusted base

* Coq 8.16.1's kernel, including `vm_compute` for concrete examples.
* What `Print Assumptions` lists for each theorem (section "Assumptions"). No axiom is
  added; no functors, module types or disabled kernel checks are used.
* The correspondence between the Gallina functions and the C++ text, which is
  made by hand; each definition cites the lines it models and says what it simplifies.
* Floating point: `double` is modelled by `Q` or `R`, i.e. without rounding or
  overflow. Where NaN and infinities decide a branch (photometry, table cells, histogram
  edges, SOM distances) they are constructors of the type `dbl`. Conversions between
  doubles and text (`strtod`, `operator<<`) are arguments of the model.
* Machine integers: `nat`/`Z` without overflow, except where the width decides an
  outcome (element counts of `NdArray` and npy files, `linearUnitDisk`, `FitsReader`,
  Simpson's `2^order`, casts of cells), where it is written as a bound or `mod 2^n`.
* Strings are lists of 8-bit characters, streams are the list of characters still to be
  read, files are lists of bytes or of entries. The C locale is assumed.
* Concurrency: sequentially consistent interleaving of the atomic steps the code takes
  between synchronisation points. `m_exception_ptr` of the thread pool is not atomic in
  the code (a data race); the model treats its accesses as atomic. Calls of the file
  manager are atomic in `FilePoolModel` except for the two critical sections of `open`.
* Libraries: the standard library and boost functions used by the modelled code follow
  their documentation. CCfits is a store of columns (`FitsModel.v`), boost serialization
  a sequence of values (`GridModel.v`, `SOMModel.v`), a file system a tree of directories
  and files (`XYModel.v`), random numbers an arbitrary sequence.

## Properties

The statement of each property is in `properties.jsonl`, the full list of theorems in
`MANIFEST.json`. A theorem whose name ends in `_refuted` shows that a natural stronger
statement is false of the code; the property itself is stated so that it is true.

| id | property | theorems in | n | how it is modelled and proved |
|---|---|---|---|---|
| C01 | Grid coordinates and linear cell index are inverse of each other | `GridProps.v` | 1 | `GridModel`, induction over the axes (mixed radix); Grids with at least one knot per axis. |
| C02 | at() accepts exactly the in-range coordinates and returns the addressed cell | `GridProps.v` | 1 | `GridModel`, induction over the axes (mixed radix); Any chain of successful fixAxis calls; coordinate tuples of the right arity. |
| C03 | Iterating a grid or slice visits exactly the matching cells once, in order | `GridProps.v` | 2 | `GridModel`, induction over the axes (mixed radix); Every axis non-empty; the refuted theorem shows that this is needed (undefined behaviour otherwise). |
| C04 | Incrementing a fixed iterator moves to the next matching cell | `GridProps.v` | 1 | `GridModel`, induction over the axes (mixed radix) |
| C05 | Writes through a slice reach the parent grid and nothing else | `GridProps.v` | 2 | `GridModel`, induction over the axes (mixed radix) |
| C06 | Fixing an axis validates its argument; slice metadata | `GridProps.v` | 4 | `GridModel`, induction over the axes (mixed radix); The metadata statement holds for one fixed axis; the refuted theorem shows that it fails for a slice of a slice. |
| C07 | infimum finds the greatest knot not above the value | `GridProps.v` | 2 | `GridModel`, induction over the axes (mixed radix) |
| C08 | Grid to table conversion lists every cell exactly once with its coordinates | `GridProps.v` | 2 | `GridModel`, induction over the axes (mixed radix); Unsliced grids and slices of one axis; a slice of a slice throws. |
| C09 | Grid serialization round trip | `GridProps.v` | 4 | `GridModel`, induction over the axes (mixed radix); Archive as a token stream. A saved slice of a slice cannot be loaded. |
| C10 | Fixing an axis of a moving iterator | `GridProps.v` | 2 | `GridModel`, induction over the axes (mixed radix) |
| C11 | NdArray element addressing is in bounds and injective | `NdArrayProps.v` | 4 | `NdArrayModel`, heap of containers with views of offset and strides, invariants over view chains; at() of arrays made by the shape constructors, for every shape and coordinate vector; the attribute accessor; refutation for attribute names after slice(). |
| C12 | NdArray iteration is row-major for arrays and views | `NdArrayProps.v` | 4 | `NdArrayModel`, heap of containers with views of offset and strides, invariants over view chains; Every array and every chain of slice/rslice views, element count below 2^31; operator==; refutation for the post-increment operator. |
| C13 | Slices of an NdArray alias the parent | `NdArrayProps.v` | 3 | `NdArrayModel`, heap of containers with views of offset and strides, invariants over view chains; Reads and writes through two arbitrary view chains of one array; outcomes of slice and rslice. |
| C14 | reshape keeps the element sequence | `NdArrayProps.v` | 4 | `NdArrayModel`, heap of containers with views of offset and strides, invariants over view chains; Contiguous arrays and slice views; exact refusal condition modulo 2^32; refutations for rslice views and for the 32-bit wrap. |
| C15 | concatenate appends along the first axis | `NdArrayProps.v` | 4 | `NdArrayModel`, heap of containers with views of offset and strides, invariants over view chains; Receiver built by a constructor, argument any view (possibly sharing the container); stale size() is part of the theorem; refutations for iteration afterwards and for concatenating onto a slice. |
| C16 | copy is independent of the original | `NdArrayProps.v` | 3 | `NdArrayModel`, heap of containers with views of offset and strides, invariants over view chains; Arrays made by a constructor; refutation for slices. |
| C17 | Element count arithmetic wraps at 32 bits | `NdArrayProps.v` | 2 | `NdArrayModel`, heap of containers with views of offset and strides, invariants over view chains; All shapes and data; refutation with 2^32 elements and no data. |
| C18 | Reductions: sum, argmax, argmin, unravel_index | `NdArrayProps.v` | 8 | `NdArrayModel`, heap of containers with views of offset and strides, invariants over view chains; sum, argmax, argmin (every strict weak order), unravel_index, sum along an axis, trapz; element arithmetic is a parameter. |
| C19 | npy write/read round trip | `NpyProps.v` | 7 | `NpyModel`, bytes as lists, printer/parser round trip; round trip of every view through writeNpy and readNpy with any element bytes and any following bytes; wrong type and mismatching names throw; truncated files, names with quotes, brackets or keywords, name-only and empty arrays are refuted |
| C20 | npy data section is 64-byte aligned | `NpyProps.v` | 3 | `NpyModel`, bytes as lists, printer/parser round trip; every written header is a multiple of 64 bytes with the exact recorded length; an aligned header gets 64 needless bytes (refuted minimality) |
| C21 | KdTree radius search equals the exhaustive search | `KdTreeProps.v` | 4 | `KdTreeModel` over Q, structural induction; Rational coordinates, with and without an abstract monotone rounding of the distances. A negative radius is squared and behaves like its absolute value (refuted theorem). |
| C22 | Edge binning puts every value in its half-open bin | `HistProps.v` | 4 | `HistModel` over Q, induction over the data; Non-decreasing edges, values of type double including the infinities. NaN is counted in the last bin (C22_nan_refuted). |
| C23 | Histogram counts are conserved | `HistProps.v` | 4 | `HistModel` over Q, induction over the data; Exact arithmetic on the weights. Fewer weights than values is undefined behaviour (C23_missing_weights_refuted). |
| C24 | Clipping never widens and keeps a valid bin range | `HistProps.v` | 7 | `HistModel` over Q, induction over the data; Also: values between the bounds stay visible. A range next to the histogram is ignored (C24_disjoint_refuted), getBins and getEdges ignore clipping (C24_bins_refuted). |
| C25 | ThreadPool starts tasks in submission order, each at most once | `ThreadPoolProps.v` | 3 | `ThreadPoolModel`, transition system, inductive invariants over all reachable states; all interleavings; the order of the calls themselves (not of taking from the queue) can be inverted with two threads (refuted companion) |
| C26 | block() without exception waits for all submitted tasks | `ThreadPoolProps.v` | 3 | `ThreadPoolModel`, transition system, inductive invariants over all reachable states; stronger than stated in the documentation: submissions meanwhile are allowed for tasks submitted before the call; companion counterexample for tasks submitted during block; deadlock freedom |
| C27 | A failing task stops the pool and reaches the caller of block | `ThreadPoolProps.v` | 4 | `ThreadPoolModel`, transition system, inductive invariants over all reachable states; all interleavings, any number of failing tasks |
| C28 | Destruction leaves no running task | `ThreadPoolProps.v` | 3 | `ThreadPoolModel`, transition system, inductive invariants over all reachable states; all interleavings, and the destructor is never stuck |
| C29 | The number of open files never exceeds the limit | `FilePoolProps.v` | 6 | `FilePoolModel`, manager and handlers as state machines, invariants over histories; Calls are atomic; the two critical sections of open() are looked at separately (bound and refutation for n threads). |
| C30 | The least recently used closable file is evicted | `FilePoolProps.v` | 3 | `FilePoolModel`, manager and handlers as state machines, invariants over histories; The self-deadlock at the limit is a separate outcome, shown reachable. |
| C31 | A file in use is never closed | `FilePoolProps.v` | 2 | `FilePoolModel`, manager and handlers as state machines, invariants over histories |
| C32 | Writers are exclusive | `FilePoolProps.v` | 2 | `FilePoolModel`, manager and handlers as state machines, invariants over histories |
| C33 | Try-mode accessors | `FilePoolProps.v` | 2 | `FilePoolModel`, manager and handlers as state machines, invariants over histories |
| C34 | One handler per path while it is alive | `FilePoolProps.v` | 3 | `FilePoolModel`, manager and handlers as state machines, invariants over histories; The first part holds when the deleter runs at once; refuted for a request in between. |
| C35 | Piecewise functions evaluate the right piece | `FunProps.v` | 6 | `FunModel` over R, Coquelicot derivatives and integrals; Over real numbers. Refuted: a piecewise function of one knot is accepted and has no defined value; equal knots are accepted. |
| C36 | Integration of piecewise functions is exact | `FunProps.v` | 2 | `FunModel` over R, Coquelicot derivatives and integrals; Over real numbers, for functions made of polynomials; other functions throw without a numerical scheme. |
| C37 | Polynomial calculus | `FunProps.v` | 3 | `FunModel` over R, Coquelicot derivatives and integrals; Over real numbers. |
| C38 | Products of functions | `FunProps.v` | 7 | `FunModel` over R, Coquelicot derivatives and integrals; Over real numbers; pieces that are not piecewise functions themselves. Refuted: the first knot of the product, disjoint and touching ranges, two empty polynomials. |
| C39 | Linear interpolation passes through its points and stays between them | `InterpProps.v` | 9 | `InterpModel` over R; Over real numbers. Refuted: the documented exception for steps, no points, one point without extrapolation, one point given twice with extrapolation. |
| C40 | Cubic spline interpolation | `InterpProps.v` | 3 | `InterpModel` over R; Over real numbers, strictly increasing abscissae: the natural cubic spline. |
| C41 | Simpson rule: refinement and exactness | `CosmoProps.v`, `SimpsonProps.v`, `SimpsonSmoothProps.v` | 16 | `CosmoModel` over R, bounds of Riemann sums of monotone functions, mean value theorem; Simpson's rule: defined orders, refinement from the previous order equals the direct value, exact for cubics (not quartics), bounds, orientation; the adaptive loop stops at the first order within the relative precision, which does not bound the error (refuted); the scheme is not passed on to pieces (refuted). Reals. |
| C42 | findMinInterval returns the narrowest interval with the requested mass | `CumulProps.v` | 3 | `CumulModel` over Q, loop invariants; Exact arithmetic over the rationals. |
| C43 | findValue returns the first abscissa reaching the ratio | `CumulProps.v` | 4 | `CumulModel` over Q, loop invariants; Exact arithmetic over the rationals. |
| C44 | Mode extraction returns the requested number of modes | `ModeProps.v` | 6 | `ModeModel` over Q, loop invariants; Exact arithmetic over the rationals; at least three samples (fewer: undefined behaviour, shown). |
| C45 | Inverse cumulative sampling inverts the cumulative | `CumulProps.v` | 4 | `CumulModel` over Q, loop invariants; Discrete sampler; exact arithmetic over the rationals. |
| C46 | Column lookup and table invariants | `TableProps.v` | 11 | `TableModel`, exact conditions of the constructors; Columns, rows and tables: construction succeeds iff the listed conditions hold, access returns the stored cell or throws, appended tables accumulate. |
| C47 | Quoted text survives the ASCII format | `AsciiProps.v` | 4 | `AsciiModel`, streams as lists of characters, printer/parser round trip; Quoted text, single and in sequence; the empty text is the exception (refuted companion). |
| C48 | ASCII table round trip | `AsciiProps.v` | 7 | `AsciiModel`, streams as lists of characters, printer/parser round trip; Round trip for all fifteen cell types over the stated domain (floating point cells whose printed text reads back); companions show each condition is needed. |
| C49 | Reading a table in chunks equals reading it at once | `AsciiProps.v` | 5 | `AsciiModel`, streams as lists of characters, printer/parser round trip; ASCII reader: read, skip, rowsLeft, hasMoreRows, malformed lines and sequences of chunks. |
| C50 | Column type keywords and FITS formats round trip | `AsciiProps.v`, `FitsProps.v` | 8 | `AsciiModel`, streams as lists of characters, printer/parser round trip; keywords of the ASCII format; formats and TDIM of binary FITS columns for all sizes, the exceptions of the English statement as theorems; formats of ASCII FITS tables |
| C51 | Qualified names: parsing, printing and ordering | `XYProps.v` | 6 | `XYModel`, induction over texts and trees, invariants over histories; For every hash function, collisions included. |
| C52 | belongsInGroup is the prefix relation | `XYProps.v` | 2 | `XYModel`, induction over texts and trees, invariants over histories |
| C53 | The cached provider is transparent and asks at most once | `XYProps.v` | 3 | `XYModel`, induction over texts and trees, invariants over histories; The wrapped provider may fail and may answer differently at each call. |
| C54 | Listing a group of a file system provider | `XYProps.v` | 3 | `XYModel`, induction over texts and trees, invariants over histories |
| C55 | order.txt only reorders | `XYProps.v` | 4 | `XYModel`, induction over texts and trees, invariants over histories; For trees whose order.txt files name direct entries at most once; refuted theorems show what happens otherwise. |
| C56 | Configurations are initialized after their dependencies, once each | `ConfigProps.v` | 2 | `ConfigModel`, graph reachability, depth first traversal with explicit divergence; order and exactly-once of preInitialize/initialize/postInitialize for every history with a successful closeRegistration, and the prefix executed when a hook throws; without closeRegistration initialize throws (refuted companion) |
| C57 | Circular dependencies are never accepted | `ConfigProps.v` | 4 | `ConfigModel`, graph reachability, depth first traversal with explicit divergence; closeRegistration returns iff acyclic (for enough fuel), throws only if cyclic, never UB; cycles not through the first class make it recurse for ever (finding); declared cycles make registration diverge |
| C58 | Manager life cycle | `ConfigProps.v` | 3 | `ConfigModel`, graph reachability, depth first traversal with explicit divergence; life cycle over all histories |
| C59 | Excluding filters keeps the band mappings aligned | `CatalogProps.v` | 7 | `CatalogModel`, case analysis with NaN and infinities; Distinct names: aligned after exclusion; unknown names throw; repeated names refuted (C59_aligned_refuted). |
| C60 | Catalog lookup by identifier | `CatalogProps.v` | 5 | `CatalogModel`, case analysis with NaN and infinities; Identifiers are the int64/text variant; find, iteration and getAttribute. |
| C61 | Photometry parsed from a row satisfies the error/flag contract | `CatalogProps.v` | 9 | `CatalogModel`, case analysis with NaN and infinities; Strict positivity of the error needs a finite threshold (C61_positive_error_refuted); short threshold lists are undefined behaviour (C61_defined_refuted). |
| C62 | Best matching unit | `SOMProps.v` | 4 | `SOMModel` over Q, fold invariants; First minimal cell; the all-NaN/infinite case is stated separately, with a refutation of the naive claim about the reported distance. |
| C63 | Training keeps weights inside the range of data | `SOMProps.v` | 3 | `SOMModel` over Q, fold invariants; Exact arithmetic. Needs factors in [0,1], shown for all library factors. |
| C64 | Neighbourhood disc is one-sided | `SOMProps.v` | 2 | `SOMModel` over Q, fold invariants; The disc is one-sided because of unsigned subtraction; symmetry is refuted. |
| C65 | Jackknife sampling is without replacement | `SOMProps.v` | 5 | `SOMModel` over Q, fold invariants; Includes completeness of the draws, FullSet and Bootstrap. |
| C66 | Projection counts every input once | `SOMProps.v` | 2 | `SOMModel` over Q, fold invariants |
| C67 | U-matrix uses exactly the existing neighbours | `SOMProps.v` | 2 | `SOMModel` over Q, fold invariants |
| C68 | Fixing all axes from another grid's iterator addresses the same knots | `GridProps.v` | 2 | `GridModel`, induction over the axes (mixed radix) |
| C69 | Directory provider registers each dataset under its path | `XYProps.v` | 3 | `XYModel`, induction over texts and trees, invariants over histories; The parser is an arbitrary pair of functions. |
| C70 | Path string helpers normalise slashes and extensions | `XYProps.v` | 7 | `XYModel`, induction over texts and trees, invariants over histories; Texts made of slashes only are refuted separately. |
| C71 | The program options of all configurations are grouped by name | `ConfigProps.v` | 1 | `ConfigModel`, graph reachability, depth first traversal with explicit divergence; one group per name, contents concatenated in type order |
| C72 | Pool counters never understate the pending work | `ThreadPoolProps.v` | 2 | `ThreadPoolModel`, transition system, inductive invariants over all reachable states; invariants of the counters |
| C73 | An accessor holds a descriptor of its own file, type and mode | `FilePoolProps.v` | 3 | `FilePoolModel`, manager and handlers as state machines, invariants over histories |
| C74 | No open file is lost by the pool | `FilePoolProps.v` | 3 | `FilePoolModel`, manager and handlers as state machines, invariants over histories; Refuted without the assumption on types. |
| C75 | A training step moves each weight by the stated fraction | `SOMProps.v` | 2 | `SOMModel` over Q, fold invariants; Exact arithmetic. |
| C76 | Stored maps are read back unchanged | `SOMProps.v` | 5 | `SOMModel` over Q, fold invariants; Archive and FITS file modelled as the sequence of values they hold. |
| C77 | The kohonen neighbourhood does not depend on earlier calls | `SOMProps.v` | 4 | `SOMModel` over Q, fold invariants; exp and log are any functions with the stated properties of exp. |
| C78 | A new map is filled from the initialization function in order | `SOMProps.v` | 2 | `SOMModel` over Q, fold invariants |
| C79 | Casts of table cells keep the value or throw | `TableProps.v` | 10 | `TableModel`, exact conditions of the constructors; Casts of cells; strtod is a parameter. Companion: casting a text to int64 accepts trailing characters and saturates. |
| C80 | Comments of ASCII tables are read back and do not disturb the table | `AsciiProps.v` | 3 | `AsciiModel`, streams as lists of characters, printer/parser round trip; getComment and addComment. |
| C81 | A dataset is built from two vectors exactly when they have equal lengths | `XYProps.v` | 1 | `XYModel`, induction over texts and trees, invariants over histories; XYDataset::factory from two vectors. |
| C82 | Equality of photometry entries | `CatalogProps.v` | 3 | `CatalogModel`, case analysis with NaN and infinities; Symmetric; transitivity only within equal missing flags (C82_transitive_refuted). |
| C83 | Catalogs converted from tables | `CatalogProps.v` | 2 | `CatalogModel`, case analysis with NaN and infinities |
| C84 | Spectroscopic redshifts from rows | `CatalogProps.v` | 2 | `CatalogModel`, case analysis with NaN and infinities |
| C85 | Bins of constant width cover the data | `HistProps.v` | 4 | `HistModel` over Q, induction over the data; Exact arithmetic. The estimates of sigma and of the width in Scott are arguments. Values just below the data get the first bin (C85_below_refuted). |
| C86 | Histogram mean and standard deviation | `HistProps.v` | 3 | `HistModel` over Q, induction over the data; Exact arithmetic; std::sqrt is an argument. |
| C87 | Histogram median | `HistProps.v` | 2 | `HistModel` over Q, induction over the data; Exact arithmetic. The count of a hidden bin can change the median (C87_hidden_refuted). |
| C88 | Cumulative of a pdf and its normalisation | `CumulProps.v` | 5 | `CumulModel` over Q, loop invariants; Exact arithmetic over the rationals. |
| C89 | The centred interval is ordered and centred | `CumulProps.v` | 2 | `CumulModel` over Q, loop invariants; Exact arithmetic over the rationals. |
| C90 | What a mode of a pdf is | `ModeProps.v` | 5 | `ModeModel` over Q, loop invariants; Exact arithmetic over the rationals. |
| C91 | Interpolated position of a mode | `ModeProps.v` | 2 | `ModeModel` over Q, loop invariants; Exact arithmetic over the rationals. |
| C92 | simple_interpolation agrees with interpolate | `InterpProps.v` | 3 | `InterpModel` over R; Over real numbers. Refuted for a repeated last abscissa. |
| C93 | Finite differences are derivatives near the point | `SimpsonProps.v` | 4 | `SimpsonModel` over R; Mean value theorems for the first and second difference, exactness for affine functions and cubics. The choice of the step (guess_h) is a parameter. |
| C94 | Grid interpolation is multilinear | `GridInterpProps.v` | 7 | `GridInterpModel` over R, induction over the axes; Multilinear interpolation as a relation in GridInterpSpec.v; nodes, bounds, outside; the documented axis order and the documented zero for an absent discrete value are refuted. Reals. |
| C95 | Which grids an interpolator accepts | `GridInterpProps.v` | 2 | `GridInterpModel` over R, induction over the axes; Exact acceptance condition; the order of the last axis is not checked (refuted). |
| C96 | Inverse cumulative of a continuous variable | `InvCumulProps.v` | 7 | `InvCumulModel` over R; Quantile up to 2e-8, range, relation to the Riemann integral, degenerate and rejected inputs; results below the first knot and unchecked sizes are refuted statements. Reals. |
| C97 | Reading the files of numpy.save | `NpyProps.v` | 6 | `NpyModel`, bytes as lists, printer/parser round trip; files of numpy.save (version 1.0) of all non 8-bit types; the 8-bit types and 0-d arrays are refuted |
| C98 | Memory-mapped arrays | `NpyProps.v` | 10 | `NpyModel`, bytes as lists, printer/parser round trip; invariant over all histories of create, open, assign and resize; append; reopen; size() after a failing resize refuted |
| C99 | Tables survive a binary FITS file | `FitsProps.v` | 9 | `FitsModel`, columns as lists of entries, invariant of the written columns; CCfits modelled as a store of columns (see FitsModel.v); the refuted companions show which conditions are needed |
| C100 | Reading a FITS table in chunks | `FitsProps.v` | 6 | `FitsModel`, columns as lists of entries, invariant of the written columns; all histories of read, skip, hasMoreRows and rowsLeft; wrap-around of rowsLeft after skipping beyond the end and read(0) as refuted companions |
| C101 | Parameters of an ASCII dataset file | `ParserProps.v` | 4 | `ParserModel`, matchers for the expressions, words of a line, reader of ASCII and FITS tables; Exact value for every file; C101_all_values_refuted shows that empty leading values are lost. |
| C102 | Name of an ASCII dataset | `ParserProps.v` | 5 | `ParserModel`, matchers for the expressions, words of a line, reader of ASCII and FITS tables; The three cases and the name of a path; C102_nonempty_refuted: the name can be empty. |
| C103 | Recognition of ASCII dataset files | `ParserProps.v` | 3 | `ParserModel`, matchers for the expressions, words of a line, reader of ASCII and FITS tables; Exact characterisation; two refuted companions compare it with what getDataset can read. |
| C104 | Dataset of an ASCII file | `ParserProps.v` | 4 | `ParserModel`, matchers for the expressions, words of a line, reader of ASCII and FITS tables; Exact for files without quotes with harmless leading comments; C104_any_comment_refuted shows why the leading comments matter. |
| C105 | Dataset of a FITS file | `ParserProps.v` | 6 | `ParserModel`, matchers for the expressions, words of a line, reader of ASCII and FITS tables; Stated on files written by the model of FitsWriter; C105_image_refuted and C105_floats_refuted record two findings. |
| C106 | Comoving distances follow the expansion rate | `CosmoProps.v` | 7 | `CosmoModel` over R, bounds of Riemann sums of monotone functions, mean value theorem |
| C107 | Observer distances are consistent | `CosmoProps.v` | 6 | `CosmoModel` over R, bounds of Riemann sums of monotone functions, mean value theorem; includes the refuted monotonicity of the luminous distance |
| C108 | Multidimensional sampling follows the density | `SamplerProps.v` | 7 | `SamplerModel` over R, induction over the axes, commutation of interpolation and integration; includes two refuted statements: the shape check of a single axis and the conditional density next to the first knot |
| C109 | Samplers of a grid use its cells | `SamplerProps.v` | 3 | `SamplerModel` over R, induction over the axes, commutation of interpolation and integration |
| C110 | The format of a catalog is recognised from its first bytes | `CatConfProps.v` | 3 | `CatConfModel`, file system as a function, histories of calls, exact conditions over options and rows; The reading of the buffer past its end and the uninitialised bytes are outcomes of the model; refuted for short files and for files without a zero byte in the first 80. |
| C111 | Options of the input catalog | `CatConfProps.v` | 3 | `CatConfModel`, file system as a function, histories of calls, exact conditions over options and rows; Exact conditions of the options and of the initialization; the missing default identifier column is refuted as an initialization check. |
| C112 | Attribute handlers and base directory over the life of a catalog configuration | `CatConfProps.v` | 4 | `CatConfModel`, file system as a function, histories of calls, exact conditions over options and rows; Normal form of all histories; the unguarded getter is refuted. |
| C113 | Catalog of a program | `CatConfOutProps.v`, `CatConfProps.v` | 4 | every step of the start of a program is shown to end in a value or an exception, and so does their composition; CCfits, strtod/stof and the conversion of magnitudes are arguments of the model. |
| C114 | Options of the spectroscopic redshift | `CatConfProps.v` | 2 | `CatConfModel`, file system as a function, histories of calls, exact conditions over options and rows; Exact conditions and values. |
| C115 | Options of the photometry | `CatConfProps.v` | 1 | `CatConfModel`, file system as a function, histories of calls, exact conditions over options and rows; Exact conditions and values; the entry of a filter is specified as in C61. |
| C116 | Densities of a source | `CatConfProps.v` | 3 | `CatConfModel`, file system as a function, histories of calls, exact conditions over options and rows; Values at every position, repeated names, sizes, and calls that come too late. |
| C117 | Options with wildcards | `CatConfProps.v` | 3 | `CatConfModel`, file system as a function, histories of calls, exact conditions over options and rows; Exact set and order; the unchecked separator is refuted as a documented format. |
| C118 | Identifiers of managers | `CatConfProps.v` | 4 | `CatConfModel`, file system as a function, histories of calls, exact conditions over options and rows; For every clock; repetition with a clock set back and divergence with a frozen clock are stated. |
| C119 | A grid exported to FITS is imported back | `GridFitsProps.v` | 4 | `GridFitsModel` on top of the grid and table models, induction over axes and knots, position arithmetic; For grids and slices of one axis; the refuted cases are theorems of their own. CCfits is modelled as a list of extensions with columns and pixels; texts and names as the FITS standard keeps them. |
| C120 | Layout of the FITS file of a grid | `GridFitsProps.v` | 4 | `GridFitsModel` on top of the grid and table models, induction over axes and knots, position arithmetic; The layout on the same conditions as C119. |
| C121 | A grid with an empty axis is not exported to FITS | `GridFitsProps.v` | 1 | `GridFitsModel` on top of the grid and table models, induction over axes and knots, position arithmetic; What was already written to the file before the exception (the image) is not described. |
| C122 | interpn interpolates an array with its axes in their own order | `NdInterpProps.v` | 6 | `NdInterpModel` on top of the grid interpolation, corners and weights of every axis, independence of their order; Over the reals. |
| C123 | The distance of self-organizing maps is the Euclidean distance | `DistProps.v` | 3 | `DistModel` over R, Cauchy-Schwarz by induction over the coordinates; over real numbers; doubles are rounded |
| C124 | Distance with uncertainties | `DistProps.v` | 7 | `DistModel` over R, Cauchy-Schwarz by induction over the coordinates; over real numbers; infinity and NaN only as results of dividing by zero |
| C125 | Cumulatives of sampled pdfs in double precision | `DCumulProps.v` | 5 | `DCumulModel` over Flocq's binary64, comparisons and operators translated to rounded real numbers, monotonicity of rounding, invariants of the loops; IEEE 754 binary64 of Flocq, round to nearest even |
| C126 | Reading a cumulative in double precision | `DCumulProps.v` | 8 | `DCumulModel` over Flocq's binary64, comparisons and operators translated to rounded real numbers, monotonicity of rounding, invariants of the loops; IEEE 754 binary64 of Flocq, round to nearest even |
| C127 | Smallest interval of a cumulative in double precision | `DCumulProps.v` | 4 | `DCumulModel` over Flocq's binary64, comparisons and operators translated to rounded real numbers, monotonicity of rounding, invariants of the loops; IEEE 754 binary64 of Flocq, round to nearest even |
| C128 | Discrete sampling in double precision | `DCumulProps.v` | 5 | `DCumulModel` over Flocq's binary64, comparisons and operators translated to rounded real numbers, monotonicity of rounding, invariants of the loops; IEEE 754 binary64 of Flocq, round to nearest even |
| C129 | Counts of histograms are floats | `DHistProps.v` | 6 | `DHistModel` over Flocq's binary64 and binary32, relative errors of each operation, truncation of the rounded quotient; Counts as floats: rounded sums, exact up to 2^24, error bound, saturation. |
| C130 | Square root binning in double precision | `DHistProps.v` | 13 | `DHistModel` over Flocq's binary64 and binary32, relative errors of each operation, truncation of the rounded quotient; Flocq binary64; bounds for indices and edges; counterexamples for values next to edges. |
| C131 | Scott binning in double precision | `DHistProps.v` | 5 | `DHistModel` over Flocq's binary64 and binary32, relative errors of each operation, truncation of the rounded quotient; Flocq binary64; the standard deviation and the width are arguments. |
| C132 | A KdTree search in doubles agrees with the computed distances | `DKdProps.v` | 2 | `DKdModel` over Flocq's binary64, induction over the build with monotone rounding for the pruning, accumulated relative and absolute errors of the distance; Flocq binary64; finite coordinates whose differences do not overflow; refuted for large coordinates |
| C133 | A KdTree search in doubles is accurate | `DKdProps.v` | 3 | `DKdModel` over Flocq's binary64, induction over the build with monotone rounding for the pruning, accumulated relative and absolute errors of the distance; explicit relative and absolute tolerance; refuted for tiny and huge radii |
| C134 | every submitted task is eventually run | `ThreadPoolLiveProps.v` | 3 | `ThreadPoolModel`, infinite fair schedules, a leads-to lemma with decreasing measures for each phase of the workers and of the caller; unless a task throws; refuted after a failure |
| C135 | the destructor of a thread pool ends under every fair scheduler | `ThreadPoolLiveProps.v` | 1 | `ThreadPoolModel`, infinite fair schedules, a leads-to lemma with decreasing measures for each phase of the workers and of the caller |
| C136 | block() ends | `ThreadPoolLiveProps.v` | 4 | `ThreadPoolModel`, infinite fair schedules, a leads-to lemma with decreasing measures for each phase of the workers and of the caller; with a scheduler that lets the caller observe sleeping workers; refuted under fairness alone |
| C137 | concurrent accessors own their descriptors | `FPThreadsProps.v` | 2 | `FPThreadsModel`, an interleaving semantics at the granularity of the mutexes; an invariant that counts every file over places and thread positions, kept by all 22 transitions; lock-holder arguments for waiting |
| C138 | files open in a pool used by several threads | `FPThreadsProps.v` | 3 | `FPThreadsModel`, an interleaving semantics at the granularity of the mutexes; an invariant that counts every file over places and thread positions, kept by all 22 transitions; lock-holder arguments for waiting; the bare limit is refuted |
| C139 | threads of a file pool wait only for accessors | `FPThreadsProps.v` | 6 | `FPThreadsModel`, an interleaving semantics at the granularity of the mutexes; an invariant that counts every file over places and thread positions, kept by all 22 transitions; lock-holder arguments for waiting; deadlock at the limit is shown by two refuted theorems |
| C140 | defined behaviour of a file pool used by several threads | `FPThreadsProps.v` | 6 | `FPThreadsModel`, an interleaving semantics at the granularity of the mutexes; an invariant that counts every file over places and thread positions, kept by all 22 transitions; lock-holder arguments for waiting; the two sources of undefined behaviour are shown by refuted theorems |
| C141 | An interrupted writeNpy leaves a file that is refused or whose missing bytes read as zeros | `NpyCrashProps.v` | 2 | `NpyCrashModel` on top of `NpyModel`; search lemmas for a dictionary cut at any byte and filled with zeros, then the chunking of the remaining bytes; refused before the end of the shape, zeros for missing bytes afterwards; UB of the first 12 bytes as a _refuted theorem |
| C142 | An interrupted createMmapNpy leaves a file that is refused or a complete array of zeros | `NpyCrashProps.v` | 2 | `NpyCrashModel` on top of `NpyModel`; search lemmas for a dictionary cut at any byte and filled with zeros, then the chunking of the remaining bytes; every crash point of the copy of the header |
| C143 | A growing memory-mapped array interrupted before its header is rewritten keeps all its elements | `NpyCrashProps.v` | 5 | `NpyCrashModel` on top of `NpyModel`; search lemmas for a dictionary cut at any byte and filled with zeros, then the chunking of the remaining bytes; killed before the copy of the header; shrinking and torn headers as _refuted theorems |
| C144 | ASCII table left by an interrupted write | `AsciiCrashProps.v` | 5 | The file is the text of head lines and row lines; a prefix of it is a list of whole lines and a part of the next (induction over the lines). The columns depend on the head and the first row only; the rows are read line by line (lemmas of C48 and C49).; all hypotheses are those of the round trip C48; the interruption keeps a prefix of the characters (process killed, not power failure) |
| C145 | The columns of an ASCII file are those its comments announce | `AsciiHeadProps.v` | 7 | The reader of AsciiModel.v on files given as comments, a first line of data and anything after it. The words of a line are specified by a relation (spaced), independent of the tokenizer. The columns found are computed in closed form (column_found) and compared with the statement position by position; refused calls are modelled with the state they leave (AsciiHeadModel.v).; For headers made of plain comments, descriptions with name and type, and a line of names. Units and descriptions in words are covered by C48 for files this library writes. |
| C146 | Column names and types fixed by the user are obeyed or refused | `AsciiHeadProps.v` | 10 | The reader of AsciiModel.v on files given as comments, a first line of data and anything after it. The words of a line are specified by a relation (spaced), independent of the tokenizer. The columns found are computed in closed form (column_found) and compared with the statement position by position; refused calls are modelled with the state they leave (AsciiHeadModel.v). |
| C147 | The spellings accepted in ASCII cells are exactly the documented ones | `AsciiHeadProps.v` | 7 | The reader of AsciiModel.v on files given as comments, a first line of data and anything after it. The words of a line are specified by a relation (spaced), independent of the tokenizer. The columns found are computed in closed form (column_found) and compared with the statement position by position; refused calls are modelled with the state they leave (AsciiHeadModel.v).; Floating point numbers are read by parameters pf and pd. |
| C148 | Iterators over an array are random access iterators | `NdIterProps.v` | 3 | an iterator is a position; arithmetic by induction on the walk, positions unravelled into places by the strides of the view |
| C149 | A table written without column information | `AsciiPlainProps.v` | 4 | the lines written are computed as a list, the header scan is shown to end in the names, and the reading loop replays the rows |
| C150 | The mode of a file handler | `FPModeProps.v`, `FPModeThreadsProps.v` | 6 | every statement of the pool but one is shown to keep the modes; the one left sets the mode asked for; sequential model of the pool (calls of all threads, each taken as a whole) |
| C151 | Linear interpolation in double precision is total, exact where it can be and close elsewhere | `DInterpProps.v` | 14 | Flocq binary64. The interval of the argument is found by count_while over ascending knots, the polynomial is shown equal to the line up to the sign of zero; the error bound composes relative and absolute rounding errors step by step; exact cases by induction-free integer lemmas; counterexamples by computation.; The program is taken to be compiled without fused multiply-add; splines, integrals and products of functions are modelled with real numbers only (InterpProps and FunProps). |
| C152 | Map distances and best matching units in double precision | `DSOMProps.v` | 9 | SOM distances, findBMU and SOMTrainer::train over Flocq doubles; monotone rounding and relative error lemmas, loop invariants of the search and of the training; The distance with uncertainties is shown to be a number, not negative and symmetric; no error bound is proved for it. |
| C153 | Training a map in double precision keeps the weights in the range of the data | `DSOMProps.v` | 6 | SOM distances, findBMU and SOMTrainer::train over Flocq doubles; monotone rounding and relative error lemmas, loop invariants of the search and of the training; The factors are arguments, in [0, 1]; std::exp, used by the other two factor functions of the library, is not modelled in doubles. |
| C154 | Polynomials, their derivatives and integrals in double precision | `DSplineProps.v` | 6 | Flocq binary64. A calculus of relative rounding errors with sizes (near), closed under the four operations; induction over the coefficients for the value of a polynomial; the equation of the curvatures of a spline is a local identity whose five rounding errors are bounded, with the factors of the elimination in [0, 1] by induction; counterexamples by computation.; Flocq binary64; underflow is excluded by hypotheses on the sizes of the terms, overflow by the finiteness of the result; derivative and integral are Coquelicot's |
| C155 | Cubic splines in double precision are smooth up to rounding, but their values are not | `DSplineProps.v` | 3 | Flocq binary64. A calculus of relative rounding errors with sizes (near), closed under the four operations; induction over the coefficients for the value of a polynomial; the equation of the curvatures of a spline is a local identity whose five rounding errors are bounded, with the factors of the elimination in [0, 1] by induction; counterexamples by computation.; Flocq binary64; the backward error of the elimination is local, so that it does not grow with the number of points; very small numbers count as 2^-300; the distances of neighbours are between 2^-200 and 2^200 where the elimination is concerned |
| C156 | Numerical integration in double precision stays inside the range and rounds like its sums | `DQuadProps.v` | 9 | Every evaluation point is min + q (max - min) or max - q (max - min) with 0 <= q <= 1 and one rounding, hence between the ends by monotonicity of rounding; the calculus of sums of n relative errors for the weighted sums; induction over the loop of the adaptive integration; counterexamples by computation.; Simpson rule, refinement and adaptive integration on binary64; the function is any map from doubles to doubles. Rounding contraction (fused multiply-add) and functions that throw are not modelled. |
| C157 | Integration of piecewise polynomials in double precision | `DPieceProps.v` | 9 | The loop is a sum over all pieces (those before the start and after the break do not meet the interval); the exact integral by Chasles over the knots clamped to the interval, the error by the calculus of relative errors; counterexamples by computation. |
| C158 | The modes extracted from a pdf in double precision | `DModeProps.v` | 11 | The code on Flocq doubles; the loops over comparisons by induction as in C44 and C90, with the order of doubles that are numbers and lists kept sorted even with NaN among the areas; relative errors of the sums (near calculus), the exact mean by weights, refutations by computation; Contraction of a product and a sum into one operation is excluded. The claim that no bigger mode is missed is refuted (C158_biggest_refuted). |
| C159 | Numerical derivatives in double precision | `DDiffProps.v` | 8 | the step: x + h0 rounds to a multiple of the common unit of x and h0, so the difference is exact (Flocq formats); neighbours by ulp lemmas; accuracy by the mean value theorem and the relative errors of each operation |
| C160 | The inverse of a continuous cumulative, in double precision, has p of the area at its left up to rounding | `DInvProps.v` | 14 | error analysis of the quadratic formula and of the flat case on one segment (near calculus), of the cumulated areas by induction over the knots, and case analysis of the lookup; counterexamples by computation of the double operations; A backward error: the area up to the returned point, not the distance to the exact quantile. Finite results only in the build without assertions (NaN refuted). |
| C161 | Photometry objects that share their filter names | `PhotProps.v` | 11 | the program is a heap of name vectors and objects that point into it; the agreement of the sizes is an invariant of every history without resizing; iteration by induction on the remaining positions; Objects sharing name vectors as a heap with pointers; invariant over all histories. What happens when the shared vector changes its length is proved as refutations. |
| C162 | Interpolation on a grid in double precision | `DGridProps.v` | 9 | the call is related to the operations it performs by an inductive relation; the error bound, finiteness, equal values and zeros outside by induction on it, with the error of one line from C151; Flocq binary64 model of InterpN; the error is measured against the multilinear interpolation of C94 (GridInterpSpec.grid_value) for the real numbers that the doubles are. The last four claims of the statement are refutations. |
| C163 | The interpolation of an N-dimensional array in double precision is close to the multilinear one | `DNdProps.v` | 7 | refinement to DGridModel with the axes and arguments reversed; the exact value by uniqueness of the multilinear value (C94, C122); acceptance by induction over the axes; NaN by induction over the axes; interpn in double precision: error budget, exactness for equal values, zero outside, NaN arguments, and exactly which grids are accepted. An axis with a single knot treats NaN differently depending on its place (refuted theorem). |
| C164 | The expansion rate and the Hubble distance in double precision | `DCosmoProps.v` | 9 | error calculus of DSplineProofs for the radicand and a lemma on the root; monotonicity of rounding for the growth; the comoving distance from C156; Flocq binary64; the speed of light and Elements::isEqual are parameters. Refuted companions: decimal densities adding up to one need not give zero curvature; a strongly closed space gives NaN. |
| C165 | Integrals in double precision against the true integral | `DIntegralProps.v` | 5 | Induction on the refinements with an invariant that halves the error before and adds the one of the new points; the weights of the rule add up to N. The sum is compared with the rule of SimpsonModel, then with the integral by C41_monotone_error or C41_smooth_error. The slope of one over the rate is bounded by 2/E(0).; Flocq binary64 against Coquelicot integrals. A finite result is assumed (an overflow gives an infinite one, C156). The bound depends on the order at which the loop stops, which is at least 4 for the comoving distance; with the relative change alone nothing better holds (C41_adaptive_error_refuted). |
| C166 | Initial weights of a self-organizing map | `SOMInitProps.v` | 9 | The function is followed through a history of assignments, calls and constructions by induction on the history: only calls advance it. The engine is shown to stay in 1..2^31-2 (Gauss, since 16807 and 2^31-1 are coprime), so the canonical value is in [0, 1), and rounding is monotone.; The history of a program that assigns, calls and copies the function is modelled; std::minstd_rand0 and std::uniform_real_distribution as in libstdc++, the Mersenne twister as any generator. |
| C167 | Several ASCII tables in one stream | `AsciiStreamProps.v` | 5 | The lines of a part do not contain line feeds, so the lines of the stream are those of the parts followed by those after. The reader is followed on the lines of a part with arbitrary lines behind them; induction on the parts. Writers in turns: induction over the calls, each call extends the output of its own writer only.; The stream can be repositioned, as the reader needs. What the format can carry is as in C48. |
| C168 | Solving a quadratic or linear equation | `SolversProps.v` | 8 | Exact: factorisation of the polynomial at the two roots. Double precision: the rounding errors of the quotient, its square, the sum and the root are followed with relative bounds padded against underflow, and combined by the bound for a root used for C160.; The model functions are solve_square (InvCumulModel.v, exact) and dsolve_square (DInvModel.v, binary64). Finite results are assumed for the error bounds. |

## Assumptions

`Print Assumptions` follows every property theorem in the `Props` files. Its output falls
into four groups. All axioms are those of Coq's standard library (its classical real
numbers); there are no others.

* Closed under the global context: 496 theorems, all those not listed below.
* `ClassicalDedekindReals.sig_forall_dec`, `FunctionalExtensionality.functional_extensionality_dep`: 55 theorems.
  * `FunProps.v`: C35_constructor, C35_defined, C35_equal_knots_refuted, C35_one_knot_refuted, C35_total, C35_values, C36_not_integrable, C37_value, C38_disjoint_refuted, C38_empty_refuted, C38_first_knot_refuted, C38_piecewise_by_other, C38_piecewises, C38_simple, C38_touching_refuted
  * `GridInterpProps.v`: C94_absent_value_refuted, C94_axis_order_refuted, C94_bounds, C94_every_call, C94_nodes, C94_outside, C94_value, C95_accepted, C95_last_axis_unchecked_refuted
  * `InterpProps.v`: C39_extrapolated, C39_one_point_refuted, C39_one_point_twice_refuted, C39_repeated_points, C39_steps, C39_steps_refuted, C39_throws, C92_degenerate, C92_repeated_end_refuted
  * `NdInterpProps.v`: C122_accepted, C122_every_call, C122_first_axis_unchecked_refuted, C122_nodes, C122_outside, C122_value
  * `SamplerProps.v`: C108_joint, C108_near, C108_one_axis_refuted, C108_rejected, C109_counts
  * `SimpsonProps.v`: C41_adaptive, C41_adaptive_ends_refuted, C41_adaptive_first, C41_bounds, C41_defined, C41_refinement, C41_refinement_defined, C41_scheme_for_pieces_refuted, C41_turned, C93_affine, C93_second_cubic
* `ClassicalDedekindReals.sig_forall_dec`, `ClassicalDedekindReals.sig_not_dec`, `FunctionalExtensionality.functional_extensionality_dep`: 27 theorems.
  * `CosmoProps.v`: C106_rate, C106_scaling, C106_today, C41_monotone_error
  * `DistProps.v`: C123_coordinates, C123_metric, C123_value, C124_factor, C124_metric, C124_monotone, C124_one, C124_value, C124_zero
  * `InvCumulProps.v`: C96_below_first_refuted, C96_quantile, C96_range, C96_rejected, C96_single, C96_sizes_refuted
  * `SamplerProps.v`: C108_conditional_refuted, C108_draw, C108_output_size, C109_cells, C109_grid
  * `SolversProps.v`: C168_linear, C168_none, C168_solutions
* `ClassicalDedekindReals.sig_forall_dec`, `ClassicalDedekindReals.sig_not_dec`, `Classical_Prop.classic`, `FunctionalExtensionality.functional_extensionality_dep`: 207 theorems.
  * `CosmoProps.v`: C106_de_sitter, C106_defined, C106_defined_flat, C106_value, C107_growing_refuted, C107_luminous, C107_modulus, C107_modulus_defined, C107_transverse, C107_volume
  * `DCosmoProps.v`: C164_closed_refuted, C164_comoving, C164_curvature, C164_distance, C164_flat, C164_flat_decimals_refuted, C164_growing, C164_integrand, C164_rate
  * `DCumulProps.v`: C125_error, C125_from_pdf, C125_normalize, C125_overflow_refuted, C125_sizes, C126_centered, C126_find_value, C126_middle_overflow_refuted, C126_monotone, C126_nan_ratio_refuted, C126_nan_value_refuted, C126_normalize_refuted, C126_range, C127_exact_refuted, C127_holds_error, C127_min_interval, C127_underflow_refuted, C128_nan_refuted, C128_overflow_refuted, C128_range, C128_sample, C128_table
  * `DDiffProps.v`: C159_constant, C159_first, C159_first_points, C159_huge, C159_largest, C159_line_refuted, C159_second, C159_second_points
  * `DGridProps.v`: C162_accuracy, C162_axis_order_refuted, C162_defined, C162_equal_knots_refuted, C162_error, C162_flat, C162_nan_knots_refuted, C162_nodes_refuted, C162_outside
  * `DHistProps.v`: C129_counts, C129_defined, C129_error, C129_exact, C129_number_refuted, C129_plain, C130_below_edge_refuted, C130_bins, C130_counted, C130_edges, C130_flat, C130_index, C130_last_edge_refuted, C130_lookup, C130_lost_refuted, C130_on_edge_refuted, C130_order, C130_tiny_refuted, C130_wide_refuted, C131_bins, C131_flat, C131_index, C131_no_bin_refuted, C131_one_bin_refuted
  * `DIntegralProps.v`: C165_adaptive, C165_comoving, C165_estimate, C165_monotone, C165_smooth
  * `DInterpProps.v`: C151_above_the_points_refuted, C151_error, C151_far_points_refuted, C151_finite_refuted, C151_flat, C151_infinite_argument, C151_integers, C151_monotone, C151_nan_argument, C151_rising_refuted, C151_same_functions, C151_step_at_the_front_refuted, C151_through_points_refuted, C151_value
  * `DInvProps.v`: C160_accuracy, C160_checked, C160_defined, C160_far_knots_refuted, C160_finite_refuted, C160_inside_refuted, C160_nan_probability_refuted, C160_narrow_refuted, C160_nearly_flat_refuted, C160_one, C160_one_refuted, C160_ordinary_refuted, C160_refused, C160_zero
  * `DKdProps.v`: C132_large_coordinates_refuted, C132_search, C133_large_radius_refuted, C133_small_radius_refuted, C133_tolerance
  * `DModeProps.v`: C158_area, C158_biggest, C158_biggest_refuted, C158_heights, C158_highest_number, C158_interpolated_refuted, C158_mean, C158_mean_inside_refuted, C158_modes, C158_zero_refuted, C158_zeros
  * `DNdProps.v`: C163_accuracy, C163_error, C163_flat, C163_nan_argument, C163_nan_single_knot_refuted, C163_outside
  * `DPieceProps.v`: C157_additive_refuted, C157_error, C157_interpolated, C157_nan, C157_outside, C157_positive_refuted, C157_reversed, C157_sum
  * `DQuadProps.v`: C156_finite, C156_inside, C156_inside_long_range_refuted, C156_inside_tiny_range_refuted, C156_not_finite, C156_outcomes, C156_refinement, C156_rule, C156_zero
  * `DSOMProps.v`: C152_bmu, C152_distance, C152_distinct_refuted, C152_equal_cell, C152_error, C152_nearest, C152_overflow_refuted, C152_uncertainties, C152_zero_uncertainty_refuted, C153_exact_range_refuted, C153_linear, C153_object, C153_progress_refuted, C153_range, C153_weight
  * `DSplineProps.v`: C154_coefficients, C154_derivative, C154_integral, C154_no_cancellation, C154_sign_refuted, C154_value, C155_points_refuted, C155_spline, C155_total
  * `FunProps.v`: C36_integral, C37_derivative, C37_integral
  * `InterpProps.v`: C39_linear, C40_extrapolated, C40_smooth, C40_spline, C92_same_as_interpolate
  * `InvCumulProps.v`: C96_integral
  * `SOMInitProps.v`: C166_half_open_refuted, C166_normal, C166_uniform_range, C166_uniform_repeats, C166_uniform_unit, C166_uniform_values, C166_zero
  * `SimpsonProps.v`: C41_adaptive_cubic, C41_adaptive_error_refuted, C41_cubic, C41_quartic_refuted, C41_scheme, C93_derivative, C93_second
  * `SimpsonSmoothProps.v`: C41_smooth_error
  * `SolversProps.v`: C168_cancellation_refuted, C168_error, C168_linear_error, C168_overflow_refuted, C168_throws

## Findings

Behaviour of the code that a reader of the documentation would not expect. Most have a
`_refuted` theorem; those marked (n) were seen while reading and are not modelled.

*Configuration.* `initialize` does not check the state and throws when
`closeRegistration` was not called. A failing `closeRegistration` leaves the manager in the
initial state. The cycle check only finds cycles through the first class; others recurse
for ever, and cycles that are declared while registering recurse at once.

*Thread pool.* With two threads tasks can start in another order than submitted. Tasks
submitted while `block()` waits may still run when it returns or throws. A pool without
threads that submits from a task locks itself (n). `m_exception_ptr` is read and written
without synchronisation (n).

*File pool.* `n` threads inside `open()` can exceed the limit by `n - 1`. A request at the
limit locks itself when the oldest file belongs to the same handler. Two handlers can
wait for each other, and the list of files changes during an unlocked callback (n). The
try mode never succeeds. A request between the end of the last accessor and the deleter
of the registry gives two handlers for one path. A write request with another descriptor
type leaks the file. `closeAll` destroys the callback while it runs.

*NdArray and npy.* Element counts are 32-bit products. `slice` of a slice loses attribute
names. npy headers are padded by 1 to 64 bytes, so an aligned header gets 64 needless
ones. Attribute names with quotes or brackets, or that contain `shape`, break the
round trip. One-dimensional arrays with names write the shape `()`. Truncated data is
filled with zeros. The 8-bit types of numpy (`|i1`, `|u1`) and 0-d arrays are not read. A
failing `resize` of a mapped array changes `size()` first. An empty array takes the address
of its first element.

*SOM.* `linearUnitDisk` is one-sided because of an unsigned subtraction. With distances
that are all NaN or infinite the best matching unit is `(0, 0)` at distance `DBL_MAX`. The
u-matrix of a single cell, `Jackknife` of size 0 and `Bootstrap` of an empty range are
undefined. Factors above one leave the range of the data.

*Tables.* Casting a text to int64 accepts trailing characters and saturates. In ASCII
tables the first cell is read unquoted, an empty text is lost, a comment indicator inside
a cell cuts the line, doubles have six digits, an empty vector and the unit `(` are
undefined behaviour, a first column named `Column:...` breaks reading, `getComment`
before the first read drops the column descriptions when there are no comments.
Binary FITS: vectors of one element and arrays of one cell come back as single values,
texts of one character make the file unreadable, vectors of booleans cannot be written
(the HDU has been created by then), texts of a later table are cut at the width of the
first, `rowsLeft` wraps after skipping beyond the end, `read(0)` throws. ASCII FITS tables
lose the types bool, int32 and float.

*Dataset files.* Empty values before the first non-empty one are dropped from a parameter.
Files that are read but not recognised as ASCII datasets: no line feed after the only line
of data, a line of blanks before the data, a comment behind the first line of data. A
comment of two equal words before the data makes reading throw. `FitsParser` throws
`std::bad_cast` instead of saying no when the extension is an image, and does not read
columns of floats. A file called `.sed` has an empty name.

*Catalogues.* A repeated filter name together with an exclusion misaligns the band lists,
which leads to undefined behaviour. A blank line in a band mapping file is a syntax error. An
infinite threshold gives an upper limit with error 0. NaN errors are accepted. Equality of
`FluxErrorPair` is not transitive. Unknown excluded names throw after the members were
filled. `stof` and `stoi` accept trailing characters.

*Configuration of catalogues.* The format detection reads 80 bytes into an array without a
terminator and uses it as a string: any file without a zero byte in its first 80 bytes, FITS
or text, reads past the array; a file shorter than nine bytes is judged by uninitialised
memory. A missing column `ID` is not noticed at the initialization, contrary to the
documentation. `getIdColumn` has no state check; `getFilename` is documented to need the final
state but works after the initialization. `findWildcardNames` does not check the separator.
`getUniqueManagerId` repeats an identifier when the clock is set back and hangs on a frozen
clock.

*Histogram and PDFs.* NaN is counted in the last bin. Fewer weights than data is
undefined. A clip range next to the histogram is ignored; `getBins` and `getEdges` ignore
clipping; the count of a hidden bin changes the median. Values just below the start are
counted in bin 0. Zero counts give a NaN mean. A cumulative with negative last value reads
past the end; intervals can be reversed on plateaus; a zero total gives NaN. The size check
of the inverse cumulative compares a vector with itself; `p = 0` returns the first knot
whatever its probability. A sample at the border is never part of a neighbouring peak;
asking for 0 modes or with fewer than three samples is undefined.

*Functions.* Piecewise functions accept equal knots and a single knot (undefined values).
Products of functions with disjoint ranges read past the end; touching ranges give an
unusable function. NaN arguments give index -1 (n). Interpolation accepts steps although
documented otherwise; no points, or one point without extrapolation, is undefined; one
repeated point with extrapolation is zero. `simple_interpolation` uses `(x1 + y1) / 2` at a
repeated end. Simpson's rule overflows beyond order 30; the adaptive precision bounds the
last change, not the error. Grid interpolation does not check the last axis, reads past the
end for an absent discrete value (documented as 0), and takes axes in reverse order.
The luminous distance is 10 parsec at redshift 0 and tends to 0 next to it, so it is not
monotone and the distance modulus jumps.
The sampler of one axis builds the inverse cumulative before it checks the number of axes
of the array, and never the number of values: both read past the end of the knots. A
sampled value below its first knot (by the tolerance of the inverse cumulative) makes the
conditional density of the next variable vanish, and the first knot is returned for it.

FITS files of grids (C119 to C121). A slice of a slice is exported with the axes of the last
slice only, so the image has more pixels than there are cells and the rest is zero
(`C119_slice_of_slice_refuted`). Two axes of the same name are written to one table, and the
file cannot be read back (`C119_same_names_refuted`). The name of an axis is cut from the name
of its table, which a FITS file limits to 68 characters (`C119_long_name_refuted`). The import
does not compare the number of pixels with the axes (`C120_few_pixels_refuted`).
The lengths in the header of an npy file may be negative and are taken modulo 2^64
(`C97_negative_length_refuted`).

interpn (C122) reverses axes and arguments, so that the documented order of the axes holds; its
first axis, the last of the grid interpolation, is not checked for order.

Cumulatives in double precision (C125-C128): a NaN ratio passes the range checks of `findValue`,
  `findMinInterval`, `findCenteredInterval` and of discrete sampling; a NaN in a cumulative makes `findValue`
  decrement an iterator at the beginning; a finite pdf whose sum overflows is normalized to NaN; when
  rate * total underflows to zero `findMinInterval` can return a reversed interval; normalizing can change what
  `findValue` returns for the same ratio.

Histograms in double precision (C129-C131): counts are floats and stop at 16777216
(`C129_number_refuted`). A value one unit in the last place below the largest can get the
index of no bin and is lost (`C130_lost_refuted`); values next to an edge can be counted on its
other side; the last edge can be below the largest value. A range that overflows or a width
that underflows makes the conversion to an index undefined. With the strategy of Scott equal
values of 2^53 and more have no bin, since adding 0.5 does not change them.

The KdTree in double precision (C132, C133): the middle of two coordinates of 2^1023 or more
overflows to infinity and the elements on its right are lost (`C132_large_coordinates_refuted`);
with a radius whose square underflows even an element at the query is not found, and with one
whose square overflows elements well within the radius are not found either
(`C133_small_radius_refuted`, `C133_large_radius_refuted`).

**block() can miss the sleeping flags.** Each worker raises its sleeping flag only for the length
of one sleep, and `block()` polls the flags one by one, each with its own sleep. A scheduler that
lets `block()` look only while the worker is awake keeps it from ever returning, although there
is no task and no thread is forgotten (`C136_fairness_alone_refuted`). With equal sleep periods
this needs the two sleeps to stay out of phase; the code relies on this not lasting.

**The file pool used by several threads.** `FPThreadsModel` keeps `m_handler_mutex` and
`m_file_mutex` and lets threads interleave at every acquisition. Accessors stay exclusive and no
file is lost, but at the limit three things go wrong. `notifyIntentToOpen` holds the mutex of one
handler while it asks for that of another, so two threads reading two files can wait for each other
for ever, and one thread that reads a file twice waits for itself. After a refused closing the loop
goes on from a list node that `notifyUsed` of another thread may have erased. The check of the limit
and the opening are separate, so up to n - 1 files too many are open. `closeAll` calls through
pointers to metadata that other threads may have destroyed in the meantime.

**Interrupted writes of npy files.** The first 12 bytes are read without a check, so a file cut there
is read with indeterminate values (`C141_first_bytes_refuted`); a file cut in the header throws, and
one cut in the data is accepted with zeros for what is missing. `MappedContainer::resize` changes the
size of the file before the header: a shrinking array killed in between claims elements the file does
not have (`C143_shrink_refuted`), and one killed inside the copy of the header can claim a shape that
is neither the old nor the new one (19 elements becoming 20 give 29, `C143_torn_header_refuted`).
- C144: an ASCII file left by an interrupted write can be read without an error although its last row is cut: the cut row can have a wrong value (12 for 123), and when the first row is cut the table can have fewer columns. There is no end marker or row count in the format.

An ASCII file with three columns that are described only by lines `# Column: name type` is read with
the names `Column:`, the name of the last column and its type, because the last comment has as many
words as there are columns (`C145_three_columns_refuted`).

`AsciiReader::fixColumnNames` and `fixColumnTypes` store their argument before checking it. A program
that catches the exception and goes on has a reader from which nothing can be read
(`C146_refused_names_poison`, `C146_refused_types_poison`).

An ASCII cell of an array column may have negative lengths: `<-1,-1>5` is read as an array of
(2^64 - 1) times (2^64 - 1) elements that holds one (`C147_negative_lengths_refuted`).
- NdArray iterators of two views of the same buffer are ordered by the number of steps taken, not by
  the place they designate (C148_order_of_places_refuted).
- A table written with showColumnInfo(false) comes back with every column as text unless the types are
  fixed by the reader (C149_types_are_lost_refuted).
- A request for write access that fails, because the file cannot be opened or the limit is reached, leaves
  the handler in write mode: isReadOnly() is false although nobody writes (C150_failed_request_refuted).
- Linear interpolation in doubles (interpolation.cpp, linear.cpp, Piecewise.cpp): the value at a given point is not always the given ordinate, and can exceed all ordinates (C151_through_points_refuted, C151_above_the_points_refuted); abscissae more than the largest double apart give a flat line (C151_far_points_refuted); with a NaN argument Piecewise::operator() reads m_functions[-1] (C151_nan_argument); two points with the first abscissa are accepted and give NaN there (C151_step_at_the_front_refuted).
- Self-organizing maps in doubles (Distance.h, SOM.icpp, SOMTrainer.h): arrays closer than about 1e-162 are at distance 0, so that the cell found for an array need not be the one equal to it (C152_distinct_refuted); when all distances overflow the cell found is (0, 0) (C152_overflow_refuted); with an uncertainty of 0 a component equal to that of the cell gives 0/0, and the cell equal to the input is never found (C152_zero_uncertainty_refuted); a trained weight can exceed the data by a rounding (C153_exact_range_refuted).
- Cubic splines in doubles (spline.cpp): the pieces are expanded in powers of x, so that far from the origin the values lose all accuracy: at 10^6 points with ordinates 0, 1, 0 come out as -128, -256, -128 (C155_points_refuted), although the coefficients before the expansion are accurate (C155_spline). Polynomial.cpp: near a multiple root the sign of the value can be wrong (C154_sign_refuted).

Numerical integration in double precision (C156): when max - min overflows, the step is infinite and the function is
evaluated at infinity; when it is among the smallest doubles the step rounds up and the function is evaluated above
the upper end (`C156_inside_long_range_refuted`, `C156_inside_tiny_range_refuted`). An estimate of zero followed by
a change that is not zero makes the ratio infinite, so that only the conversion of 2^31 to int stops the loop if this
repeats.

Integrals of interpolated functions (C157): the antiderivatives are polynomials in the abscissa itself, so that far from
zero their difference has no correct digit: the integral of the line through (96089330, 2) and (96089331, 8) is 5 and the
program returns -4 (`C157_positive_refuted`). integrate(NaN, x) returns 0 and integrate(x, NaN) the integral up to
infinity (`C157_nan`).

Modes in double precision (C158): `extractNBigestModes` stops when the smallest kept area is above the total area that is
left. The total is a rounded difference: next to a mode of area 2^62 all the others vanish in it, and of two modes of area 4
and 6 the smaller is returned as the second biggest (`C158_biggest_refuted`). The interpolated position is a quotient of
differences of squares: at abscissae around 2^28 with a step of 1 it ends at the last sample for a peak in the middle
(`C158_interpolated_refuted`). The mean of a mode of one sample is not always that sample (`C158_mean_inside_refuted`).

Numerical derivatives in double precision (C159): `derivative2nd` divides by the square of a step for which only x + h is known to be exact. x - h is rounded, so
the points are not symmetric and a part of the first derivative is taken for the second: at -2^41 the line t + 2^41
has the second derivative 4096 (next to -2^20, still -1/512; `C159_line_refuted`). At the largest double `derivative` is
NaN (`C159_largest`), and from 2^566 on `derivative2nd` is 0 or NaN for every function, because h * h overflows
(`C159_huge`).

- InverseCumulative in double precision (C160): the line of each segment is written as a x + b with respect to 0, not
  to the segment, so that its quadratic equation loses as many digits as the knots are far from 0 compared with
  their distance. With knots at 1e9 and 1e9 + 1 the quarter of a density that rises
  from 0 is 1e9; with 700 and 703 a
  small probability gives NaN; with 1e7 and 1e7 + 1 the result is 1.4 above the last knot. An almost flat
  density (1 and the next double) has the median 0 on [0, 1]. The first value of the density is added to every
  cumulative value, which loses narrow ranges. A NaN probability reads beyond the vectors.
- C161: the filter names of photometry objects are shared and not const. Growing the vector after a construction makes iteration and find() read past the values, shrinking it makes size() disagree with end() - begin(); iterators of different objects compare equal at the same position (C161_longer_names_refuted, C161_shorter_names_refuted, C161_equal_iterators_refuted).
- C162: in double precision the result of a grid interpolation depends on the order of the axes and need not reproduce the values at the nodes. checkOrder accepts equal knots, where simple_interpolation returns (x1 + y1) / 2, and unordered knots separated by a NaN (C162_axis_order_refuted, C162_nodes_refuted, C162_equal_knots_refuted, C162_nan_knots_refuted).

- C163: interpn with a NaN argument on an axis with a single knot: when the axis is the first one the result is 0, when it is another one NaN is taken for the knot and the value is returned (C163_nan_single_knot_refuted). The order of the knots of the first axis is not checked.

- C164: with Omega_m = 0.32 and Omega_Lambda = 0.68 (as doubles) the stored Omega_k is -2^-53 and not 0, so that a cosmology that is flat on paper is treated as closed (C164_flat_decimals_refuted); with Omega_m = 0 and Omega_Lambda = 2 the rate at redshift 1 is NaN (C164_closed_refuted).
- InitFunc::uniformRandom does not seed its engine, and the constructor of SOM takes the initialization function by
  value: two maps of one size built from uniformRandom with the same limits, or from one and the same function object
  (normalDistribution included), start with identical weights (`C166_uniform_repeats`, `C166_same_again`). A weight
  can be the upper limit of uniformRandom (`C166_half_open_refuted`, an effect of rounding in libstdc++). The engine
  and the distribution of libstdc++ are part of the model; the Mersenne twister and the standard normal values are
  arguments of the theorem.
- C167: a reader on a shared stream that is asked for all rows also returns the rows of the tables behind its own, under its own columns; a reader that stopped early makes the next one see a table without names (C167_read_all_refuted, C167_stop_early_refuted).
- C168: solveSquare loses a small solution when b is large compared with the other coefficients, and overflows in the square of b / 2a (C168_cancellation_refuted, C168_overflow_refuted).

## Not modelled

* Output formatting beyond the table writers, logging, program options parsing by boost,
  the `AlexandriaVersion` program, Python and documentation files, tests.
* Memory management and object lifetimes, except the reference counts and deleters of
  the file pool. Move constructors and copies are assumed to be copies.
* Rounding, overflow and denormals of floating point arithmetic, except in the models over Flocq's IEEE 754
  numbers (`FloatModel`: cumulatives and discrete sampling, C125-C128; histograms, C129-C131; the KdTree, C132-C133; linear
  interpolation, C151; self-organizing maps, C152-C153; polynomials and cubic splines, C154-C155; numerical integration, C156; integrals of piecewise polynomials, C157; modes of pdfs, C158; finite differences, C159; the inverse cumulative, C160;
  interpolation on a grid and of N-dimensional arrays, C162-C163; the expansion rate and integrals against their true value, C164-C165). There all NaNs are one and rounding is
  to nearest, ties to even.
* What CCfits, boost and the file system do on errors of the operating system.
