{"id": "C01", "title": "Sub-matrix selection is exact", "statement": "m.get_sub_matrix(rows, columns) (and get_rows, get_columns, get_row, get_column, get, head) returns a matrix whose shape is (number of selected rows) x (number of selected columns) and whose (i,j) entry is the entry of m at the i-th selected row and j-th selected column, where a negative index -k means the k-th from the end and a tuple means the Python range it spells; the call raises IndexError exactly when some selected index lies outside [-n, n) (and the other selection does not make the result empty), and m is not changed.", "quantifier": "every matrix of every shape, every list or (start, stop) pair of integer row and column selectors, including negative, repeated, unordered and empty ones", "why_tests_cant": "tests try a few index lists on one small matrix; negative wrap-around, empty selections and the exact error boundary range over all shapes and all integer lists", "anchors": [{"file": "src/wai/ma/core/matrix/_Matrix.py", "symbols": ["Matrix.get_sub_matrix", "Matrix.get_rows", "Matrix.get_columns", "Matrix.get_row", "Matrix.get_column", "Matrix.get", "Matrix.head"]}]}
{"id": "C02", "title": "Transpose is a shape-swapping involution", "statement": "m.transpose() has m's shape reversed, its (i,j) entry is m's (j,i) entry, transposing twice gives back m, and a row selection of the transpose is the transpose of the column selection.", "quantifier": "every matrix, including empty ones, over any element type", "why_tests_cant": "an involution law over all shapes including degenerate 0-row/0-column ones cannot be enumerated", "anchors": [{"file": "src/wai/ma/core/matrix/_Matrix.py", "symbols": ["Matrix.transpose", "Matrix.get_row", "Matrix.get_column"]}]}
{"id": "C03", "title": "Matrix multiplication is guarded and algebraically a product", "statement": "a.mul(b) raises ValueError exactly when a's column count differs from b's row count; otherwise its (i,j) entry is the sum over k of a(i,k)*b(k,j). In exact arithmetic the product is associative, distributes over add, has eye as unit, and (a b)^T = b^T a^T. Multiplying by a number scales every entry.", "quantifier": "all pairs/triples of matrices of any (compatible or incompatible) shapes with real entries", "why_tests_cant": "associativity/distributivity over every triple of shapes and real values is an infinite family", "anchors": [{"file": "src/wai/ma/core/matrix/_Matrix.py", "symbols": ["Matrix.mul", "Matrix.is_multiplicable_with"]}, {"file": "src/wai/ma/core/matrix/factory.py", "symbols": ["eye"]}]}
{"id": "C04", "title": "Element-wise arithmetic guards shapes", "statement": "add, sub, mul_elementwise and div_elementwise of two matrices raise InvalidShapeError exactly when the shapes differ and otherwise act entry by entry; with a number they act on each entry. No broadcasting of a differently shaped operand ever happens silently.", "quantifier": "all pairs of matrices of all shapes, all scalars", "why_tests_cant": "numpy would silently broadcast (1,n), (n,1) and (1,1) operands: the absence of broadcasting must hold for every pair of shapes", "anchors": [{"file": "src/wai/ma/core/matrix/_Matrix.py", "symbols": ["Matrix.add", "Matrix.sub", "Matrix.mul_elementwise", "Matrix.div_elementwise", "must_be_same_shape", "dimensions_must_match"]}]}
{"id": "C05", "title": "Vector broadcasting ops follow the vector's orientation", "statement": "m.add_by_vector(v) (also sub/mul_by_vector and the in-place *_by_vector_modify, scale_by_row_vector, scale_by_column_vector): a row vector of m's width is applied to every row, a (non-1x1) column vector of m's height to every column; anything else raises ValueError; the in-place and copying versions agree; scale_by_row_vector(v) and scale_by_column_vector(v) accept only column vectors.", "quantifier": "all matrices and all candidate vectors of all shapes, all element values", "why_tests_cant": "the orientation decision depends on the two shapes (including the 1x1 case which is both row and column); tests use a few compatible shapes", "anchors": [{"file": "src/wai/ma/core/matrix/_Matrix.py", "symbols": ["Matrix.vector_op", "Matrix.vector_op_modify", "Matrix.vector_size_matches", "Matrix.add_by_vector", "Matrix.sub_by_vector", "Matrix.mul_by_vector", "Matrix.div_by_vector_modify", "Matrix.scale_by_row_vector", "Matrix.scale_by_column_vector"]}]}
{"id": "C06", "title": "Writes touch exactly the addressed cells", "statement": "After set(r,c,v), get(r,c) is v and every other cell is unchanged; set_row/set_column replace exactly the first min(len(vector), width/height) cells of the addressed row/column, accept a vector of either orientation, leave every other cell and the shape unchanged, and raise (leaving the cells unchanged) exactly when the index is outside [-n,n) or the argument is not a vector.", "quantifier": "every matrix, every integer index, every vector length and orientation, and every sequence of such writes", "why_tests_cant": "frame conditions ('nothing else changed') over every shape, index and write sequence", "anchors": [{"file": "src/wai/ma/core/matrix/_Matrix.py", "symbols": ["Matrix.set", "Matrix.set_row", "Matrix.set_column"]}]}
{"id": "C07", "title": "Concatenation and selection are inverse", "statement": "concat_along_columns(a,b) raises ValueError exactly when row counts differ, otherwise selecting the first a-width columns gives back a and the remaining ones give back b; dually for concat_along_rows; concatenation is associative; multi_concat(axis, m1..mk) is the left-to-right concatenation and needs at least one matrix.", "quantifier": "all matrices, all split points, all lists of matrices", "why_tests_cant": "round-trip law over all shapes and all list lengths", "anchors": [{"file": "src/wai/ma/core/matrix/_Matrix.py", "symbols": ["Matrix.concat", "Matrix.concat_along_rows", "Matrix.concat_along_columns"]}, {"file": "src/wai/ma/core/matrix/helper.py", "symbols": ["multi_concat"]}]}
{"id": "C08", "title": "Flattening order and raw copies", "statement": "to_raw_copy_1D lists the entries column by column (element c*rows+r is entry (r,c)), to_raw_copy_2D lists them row by row, and rebuilding from the 2-D copy with factory.create gives back the matrix whenever it has at least one row; with zero rows the rebuilt matrix has shape 1x0 instead.", "quantifier": "all matrices of all shapes", "why_tests_cant": "the order and the degenerate-shape exception are statements about every shape", "anchors": [{"file": "src/wai/ma/core/matrix/_Matrix.py", "symbols": ["Matrix.to_raw_copy_1D", "Matrix.to_raw_copy_2D"]}, {"file": "src/wai/ma/core/matrix/factory.py", "symbols": ["create"]}]}
{"id": "C09", "title": "Reductions are consistent with each other", "statement": "sum(axis=0) is the 1 x cols matrix of column sums, sum(axis=1) the rows x 1 matrix of row sums, sum(-1) a 1x1 matrix and sum() the number; all of them give the same grand total in exact arithmetic; mean is sum divided by the count; any other axis raises ValueError (sum) or InvalidAxisError (mean); trace is the sum of the diagonal and is invariant under transposition and cyclic under mul.", "quantifier": "all matrices with real entries, all integer axes", "why_tests_cant": "identities between reductions over all shapes and values", "anchors": [{"file": "src/wai/ma/core/matrix/_Matrix.py", "symbols": ["Matrix.sum", "Matrix.mean", "Matrix.trace", "Matrix.diag"]}]}
{"id": "C10", "title": "Predicates any / all / which / where_vector agree", "statement": "which(f) lists exactly the positions satisfying f, in row-major order without repetition; any(f) is true exactly when which(f) is non-empty; all(f) exactly when which(not f) is empty; where_vector lists exactly the satisfying indices of a vector in increasing order and raises ValueError on non-vectors.", "quantifier": "every matrix and every predicate on its entries", "why_tests_cant": "ranges over every predicate (a function argument) and every shape", "anchors": [{"file": "src/wai/ma/core/matrix/_Matrix.py", "symbols": ["Matrix.any", "Matrix.all", "Matrix.which", "Matrix.where_vector"]}]}
{"id": "C11", "title": "clip / sign / abs element functions", "statement": "clip(lo,hi) raises MatrixAlgorithmsError exactly when lo > hi; otherwise every resulting entry lies in [lo,hi], entries already inside are unchanged, and clipping twice equals clipping once; clip_lower/clip_upper bound one side only; sign maps to -1/0/1 with sign(x)*abs(x)=x; the original matrix is not changed. NaN entries survive clip and are mapped to 0 by sign.", "quantifier": "every matrix and every pair of bounds, over reals and over IEEE binary64 values including NaN and infinities", "why_tests_cant": "holds for every double including NaN, infinities and signed zeros", "anchors": [{"file": "src/wai/ma/core/matrix/_Matrix.py", "symbols": ["Matrix.clip", "Matrix.clip_lower", "Matrix.clip_upper", "Matrix.sign", "Matrix.abs", "Matrix.apply_elementwise"]}]}
{"id": "C12", "title": "contains_NaN reports NaN entries", "statement": "m.contains_NaN() is true exactly when some entry of m is NaN.", "quantifier": "every matrix of IEEE binary64 entries", "why_tests_cant": "must hold for every NaN-carrying matrix; a test that never puts a NaN in cannot notice that the comparison used is never true", "anchors": [{"file": "src/wai/ma/core/matrix/_Matrix.py", "symbols": ["Matrix.contains_NaN"]}]}
{"id": "C13", "title": "Equality of matrices", "statement": "m == n is true exactly when shapes agree and all entries are equal; it never raises, is symmetric and transitive, and a matrix equals its own copy.", "quantifier": "every pair of matrices of binary64 entries, equal or different shapes", "why_tests_cant": "quantifies over all pairs of shapes and all doubles including NaN and infinities", "anchors": [{"file": "src/wai/ma/core/matrix/_Matrix.py", "symbols": ["Matrix.__eq__", "Matrix.sub"]}]}
{"id": "C14", "title": "helper.equal is a tolerance comparison", "statement": "helper.equal(m1,m2,eps) is true exactly when shapes agree and every pair of entries differs by at most eps; it is symmetric, reflexive for eps >= 0 and monotone in eps.", "quantifier": "all pairs of matrices, all tolerances, over reals and binary64", "why_tests_cant": "every pair of doubles, including NaN entries which the > comparison lets through", "anchors": [{"file": "src/wai/ma/core/matrix/helper.py", "symbols": ["equal"]}]}
{"id": "C15", "title": "Matrix serialisation is injective and decodable", "statement": "The byte string written by Matrix.serialise_state determines the matrix: 4-byte little-endian signed row count, 4-byte column count, then rows*columns 8-byte elements row by row; it can be decoded, decoding is the inverse of encoding, two matrices with equal bytes have equal shape and bitwise equal elements, and the encoding is self-delimiting so that concatenated states can be split again.", "quantifier": "every matrix whose dimensions fit 31 bits, every bit pattern of its elements, any trailing bytes", "why_tests_cant": "injectivity over all matrices is unbounded", "anchors": [{"file": "src/wai/ma/core/matrix/_Matrix.py", "symbols": ["Matrix.serialise_state"]}, {"file": "src/wai/ma/core/_Serialisable.py", "symbols": ["Serialisable.serialise_to_bytes"]}]}
{"id": "C16", "title": "Scalar serialisation range and round trip", "statement": "serialise_to_bytes(int) yields the 4-byte little-endian two's-complement encoding and raises OverflowError exactly outside [-2^31, 2^31); a float yields its 8-byte little-endian IEEE pattern; a str yields its UTF-8 bytes preceded by their 4-byte length; anything else raises TypeError; encodings of values of the same type are injective and prefix-decodable.", "quantifier": "all integers, all 64-bit patterns, all byte strings", "why_tests_cant": "range boundaries and injectivity over all integers", "anchors": [{"file": "src/wai/ma/core/_Serialisable.py", "symbols": ["Serialisable.serialise_to_bytes"]}]}
{"id": "C17", "title": "Big-integer serialisation accepts every integer", "statement": "serialise_big_int(n) encodes every Python integer so that n can be decoded back.", "quantifier": "all integers", "why_tests_cant": "the failing values (those whose bit length is a multiple of 8) are sparse among small test values but infinite in number", "anchors": [{"file": "src/wai/ma/core/_Serialisable.py", "symbols": ["Serialisable.serialise_big_int"]}]}
{"id": "C18", "title": "get_serialised_state returns the state", "statement": "get_serialised_state() returns exactly the bytes that serialise_state writes to a stream and save_state writes to a file.", "quantifier": "every serialisable object and every state", "why_tests_cant": "the defect (the stream is read at its end) affects every object; no test calls the function", "anchors": [{"file": "src/wai/ma/core/_Serialisable.py", "symbols": ["Serialisable.get_serialised_state", "Serialisable.save_state"]}]}
{"id": "C19", "title": "Decomposition cache never goes stale", "statement": "After any sequence of method calls on a matrix, the eigenvalues/eigenvectors reported are those of its current contents, and get_singular_values reports the singular values of its current contents or raises.", "quantifier": "every finite history of reads, writes, in-place vector operations and decomposition requests on one matrix", "why_tests_cant": "depends on the interleaving of mutation and decomposition calls, an unbounded set of histories", "anchors": [{"file": "src/wai/ma/core/matrix/_Matrix.py", "symbols": ["Matrix.set", "Matrix.set_row", "Matrix.set_column", "Matrix.reset_cache", "Matrix.make_eigenvalue_decomposition", "Matrix.get_singular_values", "Matrix.vector_op_modify"]}, {"file": "src/wai/ma/core/matrix/helper.py", "symbols": ["fill_diagonal"]}]}
{"id": "C20", "title": "Non-mutating operations leave all existing matrices alone", "statement": "In any sequence of matrix API calls over any set of matrices, an operation that is not set, set_row, set_column, *_modify or fill_diagonal changes the contents of no existing matrix and returns an object that shares no storage with any existing one (except get_eigenvalue_decomposition_V, which hands out the cached matrix); the mutating ones change only their receiver.", "quantifier": "every finite sequence of API calls over any number of matrices, including aliased arguments", "why_tests_cant": "aliasing and frame properties over histories", "anchors": [{"file": "src/wai/ma/core/matrix/_Matrix.py", "symbols": ["Matrix (all methods)"]}, {"file": "src/wai/ma/core/matrix/helper.py", "symbols": ["fill_diagonal"]}]}
{"id": "C21", "title": "Sorted eigenvectors and eigenvalues stay paired", "statement": "The k-th column of get_eigenvectors_sorted_descending/ascending is an eigenvector for the k-th entry of get_eigenvalues_sorted_descending/ascending, the sorted eigenvalues are monotone, and nothing is lost or duplicated (they are a rearrangement of the unsorted pairs); the dominant eigenvector belongs to the largest eigenvalue.", "quantifier": "every square real matrix with at least one row and every answer of the eigen-solver that satisfies A v = lambda v with real eigenvalues, including repeated eigenvalues", "why_tests_cant": "ties between eigenvalues and arbitrary solver orderings", "anchors": [{"file": "src/wai/ma/core/matrix/_Matrix.py", "symbols": ["Matrix.get_eigenvectors_sorted", "Matrix.get_eigenvalues_sorted", "Matrix.get_dominant_eigenvector"]}]}
{"id": "C22", "title": "Singular value factors recombine", "statement": "svd_U * svd_S * svd_V reproduces the matrix, for every answer of the SVD solver; svd_V is the transposed right factor (its rows, not its columns, are the right singular vectors), so that U*S*V^T does not reproduce the matrix in general.", "quantifier": "every real matrix with at least one row and one column and every correct SVD answer", "why_tests_cant": "all matrices, all solver answers; transposition mistakes vanish on the symmetric examples used in tests", "anchors": [{"file": "src/wai/ma/core/matrix/_Matrix.py", "symbols": ["Matrix.svd_U", "Matrix.svd_V", "Matrix.svd_S", "Matrix.make_singular_value_decomposition"]}]}
{"id": "C23", "title": "Factory constructors build what they say", "statement": "zeros(r,c) with r >= 1 and filled(r,c,x) have shape r x c with constant entries (for zeros and eye c = -1 means square; filled and eye raise ValueError on negative sizes), eye(r,c) has ones exactly on the diagonal, range(r,c,s) has entry s + i*c + j and raises for c = 0, diag(v) places v on the diagonal, from_row/from_column have the given entries, create_spectrum pairs wave numbers with amplitudes and raises on unequal lengths; asking for zero rows yields a 1x0 matrix.", "quantifier": "all sizes (negative ones included), all fill values, all lists", "why_tests_cant": "all sizes, including zero sizes for which the shape is silently different", "anchors": [{"file": "src/wai/ma/core/matrix/factory.py", "symbols": ["zeros", "filled", "eye", "range", "diag", "from_row", "from_column", "create", "create_spectrum"]}]}
{"id": "C24", "title": "randn honours its parameters", "statement": "factory.randn(rows, columns, seed, mean, std) depends on mean and std: with the same seed, the result for (mean,std) is mean + std * (result for (0,1)); and rand/randn with a seed are deterministic whatever random numbers were drawn before.", "quantifier": "all shapes, all seeds, all means and standard deviations, all prior generator states", "why_tests_cant": "a statistical test on one seed cannot distinguish an ignored parameter for all seeds; determinism ranges over all prior histories", "anchors": [{"file": "src/wai/ma/core/matrix/factory.py", "symbols": ["randn", "randn_like", "rand", "rand_like"]}]}
{"id": "C25", "title": "Column deletion", "statement": "helper.delete_cols(m, cols) keeps exactly the columns whose index is not listed, in order; delete_col(m,c) removes one column; indices outside the matrix are ignored; the original is unchanged.", "quantifier": "all matrices, all index lists (any order, duplicates, out of range, negative)", "why_tests_cant": "all index lists", "anchors": [{"file": "src/wai/ma/core/matrix/helper.py", "symbols": ["delete_col", "delete_cols"]}]}
{"id": "C26", "title": "CSV write/read round trip", "statement": "Reading back what helper.write produced (same separator and header flag) gives the same matrix whenever number formatting round-trips and produces neither separator nor newline, for at least one row and one column; rows shorter than the first are padded with 0, longer ones truncated, unparseable cells become 0; a file without data rows raises.", "quantifier": "all matrices with at least one row and column, all separators not occurring in a number, both header settings, all text inputs", "why_tests_cant": "all matrices and all text inputs", "anchors": [{"file": "src/wai/ma/core/matrix/helper.py", "symbols": ["read", "write", "to_lines", "data_to_string"]}]}
{"id": "C27", "title": "Row/column statistics", "statement": "row_means, column_means, row_stdevs, column_stdevs, mean and stdev compute the arithmetic mean and the n-1 standard deviation of every row/column with the documented orientation; adding a constant shifts means and leaves standard deviations alone; scaling by k scales means by k and standard deviations by |k|; a standard deviation is 0 exactly when the column is constant.", "quantifier": "all real matrices, all constants", "why_tests_cant": "laws over all real data", "anchors": [{"file": "src/wai/ma/core/matrix/helper.py", "symbols": ["row_means", "column_means", "row_stdevs", "column_stdevs", "mean", "stdev"]}]}
{"id": "C28", "title": "utils.sort returns a sorting permutation (floating-point arrays)", "statement": "For an array of numpy reals without NaN, utils.sort(a) terminates, never indexes out of range, leaves a unchanged and returns a permutation p of 0..n-1 with a[p[0]] <= a[p[1]] <= ...", "quantifier": "all arrays of every length over any totally ordered numbers, including duplicates", "why_tests_cant": "quicksort with median-of-three has size-dependent special cases and tie handling; termination and in-range access range over all inputs", "anchors": [{"file": "src/wai/ma/core/utils.py", "symbols": ["sort", "quick_sort", "partition", "_partition_real", "sort_left_right_and_center", "conditional_swap", "swap", "initial_index"]}]}
{"id": "C29", "title": "utils.sort on integer arrays", "statement": "For an array of Python integers, utils.sort returns a permutation that sorts it.", "quantifier": "all integer arrays", "why_tests_cant": "the integer branch only goes wrong for particular arrangements of four or more elements", "anchors": [{"file": "src/wai/ma/core/utils.py", "symbols": ["sort", "quick_sort", "_partition_int"]}]}
{"id": "C30", "title": "linear_regression is least squares", "statement": "utils.linear_regression(x,y) returns (intercept, slope) minimising the sum of squared residuals, uniquely, whenever x has at least two distinct values; exact on collinear data.", "quantifier": "all equally long real sequences with at least two distinct abscissae", "why_tests_cant": "optimality against every competing line is a universal statement", "anchors": [{"file": "src/wai/ma/core/utils.py", "symbols": ["linear_regression", "sum_of_squares"]}]}
{"id": "C31", "title": "max_index finds the maximum", "statement": "utils.max_index(a) is the index of a largest element of a non-empty array.", "quantifier": "all non-empty arrays", "why_tests_cant": "must hold for every position of the maximum", "anchors": [{"file": "src/wai/ma/core/utils.py", "symbols": ["max_index"]}]}
{"id": "C32", "title": "Downsample picks every step-th column", "statement": "Downsample(start, step).transform(m) has columns start, start+step, ... of m, i.e. ceil((cols-start)/step) columns (none if start >= cols), with column k equal to m's column start+k*step, and the same rows; step 0 raises.", "quantifier": "all matrices, all start >= 0 and step >= 1", "why_tests_cant": "all combinations of sizes and parameters", "anchors": [{"file": "src/wai/ma/filter/_Downsample.py", "symbols": ["Downsample.transform"]}]}
{"id": "C33", "title": "Equidistance resampling interpolates linearly", "statement": "Equidistance(num_samples).transform(m) has num_samples columns; the first and last columns equal m's; every value lies between its two neighbours; it is the identity when num_samples equals the column count; linear signals are reproduced exactly at the new equidistant positions; num_samples < 2 is rejected; no column access is out of range.", "quantifier": "all matrices with at least one column, all num_samples >= 2", "why_tests_cant": "index arithmetic over all pairs (columns, num_samples)", "anchors": [{"file": "src/wai/ma/filter/_Equidistance.py", "symbols": ["Equidistance.transform", "Equidistance.validate_num_samples"]}]}
{"id": "C34", "title": "MultiFilter is composition", "statement": "MultiFilter(f1..fn).transform(m) applies the filters left to right, the empty MultiFilter returns m, nesting is associative, and the first failing filter's error is the result.", "quantifier": "all lists of filters (arbitrary functions), all inputs", "why_tests_cant": "ranges over arbitrary filters and list lengths", "anchors": [{"file": "src/wai/ma/core/_MultiFilter.py", "symbols": ["MultiFilter.transform"]}]}
{"id": "C35", "title": "Configure-once semantics of transformations", "statement": "Center, Standardize, PassThrough, Log, MultiplicativeScatterCorrection and the scikit-learn based transformations (RowNorm is the subject of its own property) take their parameters from the first matrix they see after construction or reset and reuse them for every later matrix: the result of every later transform/inverse_transform depends only on that first matrix and its own argument; reset returns to the unconfigured state; quick_apply equals a fresh transform.", "quantifier": "all finite sequences of transform, inverse_transform, configure and reset calls with arbitrary matrices", "why_tests_cant": "statement about all call histories", "anchors": [{"file": "src/wai/ma/transformation/_AbstractTransformation.py", "symbols": ["AbstractTransformation.transform", "AbstractTransformation.inverse_transform", "AbstractTransformation.quick_apply"]}, {"file": "src/wai/ma/transformation/_Center.py", "symbols": ["Center"]}, {"file": "src/wai/ma/transformation/_Standardize.py", "symbols": ["Standardize"]}]}
{"id": "C36", "title": "Center round trip and zero means", "statement": "After Center has been configured on d, transform(d) has zero column means, inverse_transform(transform(x)) = x for every x of that width, the shape is preserved, the input is not changed, and inputs of another width raise ValueError.", "quantifier": "all real matrices d with at least one row, all x", "why_tests_cant": "all real data", "anchors": [{"file": "src/wai/ma/transformation/_Center.py", "symbols": ["Center.configure", "Center.do_transform", "Center.do_inverse_transform"]}]}
{"id": "C37", "title": "Standardize round trip and unit variance", "statement": "After Standardize has been configured on d, transform(d) has zero column means and unit (n-1) standard deviation in every non-constant column, inverse_transform(transform(x)) = x for every x of that width, and constant columns are mapped to zeros instead of dividing by zero.", "quantifier": "all real matrices d with at least two rows, all x of the same width", "why_tests_cant": "the zero-deviation guard must hold for a constant column in any position; tests have no constant column", "anchors": [{"file": "src/wai/ma/transformation/_Standardize.py", "symbols": ["Standardize.configure", "Standardize.do_transform", "Standardize.do_inverse_transform"]}]}
{"id": "C38", "title": "RowNorm round trip", "statement": "RowNorm: transform(d) gives every non-constant row mean 0 and standard deviation 1 and maps constant rows to zeros; inverse_transform(transform(d)) = d.", "quantifier": "all real matrices with at least two columns and all call histories", "why_tests_cant": "the failure depends on the hidden configured flag, i.e. on call history", "anchors": [{"file": "src/wai/ma/transformation/_RowNorm.py", "symbols": ["RowNorm.configure", "RowNorm.do_transform", "RowNorm.do_inverse_transform"]}, {"file": "src/wai/ma/transformation/_AbstractTransformation.py", "symbols": ["AbstractTransformation.inverse_transform"]}]}
{"id": "C39", "title": "Log transform domain and round trip", "statement": "Log(base, offset).transform(x) raises ValueError exactly when some entry has x+offset <= 0, otherwise entries are log_base(x+offset); inverse_transform(transform(x)) = x for every accepted x; base must be positive and different from 1 or the assignment raises and changes nothing.", "quantifier": "all real matrices, all bases, all offsets", "why_tests_cant": "all reals", "anchors": [{"file": "src/wai/ma/transformation/_Log.py", "symbols": ["Log.configure", "Log.do_transform", "Log.do_inverse_transform", "Log.validate_base"]}]}
{"id": "C40", "title": "Savitzky-Golay window bookkeeping", "statement": "SavitzkyGolay with L left and R right points maps r x c matrices to r x (c-L-R) matrices whose column j is the same fixed linear combination of input columns j..j+L+R (so the filter is linear and shift-equivariant), raises when c < L+R+1, and any change of order, derivative or window discards the old coefficients before the next transform.", "quantifier": "all window sizes, all matrices, all histories of parameter changes", "why_tests_cant": "all sizes and all interleavings of parameter changes and transforms", "anchors": [{"file": "src/wai/ma/transformation/_SavitzkyGolay.py", "symbols": ["SavitzkyGolay.do_transform", "SavitzkyGolay.configure", "SavitzkyGolay.determine_coefficients", "SavitzkyGolay.reset"]}]}
{"id": "C41", "title": "Savitzky-Golay polynomial exactness", "statement": "The coefficients reproduce polynomials: applied to samples of any polynomial of degree <= polynomial_order the filter yields its Taylor coefficient of order d (derivative_order) at the window's centre point exactly, i.e. the value for d=0 and the first derivative for d=1; the documented d-th derivative for every d.", "quantifier": "all window sizes, orders, derivative orders and all polynomials up to that degree", "why_tests_cant": "quantifies over all polynomials; a regression file cannot expose a missing factorial", "anchors": [{"file": "src/wai/ma/transformation/_SavitzkyGolay.py", "symbols": ["SavitzkyGolay.determine_coefficients"]}]}
{"id": "C42", "title": "FFT transform keeps rows apart", "statement": "Row i of FFT().transform(m) depends only on row i of m and equals the packed Fourier transform of that row.", "quantifier": "all matrices with any number of rows", "why_tests_cant": "single-row or inverse-only tests cannot see a rotation of rows", "anchors": [{"file": "src/wai/ma/transformation/_FFT.py", "symbols": ["FFT.do_transform", "FFT.internal_format"]}]}
{"id": "C43", "title": "FFT round trip", "statement": "For the invertible output formats, inverse_transform(transform(m)) = m, output has as many columns as input, and the non-invertible formats raise ValueError on inverse_transform.", "quantifier": "all real matrices with any number of rows and columns (even and odd)", "why_tests_cant": "all sizes, both parities; Hermitian packing boundaries", "anchors": [{"file": "src/wai/ma/transformation/_FFT.py", "symbols": ["FFT.do_transform", "FFT.do_inverse_transform", "FFT.internal_format", "FFT.internal_unformat"]}]}
{"id": "C44", "title": "Multiplicative scatter correction recovers the reference", "statement": "A spectrum that is an affine image a + b*reference (b != 0) of the reference is corrected to exactly the reference on the corrected range, and left alone outside it.", "quantifier": "all reference spectra with at least two distinct values in the range, all a, all b != 0", "why_tests_cant": "all affine distortions", "anchors": [{"file": "src/wai/ma/transformation/_MultiplicativeScatterCorrection.py", "symbols": ["MultiplicativeScatterCorrection"]}, {"file": "src/wai/ma/core/utils.py", "symbols": ["linear_regression"]}]}
{"id": "C45", "title": "Kernel matrices", "statement": "For linear, polynomial and RBF kernels, apply_matrix(X,Y)[i][j] = apply_vector(row i of X, row j of Y), apply_matrix(X) = apply_matrix(X,X) is symmetric; the RBF kernel has unit diagonal and entries in (0,1] and equals exp(-gamma*||x-y||^2).", "quantifier": "all matrices of equal width, all gammas and degrees", "why_tests_cant": "all data, all parameters", "anchors": [{"file": "src/wai/ma/transformation/kernel/_AbstractKernel.py", "symbols": ["AbstractKernel.apply_matrix"]}, {"file": "src/wai/ma/transformation/kernel/_RBFKernel.py", "symbols": ["RBFKernel.apply_vector"]}, {"file": "src/wai/ma/transformation/kernel/_PolyKernel.py", "symbols": ["PolyKernel"]}, {"file": "src/wai/ma/transformation/kernel/_LinearKernel.py", "symbols": ["LinearKernel"]}]}
{"id": "C46", "title": "Validated parameters", "statement": "Assigning an invalid value to a validated parameter raises ValueError and changes nothing (value and trained state); assigning a valid one stores it and puts the object into its reset (untrained) state, so that a model is never used with parameters other than those it was trained with.", "quantifier": "all histories of assignments, training and prediction calls, all values", "why_tests_cant": "all interleavings", "anchors": [{"file": "src/wai/ma/core/_LoggingObject.py", "symbols": ["LoggingObject.__setattr__"]}, {"file": "src/wai/ma/algorithm/pls/_AbstractPLS.py", "symbols": ["AbstractPLS"]}]}
{"id": "C47", "title": "Model life cycle", "statement": "predict/transform on a PLS model raise RuntimeError unless the most recent initialize since the last reset/parameter change succeeded; a failed or raising initialize leaves the model untrained even if it was trained before; inputs passed to initialize are not modified.", "quantifier": "all histories of initialize (succeeding, failing, raising), predict, transform, reset and parameter assignment", "why_tests_cant": "all call histories and failure points", "anchors": [{"file": "src/wai/ma/algorithm/pls/_AbstractPLS.py", "symbols": ["AbstractPLS.initialize", "AbstractPLS.predict", "AbstractPLS.transform", "AbstractPLS.reset"]}]}
{"id": "C48", "title": "Retraining forgets earlier data", "statement": "Training on (X2,Y2) after having trained on (X1,Y1) gives the same model, hence the same predictions, as training a fresh instance on (X2,Y2).", "quantifier": "all pairs of training sets, every algorithm that offers initialize/transform", "why_tests_cant": "requires comparing two histories for all data", "anchors": [{"file": "src/wai/ma/algorithm/_CCAFilter.py", "symbols": ["CCAFilter.reset", "CCAFilter.do_initialize"]}, {"file": "src/wai/ma/algorithm/pls/_DIPLS.py", "symbols": ["DIPLS.reset"]}, {"file": "src/wai/ma/algorithm/ica/_FastICA.py", "symbols": ["FastICA.reset"]}, {"file": "src/wai/ma/algorithm/pls/_PLS1.py", "symbols": ["PLS1.reset"]}, {"file": "src/wai/ma/algorithm/pls/_SIMPLS.py", "symbols": ["SIMPLS.reset"]}]}
{"id": "C49", "title": "Preprocessing is applied consistently at prediction", "statement": "With preprocessing CENTER or STANDARDIZE, predictions do not depend on adding a constant to a predictor column in both training and prediction data.", "quantifier": "all training sets, prediction sets and shifts", "why_tests_cant": "a metamorphic relation over all data", "anchors": [{"file": "src/wai/ma/algorithm/pls/_AbstractSingleResponsePLS.py", "symbols": ["AbstractSingleResponsePLS"]}, {"file": "src/wai/ma/algorithm/pls/_AbstractMultiResponsePLS.py", "symbols": ["AbstractMultiResponsePLS"]}]}
{"id": "C50", "title": "Response de-normalisation per column", "statement": "With preprocessing, each predicted response column is mapped back with that column's own training mean and standard deviation.", "quantifier": "all response matrices with any number of columns", "why_tests_cant": "needs several response columns with different means; tests have one", "anchors": [{"file": "src/wai/ma/algorithm/pls/_AbstractMultiResponsePLS.py", "symbols": ["AbstractMultiResponsePLS.do_initialize", "AbstractMultiResponsePLS.do_predict"]}]}
{"id": "C51", "title": "PLS1 score orthogonality and regression form", "statement": "After PLS1 training (no exact breakdown) the weight vectors are orthonormal, the score vectors mutually orthogonal, P^T W is unit upper triangular, and predict(x) for any new x equals x * W (P^T W)^-1 b; transform(x) gives the scores x W (P^T W)^-1.", "quantifier": "all real training sets without breakdown, any number of components, all new rows", "why_tests_cant": "algebraic identities over all real data and all component counts", "anchors": [{"file": "src/wai/ma/algorithm/pls/_PLS1.py", "symbols": ["PLS1.do_pls_initialize", "PLS1.do_perform_predictions", "PLS1.do_pls_transform"]}]}
{"id": "C52", "title": "SIMPLS coefficient slimming", "statement": "With num_coefficients = k > 0, at most k coefficients of each regression column remain non-zero: those of largest magnitude; k <= 0 keeps all.", "quantifier": "all weight matrices and all k", "why_tests_cant": "all data, ties, all k; off-by-one boundary", "anchors": [{"file": "src/wai/ma/algorithm/pls/_SIMPLS.py", "symbols": ["SIMPLS.slim"]}]}
{"id": "C53", "title": "Single-response check", "statement": "Single-response PLS accepts exactly one response column; multi-response PLS respects its min/max column bounds; the error is returned as a message and the model stays untrained; NIPALS accepts multi-column responses.", "quantifier": "all response widths, all data", "why_tests_cant": "all widths", "anchors": [{"file": "src/wai/ma/algorithm/pls/_AbstractSingleResponsePLS.py", "symbols": ["AbstractSingleResponsePLS.check"]}, {"file": "src/wai/ma/algorithm/pls/_AbstractMultiResponsePLS.py", "symbols": ["AbstractMultiResponsePLS.check"]}, {"file": "src/wai/ma/algorithm/pls/_NIPALS.py", "symbols": ["NIPALS.do_pls_initialize"]}]}
{"id": "C54", "title": "NIPALS inner loop converges to a fixed point", "statement": "The inner NIPALS loop terminates within max_iter iterations and, when it stops by tolerance, its X weights are a fixed point of the alternating X/Y update.", "quantifier": "all data, tolerances and iteration bounds", "why_tests_cant": "all data", "anchors": [{"file": "src/wai/ma/algorithm/pls/_NIPALS.py", "symbols": ["NIPALS.nipals_loop"]}]}
{"id": "C55", "title": "PRM iteration and weights", "statement": "PRM iterates until the regression norm changes by less than tol or max_iter is reached, and every robustness weight lies in (0,1].", "quantifier": "all data, tolerances, tuning constants c > 0", "why_tests_cant": "all data; inverted loop condition only shows in the number of iterations", "anchors": [{"file": "src/wai/ma/algorithm/pls/_PRM.py", "symbols": ["PRM"]}]}
{"id": "C56", "title": "PCA component selection", "statement": "PCA keeps the smallest number of leading components whose cumulative variance share reaches the threshold, never more than max_columns when it is set, ordered by decreasing eigenvalue; the transformed data has one column per kept component; constant columns are dropped first and loadings refer to original columns.", "quantifier": "all data, thresholds in (0,1), max_columns settings", "why_tests_cant": "all spectra of eigenvalues", "anchors": [{"file": "src/wai/ma/algorithm/_PCA.py", "symbols": ["PCA"]}]}
{"id": "C57", "title": "GLSW / EPO filter matrices", "statement": "GLSW's correction matrix is symmetric and the transform is X*G; EPO removes the interference directions (x*G is orthogonal to every kept eigenvector); initialisation rejects unequal shapes.", "quantifier": "all pairs of data matrices, all eigen-solver answers, all N", "why_tests_cant": "all data and all N including N larger than the number of columns", "anchors": [{"file": "src/wai/ma/algorithm/glsw/_GLSW.py", "symbols": ["GLSW"]}, {"file": "src/wai/ma/algorithm/glsw/_EPO.py", "symbols": ["EPO"]}]}
{"id": "C58", "title": "Y-gradient filter computes a derivative", "statement": "The five-point Savitzky-Golay filter used by YGradientGLSW/YGradientEPO returns as many rows as given and, on samples of a quadratic, the first derivative at every interior row.", "quantifier": "all row counts >= 5, all quadratics", "why_tests_cant": "sign and index reversal for all signals", "anchors": [{"file": "src/wai/ma/algorithm/glsw/_YGradientGLSW.py", "symbols": ["SavitzkyGolayFilter"]}, {"file": "src/wai/ma/transformation/_YGradientGLSWSavitzkyGolayFilter.py", "symbols": ["YGradientGLSWSavitzkyGolayFilter"]}]}
{"id": "C59", "title": "OPLS correction", "statement": "OPLS orthogonal weights are orthogonal to the predictive weight vector; transform(x) removes from x exactly what was removed from the training data (transform of the training matrix equals the filtered training matrix).", "quantifier": "all training data, any number of components", "why_tests_cant": "algebra over all data; differs only from two components on", "anchors": [{"file": "src/wai/ma/algorithm/pls/_OPLS.py", "symbols": ["OPLS"]}]}
{"id": "C60", "title": "SparsePLS direction vectors", "statement": "SparsePLS direction vectors have unit length, and predictions depend only on the selected (non-zero) features.", "quantifier": "all data, all sparsity parameters in [0,1]", "why_tests_cant": "all data", "anchors": [{"file": "src/wai/ma/algorithm/pls/_SparsePLS.py", "symbols": ["SparsePLS"]}]}
{"id": "C61", "title": "inverse and solve", "statement": "For square m, inverse() returns x with m x = x m = I or raises LinAlgError exactly when m is singular; helper.solve(a,b) returns x with a x = b or raises.", "quantifier": "all square real matrices of any size", "why_tests_cant": "all matrices of all sizes", "anchors": [{"file": "src/wai/ma/core/matrix/_Matrix.py", "symbols": ["Matrix.inverse"]}, {"file": "src/wai/ma/core/matrix/helper.py", "symbols": ["solve"]}]}
{"id": "C62", "title": "norms and normalisation", "statement": "norm1 is the sum of absolute values, norm2 is the Frobenius norm (for non-vectors divided by sqrt(min(rows,cols))), norm2_squared its square, normalized() gives every non-zero column unit Euclidean length; norms are absolutely homogeneous and satisfy the triangle inequality.", "quantifier": "all real matrices, all scalars", "why_tests_cant": "inequalities over all real data", "anchors": [{"file": "src/wai/ma/core/matrix/_Matrix.py", "symbols": ["Matrix.norm1", "Matrix.norm2", "Matrix.norm2_squared", "Matrix.normalized", "Matrix.vector_dot"]}]}
{"id": "C63", "title": "Matrix methods compute from the current contents", "statement": "After any sequence of matrix API calls, each further call (other than reports of a cached decomposition) returns what its mathematical definition gives on the current contents of its receiver and arguments, each in-place call leaves in its receiver exactly the defined contents and returns nothing, and a call that raises leaves the contents as they were; svd_U, svd_S and svd_V always describe the current contents.", "quantifier": "every finite sequence of API calls over any number of matrices, including a matrix passed to itself", "why_tests_cant": "results could depend on hidden state or aliasing only after particular histories", "anchors": [{"file": "src/wai/ma/core/matrix/_Matrix.py", "symbols": ["Matrix (all methods)"]}, {"file": "src/wai/ma/core/matrix/helper.py", "symbols": ["fill_diagonal"]}]}
{"id": "C64", "title": "PLS calls terminate", "statement": "Every initialize, predict, transform and parameter assignment on any PLS object returns or raises: the inner loops of NIPALS, KernelPLS, PRM and the geometric median end after at most max_iter passes, whatever the data, tolerance and iteration limit, including NaN data.", "quantifier": "all PLS classes, all data (including NaN and infinities), all parameter values, all object states", "why_tests_cant": "a while loop that never meets its tolerance needs particular data; no finite test set excludes it", "anchors": [{"file": "src/wai/ma/algorithm/pls/_NIPALS.py", "symbols": ["NIPALS"]}, {"file": "src/wai/ma/algorithm/pls/_KernelPLS.py", "symbols": ["KernelPLS"]}, {"file": "src/wai/ma/algorithm/pls/_PRM.py", "symbols": ["PRM"]}]}
{"id": "C65", "title": "GLSW damps by between-set variance", "statement": "After training GLSW on two data sets, every eigenvector of the covariance of their centred difference with eigenvalue lambda is mapped by transform to itself divided by sqrt(lambda^2/alpha + 1), so directions in which the data sets differ more are damped more.", "quantifier": "all pairs of data sets, all alpha > 0, all correct answers of the eigen- and singular-value solvers", "why_tests_cant": "depends on the order in which the eigen-solver reports its pairs", "anchors": [{"file": "src/wai/ma/algorithm/glsw/_GLSW.py", "symbols": ["GLSW.do_initialize", "GLSW.get_eigenvector_matrix", "GLSW.get_weight_matrix"]}]}
{"id": "C66", "title": "CCAFilter finds whitened canonical pairs", "statement": "After CCAFilter.initialize(X, Y): the projections are white with respect to the regularised second moments (proj_X^T (Xc^T Xc + lambda_X I) proj_X = I, likewise for Y), the projected data are pairwise uncorrelated with the singular values of the whitened cross moments as cross products, transform subtracts the training means and multiplies by proj_X; training works for every kcca up to the smaller number of columns and is refused with a message above it; untrained objects raise RuntimeError.", "quantifier": "all data, all lambda > 0, all kcca, all correct answers of the eigen- and singular-value solvers, all call histories", "why_tests_cant": "linear algebra over all data and all solver answers; more targets than features; histories", "anchors": [{"file": "src/wai/ma/algorithm/_CCAFilter.py", "symbols": ["CCAFilter"]}]}
{"id": "C67", "title": "FastICA returns white sources and can rebuild the data", "statement": "FastICA.transform(X) with whitening returns S = centred(X) C^T with C the components attribute: one row per sample, min(num_components, features, samples) columns, every column of mean 0, S^T S = I for both algorithms, every approximation function and every max_iter; with as many components as features S M^T is the centred data (M the mixing attribute) and reconstruct() returns X itself; transform always retrains, reconstruct before a successful transform raises MatrixAlgorithmsError; with whiten = False the unmixing matrix is orthogonal and reconstruct returns X.", "quantifier": "all data of full leading rank, all parameters, all starting matrices, all correct answers of the solvers, all call histories", "why_tests_cant": "orthogonality after any number of iterations for all data; shapes other than the ones tested; histories", "anchors": [{"file": "src/wai/ma/algorithm/ica/_FastICA.py", "symbols": ["FastICA"]}, {"file": "src/wai/ma/algorithm/ica/approxfun/_LogCosH.py", "symbols": ["LogCosH"]}, {"file": "src/wai/ma/algorithm/ica/approxfun/_Cube.py", "symbols": ["Cube"]}, {"file": "src/wai/ma/algorithm/ica/approxfun/_Exponential.py", "symbols": ["Exponential"]}]}
{"id": "C68", "title": "SIMPLS projects onto orthonormal scores", "statement": "After SIMPLS.initialize(X, Y) without sparsity (num_coefficients <= 0) and while no component breaks down, transform of the preprocessed training data returns orthonormal score columns, one per component, and predict returns on them the orthogonal projection of the preprocessed response onto those scores, mapped back to the original scale.", "quantifier": "all real data of every size, all numbers of components up to breakdown, all preprocessing types, all signs the eigen-solver may choose", "why_tests_cant": "orthogonality after any number of deflation rounds for all data", "anchors": [{"file": "src/wai/ma/algorithm/pls/_SIMPLS.py", "symbols": ["SIMPLS.do_perform_initialization", "SIMPLS.do_perform_predictions", "SIMPLS.do_transform"]}]}
{"id": "C69", "title": "PLS1 and SIMPLS agree", "statement": "PLS1 and SIMPLS (num_coefficients <= 0) trained on the same single-response data with the same number of components and the same preprocessing return equal predictions for every new data matrix, and SIMPLS's scores are PLS1's divided by the length of PLS1's training scores, up to the sign of each column.", "quantifier": "all real data of every size without breakdown, all new data, all preprocessing types", "why_tests_cant": "equivalence of two different recursions for every number of components and all data", "anchors": [{"file": "src/wai/ma/algorithm/pls/_SIMPLS.py", "symbols": ["SIMPLS"]}, {"file": "src/wai/ma/algorithm/pls/_PLS1.py", "symbols": ["PLS1"]}]}
{"id": "C70", "title": "NIPALS on one response is PLS1 on standardised data", "statement": "NIPALS (no preprocessing of its own) trained on a single response with enough correlation to start from uses some number h of components, all requested ones with regression deflation unless the remaining response or the next scores become negligible, and at most one with canonical deflation; its predictions for any new data equal those of PLS1 with h components and standardisation on the same training data, given the new data standardised with the training statistics, and its scores are PLS1's up to a constant factor just below one per component and zero beyond h.", "quantifier": "all real data of every size, all new data, all numbers of components, all max_iter and tol, both deflation modes, every pseudo-inverse satisfying the Penrose equations", "why_tests_cant": "equivalence of two different algorithms for all data, including the early stops that depend on thresholds", "anchors": [{"file": "src/wai/ma/algorithm/pls/_NIPALS.py", "symbols": ["NIPALS.do_perform_initialization", "NIPALS.nipals_loop", "NIPALS.do_perform_predictions", "NIPALS.do_transform"]}, {"file": "src/wai/ma/algorithm/pls/_PLS1.py", "symbols": ["PLS1"]}]}
{"id": "C71", "title": "KernelPLS scores and residuals", "statement": "After any KernelPLS training that returns None (no preprocessing of its own), whatever the kernel: the score matrix T has orthonormal columns that each sum to zero, the published (deflated) kernel matrix K is orthogonal to T from both sides, Q = Y^T T, and with the linear, polynomial and RBF kernels predict on the training data leaves residuals orthogonal to every score.", "quantifier": "all real data of every size, every number of components, kernel, tolerance, max_iter and random start", "why_tests_cant": "orthogonality after any number of deflation rounds for all data, also when the inner loop stops on max_iter", "anchors": [{"file": "src/wai/ma/algorithm/pls/_KernelPLS.py", "symbols": ["KernelPLS.do_perform_initialization", "KernelPLS.centralize_train_in_kernel_space", "KernelPLS.do_perform_predictions"]}]}
{"id": "C72", "title": "KernelPLS with the linear kernel is PLS1", "statement": "KernelPLS with LinearKernel trained on a single response succeeds and predicts for every new data matrix what PLS1 with centring and the same number of components predicts for the new data centred with the training means, provided PLS1 does not break down and the random start of each component is usable.", "quantifier": "all real data of every size, all new data, all numbers of components, all tolerances > 0, max_iter >= 2, all usable random starts", "why_tests_cant": "equivalence of a dual (n x n) and a primal algorithm for all data", "anchors": [{"file": "src/wai/ma/algorithm/pls/_KernelPLS.py", "symbols": ["KernelPLS"]}, {"file": "src/wai/ma/algorithm/pls/_PLS1.py", "symbols": ["PLS1"]}, {"file": "src/wai/ma/transformation/kernel/_LinearKernel.py", "symbols": ["LinearKernel"]}]}
{"id": "C73", "title": "KernelPLS training predictions keep the mean of the response", "statement": "After KernelPLS.initialize(X, Y) returned None, each column of predict(X) has the same mean as that column of Y: the regression includes an intercept, the kernel matrix being centred in feature space at training and at prediction.", "quantifier": "all real data of every size, all kernels, all parameters", "why_tests_cant": "holds for the linear kernel on every data set, so a test with it passes; the kernel is a parameter", "anchors": [{"file": "src/wai/ma/algorithm/pls/_KernelPLS.py", "symbols": ["KernelPLS.centralize_test_in_kernel_space", "KernelPLS.do_perform_predictions"]}]}
{"id": "C74", "title": "KernelPLS publishes the loadings on K", "statement": "After KernelPLS training get_matrix(\"P\") holds the loadings of the kernel matrix on the scores: column k is K^T t_k / (t_k^T t_k) for the kernel matrix K that component k was extracted from, so the first column is the centred kernel matrix applied to the first score.", "quantifier": "all real data of every size, all kernels, all parameters", "why_tests_cant": "for all data; values near rounding error look like plausible loadings", "anchors": [{"file": "src/wai/ma/algorithm/pls/_KernelPLS.py", "symbols": ["KernelPLS.do_perform_initialization", "KernelPLS.get_matrix"]}]}
{"id": "C75", "title": "Every accepted KernelPLS parameter can be trained with", "statement": "For every tol and max_iter that KernelPLS accepts there are data on which initialize(X, Y) succeeds.", "quantifier": "all accepted parameter values, all data, all kernels", "why_tests_cant": "the failing values are boundary values that no test uses; failure for all data", "anchors": [{"file": "src/wai/ma/algorithm/pls/_KernelPLS.py", "symbols": ["KernelPLS.validate_tol", "KernelPLS.validate_max_iter", "KernelPLS.do_perform_initialization"]}]}
{"id": "C76", "title": "Y-gradient covariance weighs samples by 2^(-y'/s)", "statement": "YGradientGLSW and YGradientEPO build their filter from C = sum_i w_i^2 dx_i dx_i^T, where the samples are sorted by increasing response (equal ones in the given order), dx_i and y'_i are the five-point gradients of the predictors and the response at sample i (end values repeated), and w_i = 2^(-y'_i/s) with s the standard deviation of y', so that a sample where the response changes fast weighs less than one where it hardly changes.", "quantifier": "all real data with one response column and at least two samples", "why_tests_cant": "a formula over all data, including ties and the treatment of both ends", "anchors": [{"file": "src/wai/ma/algorithm/glsw/_YGradientGLSW.py", "symbols": ["YGradientGLSW.get_covariance_matrix", "SavitzkyGolayFilter"]}]}
{"id": "C77", "title": "Y-gradient filters do not depend on the sample order", "statement": "YGradientGLSW and YGradientEPO initialised with the same samples in another order (rows of X and y permuted alike, all responses different) behave identically afterwards: same result or exception of initialize, same filter matrix.", "quantifier": "all data, all permutations, all parameters, all solvers", "why_tests_cant": "factorially many orders of arbitrary data", "anchors": [{"file": "src/wai/ma/algorithm/glsw/_YGradientGLSW.py", "symbols": ["YGradientGLSW.get_covariance_matrix"]}, {"file": "src/wai/ma/algorithm/glsw/_GLSW.py", "symbols": ["GLSW.initialize"]}]}
{"id": "C78", "title": "VCPLS weights maximise the penalised covariance quotient", "statement": "After VCPLS.initialize(X, y) with lambda_ > 0 on preprocessed data with linearly independent columns and at most as many components as columns: initialize returns None, the score columns of the training data are orthogonal and non-zero, the k-th weight column W_k has length 1 and, with E what remains of X after removing the earlier scores, maximises ((y.Ev)^2 - lambda |v|^2) / (|Ev|^2 + 1e-7 |v|^2) over all directions v, and predict returns for every new matrix the least-squares regression of the response on the scores, mapped back to the original scale.", "quantifier": "all real data of every size, all lambda > 0, all preprocessing types, all correct eigen-solvers, all new data", "why_tests_cant": "a maximum over infinitely many directions for all data and every number of components", "anchors": [{"file": "src/wai/ma/algorithm/pls/_VCPLS.py", "symbols": ["VCPLS.calculate_weights"]}, {"file": "src/wai/ma/algorithm/pls/_PLS1.py", "symbols": ["PLS1.do_perform_initialization", "PLS1.do_perform_predictions"]}]}
{"id": "C79", "title": "Every accepted VCPLS lambda gives a usable model", "statement": "For every lambda_ that VCPLS accepts, training on data with linearly independent columns and at most as many components as columns yields non-zero scores, so that the predictions are numbers.", "quantifier": "all accepted values of lambda_, all real data of every size with independent columns, all correct eigen-solvers", "why_tests_cant": "no test sets lambda_; the failure needs two or more components", "anchors": [{"file": "src/wai/ma/algorithm/pls/_VCPLS.py", "symbols": ["VCPLS.validate_lambda_", "VCPLS.calculate_weights"]}]}
{"id": "C80", "title": "DIPLS solves the domain-regularised weights of its definition", "statement": "After DIPLS.initialize_unsupervised / initialize_supervised / initialize_semisupervised returned None on a new object: with X, Xs, Xt the centred labelled, source and target predictors and y the centred response, component k has the weight vector proportional to (y^T X / y^T y) (I + lambda/(2 y^T y) (Xs^T Xs/(ns-1) - Xt^T Xt/(nt-1)))^-1, normalised to length 1; scores, loadings and regression weight come from that vector, X, Xs, Xt and y are then deflated each with its own scores; predict(Z) is the row minus the means of the target domain (of all labelled rows in the supervised modes) times W (P^T W)^-1 c plus the mean of the response, and transform(Z) is the centred row times W.", "quantifier": "all real data of every size, all lambda, all numbers of components, all three ways to train, all new data", "why_tests_cant": "every round's formula for all data and any number of components", "anchors": [{"file": "src/wai/ma/algorithm/pls/_DIPLS.py", "symbols": ["DIPLS.do_perform_initialization", "DIPLS.do_perform_predictions", "DIPLS.do_transform", "DIPLS.initialize_unsupervised", "DIPLS.initialize_supervised", "DIPLS.initialize_semisupervised"]}]}
{"id": "C81", "title": "DIPLS without a domain difference is PLS1", "statement": "If source and target predictors have the same covariance matrix (for example the target is the source plus a constant shift), DIPLS predicts, whatever lambda is, what PLS1 trained with centring on the labelled data predicts from the row minus the target means (minus the means of all labelled rows in supervised mode); unsupervised training then succeeds whenever PLS1 does not break down, and predictions for shifted rows equal PLS1's predictions for the rows themselves.", "quantifier": "all real data of every size with equal covariance matrices, all lambda, all numbers of components, all new data, all shifts", "why_tests_cant": "equality of two algorithms for all data and all lambda", "anchors": [{"file": "src/wai/ma/algorithm/pls/_DIPLS.py", "symbols": ["DIPLS.do_perform_initialization", "DIPLS.do_perform_predictions"]}, {"file": "src/wai/ma/algorithm/pls/_PLS1.py", "symbols": ["PLS1"]}]}
{"id": "C82", "title": "DIPLS semi-supervised training accepts any number of labelled target rows", "statement": "DIPLS.initialize_semisupervised(Xs, Xt, Xu, ys, yt) with ns source rows, nt labelled and nu unlabelled target rows of the same width and ns and nt responses does not fail because of the numbers ns, nt and nu (all at least 2).", "quantifier": "all data of every size, all combinations of ns, nt and nu, all parameters", "why_tests_cant": "the only test uses nt = ns; all other combinations fail", "anchors": [{"file": "src/wai/ma/algorithm/pls/_DIPLS.py", "symbols": ["DIPLS.initialize_semisupervised", "DIPLS.do_perform_initialization"]}]}
{"id": "C83", "title": "DIPLS transform gives the training scores", "statement": "After DIPLS training, transform(X) of the labelled training rows equals the score matrix get_matrix(\"T\") (unsupervised mode, source and target with equal means).", "quantifier": "all real data of every size, all numbers of components", "why_tests_cant": "holds for one component; for more the columns are only combinations of the scores", "anchors": [{"file": "src/wai/ma/algorithm/pls/_DIPLS.py", "symbols": ["DIPLS.do_transform", "DIPLS.get_matrix", "DIPLS.do_perform_initialization"]}]}
{"id": "C84", "title": "median and max of a matrix", "statement": "Matrix.median() of a matrix with at least one entry is the middle one of its entries in order, or the mean of the two middle ones: at least half of the entries are not larger, at least half are not smaller, and no number has a smaller sum of distances to the entries; the order of the entries does not matter. It is NaN for a matrix without entries or with a NaN. Matrix.max() is the largest entry and raises ValueError for a matrix without entries.", "quantifier": "all real matrices of every size (NaN clause: all binary64 matrices)", "why_tests_cant": "ranks and optimality for matrices of every size", "anchors": [{"file": "src/wai/ma/core/matrix/_Matrix.py", "symbols": ["Matrix.median", "Matrix.max"]}]}
{"id": "C85", "title": "PRM is SIMPLS on reweighted rows", "statement": "PRM.initialize(X, y), for at least as many rows as columns, starts with the weights (leverage weight times residual weight) computed from the geometric median of X and the median of y, and repeats between one and max(1, max_iter) times: train a new SIMPLS on the rows of X and y scaled by the square roots of the weights, then compute new weights from its predictions and scores (when it stops: C55). PRM.predict and transform are those of the last SIMPLS model; without breakdown they are those of PLS1 without centring on the last weighted rows. Training succeeds whenever SIMPLS trains on the rows with every choice of weights in (0,1].", "quantifier": "all real data of every size with at least as many rows as columns, all C, tol, max_iter and numbers of components, all correct eigen-solvers", "why_tests_cant": "a data-dependent number of passes for all data", "anchors": [{"file": "src/wai/ma/algorithm/pls/_PRM.py", "symbols": ["PRM.do_perform_initialization", "PRM.do_perform_predictions", "PRM.do_transform"]}, {"file": "src/wai/ma/algorithm/pls/_SIMPLS.py", "symbols": ["SIMPLS"]}]}
{"id": "C86", "title": "The final PRM weights are the weights of the model's residuals", "statement": "In every pass of PRM the new weight of row i is f(r_i / MAD(r)) * f(d_i / median(d)), with f(z) = 1/(1+|z/C|)^2, r_i = y_i - (prediction of row i) the residual of that row, MAD(r) the median of |r_i - median(r)|, and d_i the distance of the score row of row i (transform of the unweighted row) from the geometric median of the score rows.", "quantifier": "all real data of every size, all C, all passes", "why_tests_cant": "a formula for every pass and all data", "anchors": [{"file": "src/wai/ma/algorithm/pls/_PRM.py", "symbols": ["PRM.do_perform_initialization", "PRM.calculate_residual_weights", "PRM.calculate_leverage_weights"]}]}
{"id": "C87", "title": "geometric_median does not lose to the mean", "statement": "PRM.geometric_median(X) of a matrix with at least two rows returns a point whose sum of distances to the rows is at most that of the mean of the rows, and, if it stopped because of tol, is optimal up to a multiple of sqrt(tol).", "quantifier": "all real matrices of every size with at least two rows, all tol and max_iter", "why_tests_cant": "optimality of an iterative method for all data", "anchors": [{"file": "src/wai/ma/algorithm/pls/_PRM.py", "symbols": ["PRM.geometric_median"]}]}
{"id": "C88", "title": "PRM on wide data is PRM in the row space", "statement": "For data with more columns than rows PRM.initialize(X, y) trains on X V, the coordinates of the rows in the basis V of right singular vectors of X, predict(Z) predicts from Z V, and transform(Z) gives the scores of Z V.", "quantifier": "all real data of every size with more columns than rows, all correct singular value solvers", "why_tests_cant": "an identity for all wide data; the tests only look at stored values", "anchors": [{"file": "src/wai/ma/algorithm/pls/_PRM.py", "symbols": ["PRM.do_perform_initialization", "PRM.do_perform_predictions", "PRM.do_transform"]}]}
{"id": "C89", "title": "SparsePLS predicts with NIPALS on the selected features", "statement": "A successful SparsePLS.initialize(X, y) standardises X and y and runs one round per component: compute the soft-thresholded direction from the residual of the response, select the features whose direction weight of this round or coefficient of the last round exceeds 1e-6 in absolute value, and regress the response on the selected features with NIPALS using min(number selected, round) components. No round selects nothing. predict(Z) equals the prediction of NIPALS with that many components trained on the selected columns of the raw X, applied to the same columns of Z; the values of tol and max_iter have no effect on it. transform(Z) projects Z on the directions, deflating with Z's own loadings.", "quantifier": "all real data of every size without constant columns, all lambda, tol, max_iter and numbers of components, all new data", "why_tests_cant": "equality of two algorithms for all data", "anchors": [{"file": "src/wai/ma/algorithm/pls/_SparsePLS.py", "symbols": ["SparsePLS.do_perform_initialization", "SparsePLS.do_perform_predictions", "SparsePLS.do_transform", "SparsePLS.get_regression_coefficient", "SparsePLS.get_direction_vector", "SparsePLS.collect_indices"]}, {"file": "src/wai/ma/algorithm/pls/_NIPALS.py", "symbols": ["NIPALS"]}]}
{"id": "C90", "title": "SparsePLS trains with every accepted lambda_", "statement": "For every lambda_ that SparsePLS accepts (lambda_ >= 0) and every training set on which NIPALS can be trained, SparsePLS.initialize does not raise.", "quantifier": "all accepted lambda, all data", "why_tests_cant": "lambda_ at least 1 fails on all data; with the default, data with half of the covariances zero fails", "anchors": [{"file": "src/wai/ma/algorithm/pls/_SparsePLS.py", "symbols": ["SparsePLS.do_perform_initialization", "SparsePLS.validate_lambda_"]}]}
{"id": "C91", "title": "A prediction does not depend on the other rows of the batch", "statement": "For every PLS class (PLS1, VCPLS, SIMPLS, PRM, OPLS over PLS1, NIPALS, CCARegression, DIPLS, SparsePLS, KernelPLS with the linear, polynomial or RBF kernel) and every trained object: if predict(X) succeeds, then it has as many rows as X, and predict(X.get_rows(l)) succeeds and equals predict(X).get_rows(l) for every non-empty list l of row indices of X, with repetitions and negative indices allowed. So the prediction of a row depends neither on the other rows nor on their order.", "quantifier": "all number types (reals and binary64 with products summed in a fixed order), all sequences of public calls before, all solvers, all batches with at least one row and column, all lists of indices", "why_tests_cant": "all batches and all selections; the tests predict one fixed batch", "anchors": [{"file": "src/wai/ma/algorithm/pls/_AbstractPLS.py", "symbols": ["AbstractPLS.predict"]}, {"file": "src/wai/ma/algorithm/pls/_PLS1.py", "symbols": ["PLS1.do_perform_predictions"]}, {"file": "src/wai/ma/algorithm/pls/_NIPALS.py", "symbols": ["NIPALS.do_perform_predictions"]}, {"file": "src/wai/ma/algorithm/pls/_KernelPLS.py", "symbols": ["KernelPLS.do_perform_predictions"]}, {"file": "src/wai/ma/algorithm/pls/_DIPLS.py", "symbols": ["DIPLS.do_perform_predictions"]}, {"file": "src/wai/ma/algorithm/pls/_SparsePLS.py", "symbols": ["SparsePLS.do_perform_predictions"]}, {"file": "src/wai/ma/algorithm/pls/_OPLS.py", "symbols": ["OPLS.do_perform_predictions"]}, {"file": "src/wai/ma/algorithm/pls/_SIMPLS.py", "symbols": ["SIMPLS.do_perform_predictions"]}, {"file": "src/wai/ma/algorithm/pls/_PRM.py", "symbols": ["PRM.do_perform_predictions"]}]}
{"id": "C92", "title": "The scores of a row do not depend on the other rows of the batch", "statement": "For every PLS class and every trained object: if transform(X) succeeds, then transform(X.get_rows(l)) succeeds and equals transform(X).get_rows(l) for every non-empty list l of row indices of X.", "quantifier": "all number types, all sequences of public calls before, all solvers, all batches with at least one row and column, all lists of indices", "why_tests_cant": "false for SparsePLS, whose scores of a single row vanish after the first component", "anchors": [{"file": "src/wai/ma/algorithm/pls/_AbstractPLS.py", "symbols": ["AbstractPLS.transform"]}, {"file": "src/wai/ma/algorithm/pls/_SparsePLS.py", "symbols": ["SparsePLS.do_transform"]}, {"file": "src/wai/ma/algorithm/pls/_PLS1.py", "symbols": ["PLS1.do_transform"]}, {"file": "src/wai/ma/algorithm/pls/_NIPALS.py", "symbols": ["NIPALS.do_transform"]}, {"file": "src/wai/ma/algorithm/pls/_KernelPLS.py", "symbols": ["KernelPLS.do_transform"]}, {"file": "src/wai/ma/algorithm/pls/_OPLS.py", "symbols": ["OPLS.do_transform"]}]}
{"id": "C93", "title": "Filters and configured transformations treat every row on its own", "statement": "Center and Standardize (transform and inverse_transform) once configured, PassThrough, Log, SavitzkyGolay, Downsample, Equidistance, GLSW, EPO, YGradientGLSW, YGradientEPO and CCAFilter (transform and transform_response) after any sequence of calls, and RowNorm as long as inverse_transform has not been called: if m(X) succeeds, then it has as many rows as X, and m(X.get_rows(l)) succeeds and equals m(X).get_rows(l) for every non-empty list l of row indices of X.", "quantifier": "all number types (Log: reals), all sequences of public calls before, all solvers, all parameters, all batches with at least one row and column, all lists of indices", "why_tests_cant": "all batches and all selections of rows", "anchors": [{"file": "src/wai/ma/transformation/_AbstractTransformation.py", "symbols": ["AbstractTransformation.transform", "AbstractTransformation.inverse_transform"]}, {"file": "src/wai/ma/transformation/_SavitzkyGolay.py", "symbols": ["SavitzkyGolay.do_transform"]}, {"file": "src/wai/ma/transformation/_RowNorm.py", "symbols": ["RowNorm"]}, {"file": "src/wai/ma/filter/_Downsample.py", "symbols": ["Downsample.transform"]}, {"file": "src/wai/ma/filter/_Equidistance.py", "symbols": ["Equidistance.transform"]}, {"file": "src/wai/ma/algorithm/glsw/_GLSW.py", "symbols": ["GLSW.transform"]}, {"file": "src/wai/ma/algorithm/_CCAFilter.py", "symbols": ["CCAFilter.transform", "CCAFilter.transform_response"]}]}
{"id": "C94", "title": "A trained model publishes the matrices it lists, in the right sizes", "statement": "For every PLS class: after a successful initialize(X, Y), get_matrix(name) returns a matrix for every name in get_matrix_names(), None for any other name, and never raises; get_loadings() returns a matrix where the class has loadings. With k components, n rows and p columns of X the sizes are: PLS1 and VCPLS P, W p x k, RegVector p x 1, b_hat k x 1; SIMPLS W p x k, B p x 1, Q 1 x k; NIPALS and CCARegression T, U n x k, P p x k, Q (columns of Y) x k; KernelPLS K n x n, T, U, P n x k, Q (columns of Y) x k; OPLS P_orth, W_orth p x k, T_orth n x k; SparsePLS W p x k, B p x 1; DIPLS T, Ts, Tt with the rows of all, of the source and of the target samples and k columns, Wdi, P, Ps, Pt p x k, bdi p x 1; PRM B p x 1, Wr, Wx, W n x 1. predict and transform leave them as they are. They are the matrices the object works with: SIMPLS transforms to X W and predicts X B, PRM predicts X B with W the elementwise product of Wr and Wx, OPLS transforms to X - X W_orth P_orth', DIPLS to (X - mean) Wdi.", "quantifier": "all number types, all solvers, all data, all numbers of components at least 1 and all states of the object before training", "why_tests_cant": "all sizes and states; the tests look at fixed data", "anchors": [{"file": "src/wai/ma/algorithm/pls/_AbstractPLS.py", "symbols": ["AbstractPLS.get_matrix", "AbstractPLS.get_matrix_names", "AbstractPLS.get_loadings"]}, {"file": "src/wai/ma/algorithm/pls/_PLS1.py", "symbols": ["PLS1.get_matrix", "PLS1.get_matrix_names"]}, {"file": "src/wai/ma/algorithm/pls/_SIMPLS.py", "symbols": ["SIMPLS.get_matrix", "SIMPLS.get_matrix_names"]}, {"file": "src/wai/ma/algorithm/pls/_NIPALS.py", "symbols": ["NIPALS.get_matrix", "NIPALS.get_matrix_names"]}, {"file": "src/wai/ma/algorithm/pls/_KernelPLS.py", "symbols": ["KernelPLS.get_matrix", "KernelPLS.get_matrix_names"]}, {"file": "src/wai/ma/algorithm/pls/_OPLS.py", "symbols": ["OPLS.get_matrix", "OPLS.get_matrix_names"]}, {"file": "src/wai/ma/algorithm/pls/_SparsePLS.py", "symbols": ["SparsePLS.get_matrix", "SparsePLS.get_matrix_names"]}, {"file": "src/wai/ma/algorithm/pls/_DIPLS.py", "symbols": ["DIPLS.get_matrix", "DIPLS.get_matrix_names"]}, {"file": "src/wai/ma/algorithm/pls/_PRM.py", "symbols": ["PRM.get_matrix", "PRM.get_matrix_names"]}]}
{"id": "C95", "title": "A model that is not trained publishes nothing", "statement": "For every PLS class: on a new object, and on any object after reset(), after an initialize(X, Y) that was refused with a message, after initialize() without arguments and after an assignment to a validated property, get_matrix(name) returns None for every name.", "quantifier": "all states of the object, all names, all solvers", "why_tests_cant": "false for SIMPLS, which keeps publishing Q after reset(), and for PRM, where get_matrix('W') raises", "anchors": [{"file": "src/wai/ma/algorithm/pls/_AbstractPLS.py", "symbols": ["AbstractPLS.get_matrix"]}, {"file": "src/wai/ma/algorithm/pls/_SIMPLS.py", "symbols": ["SIMPLS.reset", "SIMPLS.get_matrix"]}, {"file": "src/wai/ma/algorithm/pls/_PRM.py", "symbols": ["PRM.reset", "PRM.get_matrix"]}, {"file": "src/wai/ma/algorithm/pls/_PLS1.py", "symbols": ["PLS1.reset", "PLS1.get_matrix"]}, {"file": "src/wai/ma/algorithm/pls/_NIPALS.py", "symbols": ["NIPALS.reset", "NIPALS.get_matrix"]}, {"file": "src/wai/ma/algorithm/pls/_KernelPLS.py", "symbols": ["KernelPLS.reset", "KernelPLS.get_matrix"]}, {"file": "src/wai/ma/algorithm/pls/_OPLS.py", "symbols": ["OPLS.reset", "OPLS.get_matrix"]}, {"file": "src/wai/ma/algorithm/pls/_SparsePLS.py", "symbols": ["SparsePLS.reset", "SparsePLS.get_matrix"]}, {"file": "src/wai/ma/algorithm/pls/_DIPLS.py", "symbols": ["DIPLS.reset", "DIPLS.get_matrix"]}]}
{"id": "C96", "title": "The order of the training rows does not matter", "statement": "For PLS1, VCPLS, SIMPLS, NIPALS, SparsePLS and OPLS (over any of these as base_PLS), any state of the object and any training data X, Y with the same number of rows (at least one): if X2 and Y2 hold the rows of X and Y in another order (both in the same one), then initialize(X2, Y2) gives the same result as initialize(X, Y) - success, the same message or the same exception - and afterwards predict(Z) and transform(Z) give the same results for every Z.", "quantifier": "all real data of every size, all permutations of the rows, all preprocessing types, parameters and states of the object, all eig, lstsq and pinv functions, all Z", "why_tests_cant": "all permutations of all training sets; the tests train on fixed data in a fixed order", "anchors": [{"file": "src/wai/ma/algorithm/pls/_AbstractPLS.py", "symbols": ["AbstractPLS.initialize", "AbstractPLS.predict", "AbstractPLS.transform"]}, {"file": "src/wai/ma/algorithm/pls/_PLS1.py", "symbols": ["PLS1.do_perform_initialization"]}, {"file": "src/wai/ma/algorithm/pls/_SIMPLS.py", "symbols": ["SIMPLS.do_perform_initialization"]}, {"file": "src/wai/ma/algorithm/pls/_NIPALS.py", "symbols": ["NIPALS.do_perform_initialization"]}, {"file": "src/wai/ma/algorithm/pls/_OPLS.py", "symbols": ["OPLS.do_perform_initialization"]}, {"file": "src/wai/ma/algorithm/pls/_SparsePLS.py", "symbols": ["SparsePLS.do_perform_initialization"]}, {"file": "src/wai/ma/algorithm/pls/_VCPLS.py", "symbols": ["VCPLS"]}]}
{"id": "C97", "title": "The order of the rows a filter or transformation is configured with does not matter", "statement": "If X2 holds the rows of X in another order (and Y2, B2 those of Y, B in the same one), then configuring Center or Standardize with X2, initialising GLSW or EPO with X2 and B2, and initialising CCAFilter with X2 and Y2 leads to the same object and the same result (success, message or exception) as with X and B or Y; PCA.configure(X2) leads to the same object as PCA.configure(X), and PCA.transform(X2) returns the rows of PCA.transform(X) in the new order with the same loadings, or raises the same exception.", "quantifier": "all real data of every size with at least one row, all permutations, all parameters, all states of the object (CCAFilter: all that public calls can lead to), all eig, svd, lstsq and argsort functions", "why_tests_cant": "all permutations of all data; the tests use fixed data in a fixed order", "anchors": [{"file": "src/wai/ma/transformation/_Center.py", "symbols": ["Center.configure"]}, {"file": "src/wai/ma/transformation/_Standardize.py", "symbols": ["Standardize.configure"]}, {"file": "src/wai/ma/algorithm/glsw/_GLSW.py", "symbols": ["GLSW.initialize", "GLSW.get_covariance_matrix"]}, {"file": "src/wai/ma/algorithm/_CCAFilter.py", "symbols": ["CCAFilter.initialize"]}, {"file": "src/wai/ma/algorithm/_PCA.py", "symbols": ["PCA.configure", "PCA.transform"]}]}
{"id": "C98", "title": "Units of measurement do not matter to NIPALS, CCARegression and SparsePLS", "statement": "Let column j of X2 be c_j times column j of X plus d_j with c_j > 0, let Y2 be related to Y by a_j > 0 and b_j in the same way, X and Y with at least two rows and one column and without constant columns, preprocessing none. Then initialize(X2, Y2) gives the same result as initialize(X, Y) (success, the same message or the same exception), and for every Z and the same Z2 in the new units predict(Z2) is predict(Z) with column j multiplied by a_j and shifted by b_j, or both raise the same exception. For NIPALS and CCARegression transform(Z2) equals transform(Z).", "quantifier": "all real data of every size, all changes of units, all parameters and states of the object, all lstsq and pinv functions, all Z", "why_tests_cant": "all data and all changes of units; the tests use fixed data", "anchors": [{"file": "src/wai/ma/algorithm/pls/_AbstractPLS.py", "symbols": ["AbstractPLS.initialize", "AbstractPLS.predict"]}, {"file": "src/wai/ma/algorithm/pls/_NIPALS.py", "symbols": ["NIPALS.do_perform_initialization", "NIPALS.do_perform_predictions", "NIPALS.do_transform"]}, {"file": "src/wai/ma/algorithm/pls/_CCARegression.py", "symbols": ["CCARegression"]}, {"file": "src/wai/ma/algorithm/pls/_SparsePLS.py", "symbols": ["SparsePLS.do_perform_initialization", "SparsePLS.do_perform_predictions"]}]}
{"id": "C99", "title": "The unit of the response does not matter to PLS1", "statement": "Let PLS1 be trained on X and Y successfully, and let Y2 = a Y + b with a > 0 (b = 0 for preprocessing none). Then training on X and Y2 succeeds, transform(Z) gives the same result after either training, and predict(Z) after the second is a times predict(Z) after the first plus b, for every Z with at least one row.", "quantifier": "all real data of every size (for standardize: without constant columns and with at least two rows; for center: at least one row), all a and b, all three preprocessing types, all parameters and states of the object", "why_tests_cant": "all data and all units; the tests use fixed data", "anchors": [{"file": "src/wai/ma/algorithm/pls/_PLS1.py", "symbols": ["PLS1.do_perform_initialization", "PLS1.do_perform_predictions", "PLS1.do_transform"]}, {"file": "src/wai/ma/algorithm/pls/_AbstractPLS.py", "symbols": ["AbstractPLS.initialize", "AbstractPLS.predict"]}]}
{"id": "C100", "title": "Pairwise distances between rows", "statement": "For x with n rows and y with m rows and as many columns, euclidean_distance(x, y, squared) returns the n x m matrix of the (squared, if asked for) Euclidean distances between row i of x and row j of y.", "quantifier": "all real matrices of every size, both values of squared", "why_tests_cant": "false for every input: row_norms is not implemented, and the additions after it only accept single rows", "anchors": [{"file": "src/wai/ma/core/matrix/helper.py", "symbols": ["euclidean_distance", "row_norms", "fill_diagonal"]}]}
{"id": "C101", "title": "The configuration matrix of multiplicative scatter correction", "statement": "create_configuration_matrix(spectra) with at least one spectrum, each with at least two columns and all with the same number of rows, returns a matrix with these rows and one column more than there are spectra: column 0 holds column 0 (the wave numbers) of the first spectrum, column k + 1 holds column 1 (the amplitudes) of spectrum k. It raises ValueError for an empty list and for spectra with different numbers of rows, IndexError if a spectrum has fewer than two columns.", "quantifier": "all number types, all lists of spectra of all sizes", "why_tests_cant": "all lists; the tests do not call it", "anchors": [{"file": "src/wai/ma/transformation/_MultiplicativeScatterCorrection.py", "symbols": ["MultiplicativeScatterCorrection.create_configuration_matrix"]}, {"file": "src/wai/ma/core/matrix/helper.py", "symbols": ["multi_concat"]}]}
{"id": "C102", "title": "Assigning a parameter of a scikit-learn based transformation takes effect", "statement": "After a successful assignment to a parameter of RobustScaler (with_centering, with_scaling, quantile_range), QuantileTransformer (n_quantiles, output_distribution, ignore_implicit_zeroes, subsample, random_state) or PowerTransformer (method, standardise), transform and inverse_transform behave as those of a new object with the parameters assigned so far; an illegal value raises ValueError and changes nothing.", "quantifier": "all states of the object, all values, all data, all fitting and transforming functions of scikit-learn", "why_tests_cant": "false once the object is configured: assignments without a validator do not reset it, so they are ignored", "anchors": [{"file": "src/wai/ma/transformation/_RobustScaler.py", "symbols": ["RobustScaler"]}, {"file": "src/wai/ma/transformation/_QuantileTransformer.py", "symbols": ["QuantileTransformer"]}, {"file": "src/wai/ma/transformation/_PowerTransformer.py", "symbols": ["PowerTransformer"]}, {"file": "src/wai/ma/transformation/_AbstractTransformation.py", "symbols": ["AbstractTransformation.transform"]}]}
{"id": "C103", "title": "More components refine PLS1 and SIMPLS models and fit the training data better", "statement": "Train two PLS1 objects on the same X and Y (one response) with a and b components, 0 < a < b, where none of the first b steps breaks down (the residual of X stays correlated with Y). Then for every Z the first a columns of transform(Z) of the second equal transform(Z) of the first, and the sum of the squared differences between Y and predict of the preprocessed training predictors is strictly smaller for the second. The latter also holds for SIMPLS.", "quantifier": "all real X and Y of every size, all a < b, all three preprocessing types, all Z", "why_tests_cant": "all data and all numbers of components; the tests compare fixed data with stored results", "anchors": [{"file": "src/wai/ma/algorithm/pls/_PLS1.py", "symbols": ["PLS1.do_perform_initialization", "PLS1.do_perform_predictions", "PLS1.do_transform"]}, {"file": "src/wai/ma/algorithm/pls/_SIMPLS.py", "symbols": ["SIMPLS.do_perform_initialization", "SIMPLS.do_perform_predictions"]}, {"file": "src/wai/ma/algorithm/pls/_AbstractPLS.py", "symbols": ["AbstractPLS.initialize", "AbstractPLS.predict", "AbstractPLS.transform"]}]}
{"id": "C104", "title": "PLS1 and SIMPLS do not depend on the orthonormal basis of the predictors", "statement": "Let Q be a matrix with Q Q^T = I (rotations, reflections, permutations of the features, additional features that are always 0). With preprocessing none or center, training PLS1 on X Q and Y succeeds whenever no step of training on X and Y breaks down, and for every Z transform(Z Q) and predict(Z Q) then equal transform(Z) and predict(Z) of the object trained on X and Y; for SIMPLS predict does. For permutations of the features both hold with preprocessing standardize too.", "quantifier": "all real X, Y, Z, Q of all sizes, all numbers of components", "why_tests_cant": "all bases and all data; the tests use fixed data", "anchors": [{"file": "src/wai/ma/algorithm/pls/_PLS1.py", "symbols": ["PLS1.do_perform_initialization", "PLS1.do_perform_predictions", "PLS1.do_transform"]}, {"file": "src/wai/ma/algorithm/pls/_SIMPLS.py", "symbols": ["SIMPLS.do_perform_initialization", "SIMPLS.do_perform_predictions"]}, {"file": "src/wai/ma/algorithm/pls/_AbstractPLS.py", "symbols": ["AbstractPLS.initialize", "AbstractPLS.predict", "AbstractPLS.transform"]}]}
{"id": "C105", "title": "With as many components as features PLS1 and SIMPLS are ordinary least squares", "statement": "Train PLS1 (or SIMPLS) on X and Y (one response) with a components where none of the a steps breaks down, and either a is the number of features or after the a steps no feature of the deflated X is correlated with Y any more. Then there are coefficients b and an intercept c (0 for preprocessing none) such that predict(Z) = Z b + c for every Z, and on the preprocessed training predictors these have the least sum of squared errors among all coefficients and intercepts (intercept 0 for preprocessing none).", "quantifier": "all real X and Y of every size, all three preprocessing types, all Z, all competing coefficients", "why_tests_cant": "a minimality claim over all coefficients and all data; the tests compare fixed data with stored results", "anchors": [{"file": "src/wai/ma/algorithm/pls/_PLS1.py", "symbols": ["PLS1.do_perform_initialization", "PLS1.do_perform_predictions"]}, {"file": "src/wai/ma/algorithm/pls/_SIMPLS.py", "symbols": ["SIMPLS.do_perform_initialization", "SIMPLS.do_perform_predictions"]}, {"file": "src/wai/ma/algorithm/pls/_AbstractPLS.py", "symbols": ["AbstractPLS.initialize", "AbstractPLS.predict"]}]}
{"id": "C106", "title": "Predictions and scores are affine in the data", "statement": "For a PLS object in any state, matrices X1 and X2 of one shape with at least one row and any number l: if predict succeeds on X1 and on X2 then it succeeds on X1*l + X2*(1-l) and returns predict(X1)*l + predict(X2)*(1-l). The same holds for transform, except that of SparsePLS (C92). For KernelPLS with the linear kernel.", "quantifier": "all real X1 and X2 of every size, all numbers l, all sequences of calls before, all answers of the external solvers during training, every PLS class", "why_tests_cant": "relates three calls on arbitrary data for an arbitrary trained model; the tests predict one fixed data set", "anchors": [{"file": "src/wai/ma/algorithm/pls/_AbstractPLS.py", "symbols": ["AbstractPLS.predict", "AbstractPLS.transform"]}, {"file": "src/wai/ma/algorithm/pls/_PLS1.py", "symbols": ["PLS1.do_perform_predictions", "PLS1.do_transform"]}, {"file": "src/wai/ma/algorithm/pls/_SIMPLS.py", "symbols": ["SIMPLS.do_perform_predictions", "SIMPLS.do_transform"]}, {"file": "src/wai/ma/algorithm/pls/_NIPALS.py", "symbols": ["NIPALS.do_perform_predictions", "NIPALS.do_transform"]}, {"file": "src/wai/ma/algorithm/pls/_OPLS.py", "symbols": ["OPLS.do_perform_predictions", "OPLS.do_transform"]}, {"file": "src/wai/ma/algorithm/pls/_PRM.py", "symbols": ["PRM.do_perform_predictions", "PRM.do_transform"]}, {"file": "src/wai/ma/algorithm/pls/_VCPLS.py", "symbols": ["VCPLS.do_perform_predictions", "VCPLS.do_transform"]}, {"file": "src/wai/ma/algorithm/pls/_DIPLS.py", "symbols": ["DIPLS.do_perform_predictions", "DIPLS.do_transform"]}, {"file": "src/wai/ma/algorithm/pls/_KernelPLS.py", "symbols": ["KernelPLS.do_perform_predictions", "KernelPLS.do_transform"]}, {"file": "src/wai/ma/algorithm/pls/_SparsePLS.py", "symbols": ["SparsePLS.do_perform_predictions", "SparsePLS.do_transform"]}]}
{"id": "C107", "title": "Filters and configured transformations are affine in the data", "statement": "For matrices X1 and X2 of one shape with at least one row and one column: if it succeeds on X1 and on X2, then SavitzkyGolay.transform, Downsample.transform, Equidistance.transform (at least two samples) and, in any state, transform of GLSW, EPO, YGradientGLSW and YGradientEPO succeed on X1*a + X2*b for all numbers a and b and return transform(X1)*a + transform(X2)*b. For a configured Center or Standardize, transform and inverse_transform satisfy this for a + b = 1, and so do transform and transform_response of CCAFilter in any state.", "quantifier": "all real X1 and X2 of every size, all numbers a and b, all sequences of calls before, all answers of the external solvers", "why_tests_cant": "relates three calls on arbitrary data for an arbitrary configuration; the tests transform one fixed data set", "anchors": [{"file": "src/wai/ma/transformation/_Center.py", "symbols": ["Center"]}, {"file": "src/wai/ma/transformation/_Standardize.py", "symbols": ["Standardize"]}, {"file": "src/wai/ma/transformation/_SavitzkyGolay.py", "symbols": ["SavitzkyGolay"]}, {"file": "src/wai/ma/filter/_Downsample.py", "symbols": ["Downsample"]}, {"file": "src/wai/ma/filter/_Equidistance.py", "symbols": ["Equidistance"]}, {"file": "src/wai/ma/algorithm/glsw/_GLSW.py", "symbols": ["GLSW.do_transform"]}, {"file": "src/wai/ma/algorithm/_CCAFilter.py", "symbols": ["CCAFilter"]}]}
{"id": "C108", "title": "Repeating all training rows equally often does not change PLS1 and SIMPLS models", "statement": "Let X2, Y2 contain every row of the training data X, Y (one response) m times, m > 0, and let PLS1 (or SIMPLS) be trained with the same parameters on either where no step breaks down. With preprocessing none or center both models return the same predictions (PLS1: also the same scores) for every Z. With standardize, whose deviations have the denominator n - 1, both models return the same predictions for new measurements that are preprocessed with the means and deviations of the model's own training predictors.", "quantifier": "all real X and Y of every size, all m, all numbers of components, all three preprocessing types, all new data", "why_tests_cant": "relates two trainings on arbitrary data and arbitrarily many copies; the tests train on one fixed data set", "anchors": [{"file": "src/wai/ma/algorithm/pls/_PLS1.py", "symbols": ["PLS1.do_perform_initialization", "PLS1.do_perform_predictions", "PLS1.do_transform"]}, {"file": "src/wai/ma/algorithm/pls/_SIMPLS.py", "symbols": ["SIMPLS.do_perform_initialization", "SIMPLS.do_perform_predictions"]}, {"file": "src/wai/ma/algorithm/pls/_AbstractPLS.py", "symbols": ["AbstractPLS.initialize", "AbstractPLS.predict", "AbstractPLS.transform"]}]}
{"id": "C109", "title": "With preprocessing, the units of the training data do not matter to any PLS class", "statement": "For each of the ten PLS classes (PLS1, VCPLS, SIMPLS, PRM, NIPALS, CCARegression, SparsePLS, DIPLS through initialize, OPLS over PLS1, KernelPLS with any kernel): let column j of X2 be c_j times column j of X plus d_j and column j of Y2 be a_j times column j of Y plus b_j, with positive factors for preprocessing STANDARDIZE and factors 1 for CENTER. Then initialize(X2, Y2) gives the same result as initialize(X, Y) (success, the same message or the same exception), the object learns the same model, transform(Z) is the same for every Z, and predict(Z) after the second training is a_0 times predict(Z) after the first plus b_0 (column 0 for the single-response classes; every column for the others, which map all columns back with the statistics of the first response column), or both raise the same exception.", "quantifier": "all real data of every size with at least two rows and one column (for STANDARDIZE: without constant columns), all changes of units, all parameters and states of the object, all lstsq, pinv, eig and svd functions, all Z", "why_tests_cant": "all data and all changes of units; the tests use fixed data", "anchors": [{"file": "src/wai/ma/algorithm/pls/_AbstractPLS.py", "symbols": ["AbstractPLS.initialize", "AbstractPLS.predict", "AbstractPLS.transform"]}, {"file": "src/wai/ma/algorithm/pls/_AbstractSingleResponsePLS.py", "symbols": ["AbstractSingleResponsePLS.do_initialize", "AbstractSingleResponsePLS.do_predict"]}, {"file": "src/wai/ma/algorithm/pls/_AbstractMultiResponsePLS.py", "symbols": ["AbstractMultiResponsePLS.do_initialize", "AbstractMultiResponsePLS.do_predict"]}]}
{"id": "C110", "title": "KernelPLS does not depend on the coordinate system of the predictors", "statement": "Let Q be a square matrix with Q Q^T = I and d a vector, and let the rows of X2 be the rows of X times Q plus d (rotations, reflections, permutations of the features, translations). With preprocessing none, or center and d = 0, KernelPLS with the linear, the polynomial or the RBF kernel gives the same result for initialize(X2, Y) as for initialize(X, Y) (success or the same exception), and for every Z and Z2 = Z Q + d, transform(Z2) and predict(Z2) of the object trained on X2 equal transform(Z) and predict(Z) of the object trained on X.", "quantifier": "all real X, Y, Z, Q, d of all sizes, all kernel parameters and states of the kernel, all parameters of the object, all random starts and solvers", "why_tests_cant": "all data and all coordinate systems; the tests use fixed data", "anchors": [{"file": "src/wai/ma/algorithm/pls/_KernelPLS.py", "symbols": ["KernelPLS.do_perform_initialization", "KernelPLS.do_perform_predictions", "KernelPLS.do_transform"]}, {"file": "src/wai/ma/transformation/kernel/_LinearKernel.py", "symbols": ["LinearKernel"]}, {"file": "src/wai/ma/transformation/kernel/_PolyKernel.py", "symbols": ["PolyKernel"]}, {"file": "src/wai/ma/transformation/kernel/_RBFKernel.py", "symbols": ["RBFKernel"]}]}
{"id": "C111", "title": "KernelPLS and the coordinate system of the responses", "statement": "Let Q be a matrix with as many rows as Y has columns and Q Q^T = h I for some h > 0 (rotations, reflections, permutations of the responses, one common change of their unit, and further columns that repeat or rescale a single response), let d be a vector, and let Y2 = Y Q + d row by row. With preprocessing none, KernelPLS with any kernel gives the same result for initialize(X, Y2) as for initialize(X, Y) (success, or the same exception); afterwards transform(Z) is the same for every Z, and predict(Z) of the object trained on Y2 is predict(Z) of the object trained on Y, times Q plus d, row by row, or both raise the same exception.", "quantifier": "all real X, Y, Z, Q, d of all sizes with at least one row and one column of Y, all kernels, all parameters of the object with a number of components that is not negative, all random starts and solvers", "why_tests_cant": "all data and all coordinate systems; the tests use fixed data", "anchors": [{"file": "src/wai/ma/algorithm/pls/_KernelPLS.py", "symbols": ["KernelPLS.do_perform_initialization", "KernelPLS.do_perform_predictions", "KernelPLS.do_transform"]}]}
{"id": "C112", "title": "The order of the features does not matter to NIPALS", "statement": "Let X2 hold the columns of X in another order. With preprocessing none, center or standardize and any number of responses, NIPALS gives the same result for initialize(X2, Y) as for initialize(X, Y) (success, the same message or the same exception), and for every Z and every Z2 that holds the columns of Z in that order, transform(Z2) and predict(Z2) of the object trained on X2 equal transform(Z) and predict(Z) of the object trained on X, or raise the same exception.", "quantifier": "all real X with at least two rows and without constant columns, all real Y with at least one column (for center and standardize: at least two rows; for standardize: no constant columns), all orders of the columns, all parameters and states of the object (both deflation modes), all pinv functions, all Z", "why_tests_cant": "all data and all orders of the features; the tests use fixed data", "anchors": [{"file": "src/wai/ma/algorithm/pls/_NIPALS.py", "symbols": ["NIPALS.do_perform_initialization", "NIPALS.nipals_loop", "NIPALS.do_perform_predictions", "NIPALS.do_transform"]}]}
{"id": "C113", "title": "The order of the features does not matter to PLS1 and to OPLS over PLS1", "statement": "Let X2 hold the columns of X in another order. With preprocessing none, center or standardize, PLS1 and OPLS over PLS1 (the base with preprocessing none or center) give the same result for initialize(X2, Y) as for initialize(X, Y) (success, the same message or the same exception). For every Z and every Z2 that holds the columns of Z in that order, predict(Z2) of the object trained on X2 equals predict(Z) of the object trained on X, or raises the same exception; so does transform for PLS1, and transform of OPLS, which returns cleaned data with the features of its input, returns the same data with the columns in the other order.", "quantifier": "all real X and Y with at least one column (for center and standardize: at least two rows; for standardize: no constant columns), all orders of the columns, all parameters and states of the object and of the base object, all lstsq functions, all Z", "why_tests_cant": "all data and all orders of the features; the tests use fixed data", "anchors": [{"file": "src/wai/ma/algorithm/pls/_PLS1.py", "symbols": ["PLS1.do_perform_initialization", "PLS1.do_perform_predictions", "PLS1.do_transform"]}, {"file": "src/wai/ma/algorithm/pls/_OPLS.py", "symbols": ["OPLS.do_perform_initialization", "OPLS.do_perform_predictions", "OPLS.do_transform"]}]}
