{"id": "C01", "title": "Row/column-major 1d and 2d indices are in order-preserving bijection", "statement": "For row-major and column-major layouts (dense or with arbitrary stride) convert_1d_2d maps 0..number_of_elements one-to-one onto the in-range (row, col) pairs, convert_2d_1d is its inverse, and increasing 1d indices enumerate the entries row by row (row-major) or column by column (column-major).", "quantifier": "every dimension pair whose element count fits in usize, every 1d index below it and every in-range (row, col), in builds with and without overflow checks", "why_tests_cant": "the domain of dimensions and indices is unbounded; the test-suite never calls these conversions for these layouts", "anchors": ["src/layouts/row_major.rs: convert_1d_2d, convert_2d_1d", "src/layouts/column_major.rs: convert_1d_2d, convert_2d_1d", "src/layouts/arbitrary_stride_row_major.rs", "src/layouts/arbitrary_stride_column_major.rs"]}
{"id": "C02", "title": "Vector layouts convert 1d indices to in-range (row, col) pairs and back", "statement": "For row and column vector layouts (dense or strided) convert_1d_2d(i) is the in-range position of the i-th entry, i.e. (0, i) for row vectors and (i, 0) for column vectors, and convert_2d_1d inverts it.", "quantifier": "every vector length and every index below it", "why_tests_cant": "tests read vectors only through get/get1d and never look at the coordinates returned by the conversion", "anchors": ["src/layouts/row_vector.rs: convert_1d_2d", "src/layouts/column_vector.rs: convert_1d_2d", "src/layouts/arbitrary_stride_row_vector.rs: convert_1d_2d", "src/layouts/arbitrary_stride_column_vector.rs: convert_1d_2d"]}
{"id": "C03", "title": "Upper triangular storage is a bijection", "statement": "For an n x n upper triangular layout convert_2d_1d maps the pairs row <= col < n one-to-one onto 0..n(n+1)/2, so no stored entry is lost, shared or out of the storage; a pair below the diagonal is rejected with a panic.", "quantifier": "every n whose n(n+1)/2 entries can be allocated (at most isize::MAX) and every pair (row, col) with col < n", "why_tests_cant": "the one existing test checks three positions for n = 5", "anchors": ["src/layouts/upper_triangular.rs: convert_2d_1d, convert_2d_raw, number_of_elements"]}
{"id": "C04", "title": "Upper triangular 1d to 2d conversion inverts the 2d to 1d conversion", "statement": "For an n x n upper triangular layout convert_1d_2d(convert_2d_1d(row, col)) = (row, col) and convert_2d_1d(convert_1d_2d(i)) = i, although convert_1d_2d computes a square root in double precision floating point.", "quantifier": "every n and every 1d index below n(n+1)/2, with IEEE-754 binary64 rounding at each step", "why_tests_cant": "the claim is about rounding behaviour over about 2^53 indices; sampling cannot find or exclude the index at which it first fails", "anchors": ["src/layouts/upper_triangular.rs: convert_1d_2d"]}
{"id": "C05", "title": "1d and 2d access address the same memory cell", "statement": "For every layout, the raw memory index of (row, col) equals the raw memory index of the 1d index convert_2d_1d(row, col); hence get(row, col) = get1d(convert_2d_1d(row, col)) and a write through one is seen through the other.", "quantifier": "every layout, every in-range (row, col), every memory content", "why_tests_cant": "unbounded dimensions, strides and contents", "anchors": ["src/traits/layout.rs: LayoutType", "src/layouts/*: convert_1d_raw, convert_2d_raw", "src/base_matrix.rs: get_unchecked, get1d_unchecked"]}
{"id": "C06", "title": "stride() is the memory distance between neighbouring entries", "statement": "For every strided layout stride() = (r, c) where moving one row down moves r cells in memory and moving one column right moves c cells.", "quantifier": "every strided layout, every pair of neighbouring in-range entries", "why_tests_cant": "stride() is only exercised indirectly, on dense matrices", "anchors": ["src/traits/layout.rs: LayoutType::stride", "src/layouts/*: stride, convert_2d_raw"]}
{"id": "C07", "title": "The first entry lives at raw index 0", "statement": "The documented contract of layouts: the raw physical location of the first matrix entry (0, 0) is index 0.", "quantifier": "every layout with at least one entry", "why_tests_cant": "no test looks at raw indices", "anchors": ["src/traits/layout.rs lines 52-55", "src/layouts/*: convert_2d_raw"]}
{"id": "C08", "title": "Distinct entries never share a memory cell", "statement": "In every dense, vector or upper triangular layout two different entries have different raw indices, and so have two different 1d indices; together the entries use exactly the raw indices 0..number_of_elements. For strided layouts this holds whenever one stride reaches past the extent of the other dimension.", "quantifier": "every layout, every two in-range positions", "why_tests_cant": "quantifies over all pairs of positions of matrices of every size", "anchors": ["src/layouts/*: convert_2d_raw, convert_1d_raw"]}
{"id": "C09", "title": "Checked access panics exactly when the position is out of range", "statement": "get(row, col) and get_mut(row, col) panic if and only if row or col is outside dim(), and get1d(i)/get1d_mut(i) panic if and only if i >= number_of_elements; otherwise they return the entry. (For upper triangular matrices positions below the diagonal also panic.)", "quantifier": "every sound matrix or expression (every entry has its cell in its container; C10, C13, C17, C24 say which constructors guarantee that), every row, col, index", "why_tests_cant": "all out-of-range values of usize, all dimensions", "anchors": ["src/traits/random_access.rs: get, get1d, get_mut, get1d_mut, assert_dimension, assert_dimension1d"]}
{"id": "C10", "title": "Accepted matrices never access memory outside their container", "statement": "If the constructor accepts a container and a layout, then no bounds-checked access (get, get_mut, get1d, get1d_mut) reads or writes outside the container.", "quantifier": "every layout the public API can pass to from_data, every container, every in-range or out-of-range position", "why_tests_cant": "undefined behaviour is invisible to assertions, and dimensions are unbounded", "anchors": ["src/base_matrix.rs: BaseMatrix::new", "src/matrix.rs: from_data", "src/traits/random_access.rs"]}
{"id": "C11", "title": "Reads return the last write", "statement": "After any sequence of writes through get_mut/get1d_mut to one matrix, get(row, col) returns the value most recently written to (row, col), or the initial value if there is none; no other entry changes.", "quantifier": "every matrix, every finite history of writes, every position", "why_tests_cant": "the set of histories is infinite", "anchors": ["src/base_matrix.rs: get_unchecked_mut, get1d_unchecked_mut", "src/traits/random_access.rs: get_mut, get1d_mut"]}
{"id": "C12", "title": "A write touches one cell of one container", "statement": "A successful write through get_mut changes exactly the cell that the layout assigns to the position: trailing storage that the layout does not use, cells outside a view and all other containers keep their contents.", "quantifier": "every heap, every matrix, every position and value", "why_tests_cant": "requires inspecting all of memory for all inputs", "anchors": ["src/data_container.rs: get_unchecked_mut", "src/base_matrix.rs: get_unchecked_mut"]}
{"id": "C13", "title": "Zero constructors", "statement": "zeros_from_dim(rows, cols) / mat! returns a matrix of dimension (rows, cols) all of whose entries are zero, in fresh memory, leaving every existing matrix unchanged; it panics only if the element count cannot be allocated.", "quantifier": "every rows, cols and every program state", "why_tests_cant": "unbounded dimensions; tests only check dim() for one size", "anchors": ["src/matrix/constructors.rs: zeros_from_dim", "src/macros.rs: mat", "src/data_container.rs: VectorContainer::new"]}
{"id": "C14", "title": "Vector constructors", "statement": "zeros_from_length(n)/vector! give vectors of n zeros with dim (n, 1) or (1, n); zeros_from_dim for vectors accepts exactly n x 1 (column) or 1 x n (row) requests; the layout constructor from_dimension accepts exactly the dimensions of that shape.", "quantifier": "every length and every dimension pair", "why_tests_cant": "unbounded; from_dimension on column vectors is never tested", "anchors": ["src/matrix/constructors.rs: RowVectorD, ColumnVectorD", "src/layouts/column_vector.rs: from_dimension", "src/layouts/row_vector.rs: from_dimension", "src/macros.rs: vector"]}
{"id": "C15", "title": "Compile-time sizes agree with run-time dimensions", "statement": "A matrix type with fixed sizes RS, CS only ever holds matrices of dimension (RS::N, CS::N).", "quantifier": "every fixed-size type and every way the public API builds a value of it", "why_tests_cant": "quantifies over all constructor arguments", "anchors": ["src/traits/size.rs", "src/matrix/constructors.rs: from_zeros_fixed, from_zeros_fixed_vector", "src/matrix.rs: from_data"]}
{"id": "C16", "title": "Memory slices", "statement": "get_slice(first, last) returns exactly the container's cells first..last in order, and panics if and only if the range is empty or reversed or reaches past the container; get_slice_mut denotes the same cells and writes through it change exactly these.", "quantifier": "every container, every first and last, every content", "why_tests_cant": "all usize pairs", "anchors": ["src/data_container.rs: get_slice, get_slice_mut", "src/matrix/base_methods.rs"]}
{"id": "C17", "title": "block is the requested submatrix", "statement": "For a dense matrix block(top_left, dim) has dimension dim and get(i, j) on it equals get(top_left.0 + i, top_left.1 + j) on the parent; 1d traversal of the block follows the parent's row/column order.", "quantifier": "every dense parent, every non-empty block inside it, every i, j, every content", "why_tests_cant": "unbounded dimensions and offsets; one test, one position", "anchors": ["src/matrix/matrix_slices.rs: block", "src/matrix/constructors.rs: from_pointer_strided", "src/layouts/arbitrary_stride_row_major.rs", "src/layouts/arbitrary_stride_column_major.rs"]}
{"id": "C18", "title": "block_mut writes through to exactly one parent entry", "statement": "Writing v at (i, j) of block_mut(top_left, dim) of a dense matrix sets the parent's entry (top_left.0 + i, top_left.1 + j) to v and changes no other parent entry.", "quantifier": "every dense parent, block, position and value", "why_tests_cant": "must inspect every other entry, for every size", "anchors": ["src/matrix/matrix_slices.rs: block_mut"]}
{"id": "C19", "title": "A block of a block is the composed block", "statement": "For a block view b = a.block(o1, d1), b.block(o2, d2) equals a.block(o1 + o2, d2).", "quantifier": "every dense parent and every two nested non-empty blocks, every position", "why_tests_cant": "the only test looks at a row on which the defect is invisible", "anchors": ["src/matrix/matrix_slices.rs: block", "src/layouts/arbitrary_stride_row_major.rs: stride", "src/layouts/arbitrary_stride_column_major.rs: stride"]}
{"id": "C20", "title": "block accepts exactly the non-empty blocks inside the parent", "statement": "block/block_mut return a view if and only if the block is non-empty and lies inside the parent; otherwise they panic and never yield a view of foreign memory.", "quantifier": "every top_left and dim in usize, builds with and without overflow checks", "why_tests_cant": "requires usize values near 2^64", "anchors": ["src/matrix/matrix_slices.rs: block, block_mut", "src/matrix/constructors.rs: from_pointer_strided"]}
{"id": "C21", "title": "split_in_four_mut partitions the matrix", "statement": "For a split point strictly inside the matrix, the four blocks have the documented dimensions and every parent entry (i, j) is entry of exactly one block, at (i, j) minus the block's origin.", "quantifier": "every row-major matrix, every interior split point, every (i, j)", "why_tests_cant": "unbounded sizes; one test at (5, 5) of a 10 x 10 matrix", "anchors": ["src/matrix/matrix_slices.rs: split_in_four_mut"]}
{"id": "C22", "title": "The four blocks are independently writable", "statement": "A write to an entry of one of the four blocks changes exactly the corresponding parent entry and no entry of any other block; any history of writes to the four blocks leaves the parent equal to the four blocks' contents glued together.", "quantifier": "every interior split, every history of entry writes to the four blocks", "why_tests_cant": "all histories, all positions", "anchors": ["src/matrix/matrix_slices.rs: split_in_four_mut"]}
{"id": "C23", "title": "The four mutable blocks own disjoint memory", "statement": "The memory regions that the four simultaneously live mutable blocks expose (through get_slice_mut / as their exclusive Rust slices) are pairwise disjoint.", "quantifier": "every interior split", "why_tests_cant": "aliasing of &mut regions is invisible to value-based tests", "anchors": ["src/matrix/matrix_slices.rs: split_in_four_mut", "src/matrix/constructors.rs: from_pointer_strided (from_raw_parts_mut)", "src/matrix/base_methods.rs: get_slice_mut"]}
{"id": "C24", "title": "from_pointer addresses the given strides", "statement": "A matrix made by from_pointer(ptr, dim, stride) has its (i, j) entry at ptr + i*stride.0 + j*stride.1, covers exactly the memory from ptr up to its last entry, and never accesses anything outside that region; it panics if there are more entries than cells in that region.", "quantifier": "every pointer, non-empty dim, stride whose last entry lies in the pointed-to allocation, every position", "why_tests_cant": "unbounded strides and dimensions", "anchors": ["src/matrix/constructors.rs: from_pointer_strided, from_pointer"]}
{"id": "C25", "title": "Lazy expressions denote the algebraic expression", "statement": "For any tree of additions, scalar products and references over matrices, get(i, j) returns the value of that algebraic expression applied to the leaves' entries (i, j), each leaf operation performed once in the written order; building the tree reads and writes no entries.", "quantifier": "every expression tree of any depth, every position, every content, every scalar arithmetic (also non-associative floating point)", "why_tests_cant": "infinitely many trees", "anchors": ["src/addition.rs: get_unchecked, get1d_unchecked", "src/scalar_mult.rs: get_unchecked, get1d_unchecked", "src/matrix_ref.rs"]}
{"id": "C26", "title": "eval materialises the expression", "statement": "eval() returns a fresh matrix with the expression's dimension and index order whose every entry equals the expression's entry, and leaves all operands unchanged.", "quantifier": "every expression tree over dynamic matrices, every size and content", "why_tests_cant": "infinitely many trees and sizes", "anchors": ["src/matrix/common_impl.rs: eval"]}
{"id": "C27", "title": "References and owned operands are interchangeable", "statement": "a + b, &a + b, a + &b, &a + &b have the same dimension, the same entries and the same panics; so do s * a, s * &a, a * s, &a * s.", "quantifier": "every operand expression, every position, every state", "why_tests_cant": "all operand trees", "anchors": ["src/addition.rs: four impls of Add", "src/scalar_mult.rs: four impls of Mul", "src/matrix_ref.rs", "src/matrix.rs: from_ref"]}
{"id": "C28", "title": "Addition panics exactly on dimension mismatch", "statement": "a + b panics if and only if a.dim() != b.dim().", "quantifier": "every two operands with the same index layout", "why_tests_cant": "all dimension pairs", "anchors": ["src/addition.rs: Addition::new"]}
{"id": "C29", "title": "1d and 2d access to expressions agree", "statement": "For every expression, get1d(convert_2d_1d(row, col)) = get(row, col), where the conversion is the expression's own layout - also when the operands have different physical layouts.", "quantifier": "every expression tree mixing dense and strided leaves of one index layout, every position", "why_tests_cant": "infinitely many trees", "anchors": ["src/addition.rs: Layout for Addition, get1d_unchecked", "src/traits/layout.rs: index_layout"]}
{"id": "C30", "title": "for_each visits every entry exactly once in 1d order", "statement": "for_each(f) calls f on each entry exactly once, in increasing 1d order, threading f's state, and changes nothing else; if f panics at some entry then exactly the entries before it (and what f did to that one) are updated.", "quantifier": "every matrix and view, every closure (stateful, possibly panicking), every panic point", "why_tests_cant": "all closures, all crash points", "anchors": ["src/matrix/base_methods.rs: for_each"]}
{"id": "C31", "title": "Random fill draws once per entry in 1d order", "statement": "fill_from_rand_standard_normal stores the successive samples of the generator in the entries in increasing 1d order: one sample per real entry, two (real part first) per complex entry, and advances the generator by exactly that many samples.", "quantifier": "every generator, distribution, matrix and size", "why_tests_cant": "all generators", "anchors": ["src/matrix/random.rs: fill_from_rand_standard_normal", "src/tools.rs: random_scalar", "src/macros.rs: rand_mat, rand_vector"]}
{"id": "C32", "title": "matmul computes alpha*A*B + beta*C", "statement": "For dense matrices and vectors in any combination of layouts, after matmul(alpha, A, B, beta, C) each entry (i, j) of C is alpha * sum_l A(i,l)*B(l,j) + beta * C_old(i,j).", "quantifier": "every size, every mix of row-major, column-major, row vector and column vector operands, every content", "why_tests_cant": "unbounded sizes; tests use row-major 4x6 by 6x5 only", "anchors": ["src/matrix_multiply.rs: MatMul::matmul"]}
{"id": "C33", "title": "matmul checks dimensions first and writes only C", "statement": "matmul panics, without writing anything, if and only if the dimensions are incompatible; otherwise only the entries of C change: A, B, all other matrices, and storage of C's container outside C's entries are unchanged.", "quantifier": "every operand triple and state", "why_tests_cant": "must inspect all of memory", "anchors": ["src/matrix_multiply.rs: MatMul::matmul"]}
{"id": "C34", "title": "matmul and dot work on views", "statement": "matmul with operands or destination that are block views computes the product of the viewed submatrices and writes only the viewed entries.", "quantifier": "every block view of a dense matrix as A, B or C", "why_tests_cant": "no test multiplies views", "anchors": ["src/matrix_multiply.rs: stride arguments", "src/layouts/arbitrary_stride_row_major.rs: stride", "src/layouts/arbitrary_stride_column_major.rs: stride"]}
{"id": "C35", "title": "dot returns the product in fresh memory", "statement": "a.dot(&b) for matrix*matrix, row vector*matrix and matrix*column vector returns a fresh a.rows x b.cols object whose entries are sum_l a(i,l)*b(l,j), leaves a and b unchanged, and panics if and only if a.cols != b.rows (or the result cannot be allocated).", "quantifier": "every size and content, all three shapes", "why_tests_cant": "unbounded sizes; dot is not tested at all outside doc examples", "anchors": ["src/matrix_multiply.rs: Dot::dot"]}
{"id": "C36", "title": "Results do not depend on storage layout", "statement": "Sums, scalar products and matrix products of two matrices depend only on their entries: replacing an operand by one with the same dimension and entries but a different container or physical layout gives entry-wise equal results.", "quantifier": "all operands, all admissible layouts", "why_tests_cant": "all pairs of representations", "anchors": ["src/addition.rs", "src/scalar_mult.rs", "src/matrix_multiply.rs", "src/matrix/common_impl.rs: eval"]}
{"id": "C37", "title": "Builds with and without overflow checks agree", "statement": "Whenever an operation completes without panicking in a build with overflow checks (debug), a build without them (release) gives the same result and the same memory.", "quantifier": "every API operation, every argument and state, every history", "why_tests_cant": "a statement about two semantics for all inputs", "anchors": ["all index arithmetic in src/layouts, src/matrix/constructors.rs, src/matrix/matrix_slices.rs"]}
{"id": "C38", "title": "Histories of safe operations are memory safe (overflow-checked build)", "statement": "No sequence of constructors, accesses, slices, blocks, splits, lazy expressions, evaluations, for_each and matrix products - on dense, vector and upper triangular matrices and views obtained from them by block/split - ever accesses memory outside the container involved, in a build with overflow checks.", "quantifier": "every finite history of operations with arbitrary arguments", "why_tests_cant": "all histories; undefined behaviour does not show in tests", "anchors": ["all of src"]}
{"id": "C39", "title": "Safe operations are memory safe in release builds", "statement": "The same without overflow checks.", "quantifier": "every finite history of operations with arbitrary arguments", "why_tests_cant": "needs dimensions whose product overflows usize", "anchors": ["src/matrix/constructors.rs: zeros_from_dim", "src/matrix/matrix_slices.rs: block"]}
{"id": "C40", "title": "Independent matrices do not interfere", "statement": "An operation that writes through a matrix or view changes only the allocation it belongs to; matrices in other allocations read the same before and after, at every point of every history.", "quantifier": "every history, every pair of matrices in different allocations", "why_tests_cant": "all histories", "anchors": ["src/data_container.rs", "src/base_matrix.rs"]}
{"id": "C41", "title": "length() is the number of entries of the vector", "statement": "length() of a row or column vector equals the number of its entries and the non-trivial component of dim().", "quantifier": "every vector the API can build", "why_tests_cant": "all lengths and containers", "anchors": ["src/matrix/common_impl.rs: length", "src/base_matrix.rs: length"]}
{"id": "C42", "title": "Complex products", "statement": "For complex scalars matmul, which passes alpha, beta and the data as [re, im] pairs to the kernel, computes alpha*A*B + beta*C in complex arithmetic.", "quantifier": "every size and content", "why_tests_cant": "unbounded sizes", "anchors": ["src/matrix_multiply.rs: matmul_impl complex"]}
{"id": "C43", "title": "Histories refine abstract matrices", "statement": "Any history of operations on dense matrices and their blocks gives the same observable results (values read, dimensions, panics) as the same history on abstract matrices, where a matrix is just a dimension and a function from positions to values and a block is a window on its parent.", "quantifier": "every finite history with arbitrary arguments", "why_tests_cant": "all histories", "anchors": ["all of src"]}
{"id": "C44", "title": "split_in_four_mut accepts exactly the interior points", "statement": "In a build with overflow checks split_in_four_mut returns four blocks of the documented dimensions if the split point lies strictly inside the matrix, and panics otherwise; it never forms a pointer outside of the container.", "quantifier": "every row-major matrix, every split point in usize x usize", "why_tests_cant": "all split points; an out-of-bounds pointer does not show in tests", "anchors": ["src/matrix/matrix_slices.rs: split_in_four_mut", "src/matrix/constructors.rs: from_pointer_strided"]}
{"id": "C45", "title": "Unsafe functions used within their contracts are memory safe", "statement": "For every history of API calls, including the unchecked accessors, from_pointer, from_pointer with strides and from_data with strided layouts: if each call is within its contract in the state in which it is made (unchecked accesses at stored entries; raw pointers to memory that holds all cells of the requested matrix; strided layouts whose rows do not overlap and whose cells lie in the container; blocks non-empty or starting inside the container), then no call has undefined behaviour, in the overflow-checked build for all sizes and in the release build if no number of entries and no end of a block exceeds 2^64 - 1, blocks are non-empty and matrices are split at interior points.", "quantifier": "all histories, all states reached, all closures, gemm routines and scalars, both build profiles", "why_tests_cant": "A test sees one history and one memory layout; undefined behaviour need not be visible in a run. The claim is an invariant over all histories.", "anchors": ["src/matrix/base_methods.rs", "src/matrix/constructors.rs: from_pointer, from_pointer_strided", "src/matrix/matrix_slices.rs: block, block_mut", "src/base_matrix.rs: unchecked accessors", "src/data_container.rs"]}
{"id": "C46", "title": "Debug and release builds agree unless a size exceeds the range of usize", "statement": "For every history of calls within their contracts (in particular every history of safe calls) in which no number of entries of a matrix and no end of a requested block exceeds 2^64 - 1, blocks are non-empty and matrices are split at interior points, the release build (wrapping arithmetic) and the overflow-checked build do the same: the same results, the same panics at the same calls, the same memory afterwards.", "quantifier": "all histories, all closures, gemm routines and scalars", "why_tests_cant": "Tests run in one build profile at a time and with few sizes; the claim compares two builds for every history, panicking calls included.", "anchors": ["all of src"]}
{"id": "C47", "title": "The product tests of the repository pass for all sizes", "statement": "Over exact arithmetic the triple loop against which the repository tests its products computes alpha*A*B + beta*C for every strided destination without aliasing, and leaves the same memory as matmul whenever the strides are reported truthfully; hence the three product tests (matrix times matrix, row vector times matrix, matrix times column vector) pass for every size that can be allocated, every generator of random scalars, and both build profiles.", "quantifier": "all sizes, generators, kernels that compute their formula, commutative semirings, build profiles; for the reference loop all layouts and memories", "why_tests_cant": "The tests run one size (4 x 6 times 6 x 5) and one seed.", "anchors": ["src/matrix_multiply.rs: mod test (matmul_expect, matmul_test, col_matvec_test, row_matvec_test)"]}
{"id": "C48", "title": "Writes reach only the matrix they name, its borrowers and its lenders", "statement": "In every history of safe calls that Rust's ownership rules admit, a matrix that is still usable reads the same as before unless the history writes to it or to a matrix that borrows (directly or indirectly) from it; a writable matrix shares a memory cell with another usable one only if one of them borrows from the other.", "quantifier": "all admitted histories and continuations, all usable matrices and expressions, all closures, gemm routines and scalars, both build profiles", "why_tests_cant": "Interference is a relation between every pair of live matrices after every history; a test observes a few matrices after one history.", "anchors": ["src/matrix/matrix_slices.rs: block, block_mut, split_in_four_mut", "src/matrix/base_methods.rs", "src/data_container.rs", "src/matrix_ref.rs", "src/matrix_multiply.rs: matmul"]}
{"id": "C49", "title": "What a read-only matrix reads does not change while it lives", "statement": "In every history of safe calls that the ownership rules admit, a matrix or lazy expression without write access (read-only block, reference, scalar multiple, sum) reads the same at all positions from its creation until its last use.", "quantifier": "all admitted histories, all read-only matrices, both build profiles", "why_tests_cant": "A lazy expression is evaluated at any later time; the claim excludes every write in between, for every history.", "anchors": ["src/scalar_mult.rs", "src/addition.rs", "src/matrix_ref.rs", "src/matrix/matrix_slices.rs: block, split_in_four_mut"]}
{"id": "C50", "title": "Memory in use has exactly one owner", "statement": "In every admitted history without raw pointers, every allocation that a usable matrix reads has exactly one usable owner, from which the matrix borrows unless it is the owner; no matrix frees an allocation twice. Hence no use after free and no double free, including expressions that take their operands by value.", "quantifier": "all admitted histories (unchecked accesses and splits included), all allocations, both build profiles", "why_tests_cant": "Use after free need not be visible in a run, and the claim is an invariant over all histories.", "anchors": ["src/data_container.rs", "src/matrix_ref.rs", "src/scalar_mult.rs", "src/addition.rs", "src/matrix/matrix_slices.rs"]}
{"id": "C51", "title": "Products never alias in admitted histories", "statement": "Whenever matmul is called and returns in an admitted history of safe calls, the destination has no entry in common with an operand and the dimensions fit; with truthful strides and a gemm routine that computes its formula the destination then holds alpha*A*B + beta*C of the entries before the call and the operands are unchanged.", "quantifier": "all admitted histories, all operands, all alpha and beta, both build profiles", "why_tests_cant": "Tests multiply freshly allocated matrices; absence of aliasing is a claim about all ways operands can be obtained.", "anchors": ["src/matrix_multiply.rs: matmul", "src/matrix/matrix_slices.rs: split_in_four_mut", "src/matrix/base_methods.rs: get_slice_mut"]}
{"id": "C52", "title": "Nested computations obey matrix algebra", "statement": "A computation that nests matrix products, lazy sums, scalar products and evaluations to any depth completes, leaves all existing memory unchanged and returns the matrix that matrix algebra assigns to it, in the order of operations written. Over exact arithmetic, two computations that the laws of matrix algebra identify (associativity, distributivity, commutativity of addition, scalar laws, anywhere in the computation) give equal matrices.", "quantifier": "all computations, all fitting dimensions, all scalar types, both build profiles (possibly different for the two computations)", "why_tests_cant": "Tests fix one expression and one size; the claim is an induction over all computations.", "anchors": ["src/matrix_multiply.rs: dot", "src/addition.rs", "src/scalar_mult.rs", "src/matrix/common_impl.rs: eval"]}
{"id": "C53", "title": "Slices of a matrix show its entries", "statement": "For a matrix with n entries, get_slice(first, last) with first < last <= n succeeds, its item k equals get1d(first + k), and entry (i, j) is found at its 1d number; writing item k of get_slice_mut writes that entry and nothing else.", "quantifier": "all layouts and dimensions, all ranges, all contents, both build profiles", "why_tests_cant": "Slices are tested on one dense matrix; the claim relates the storage order of every layout, views included, to its numbering.", "anchors": ["src/matrix/base_methods.rs: get_slice, get_slice_mut", "src/data_container.rs", "src/layouts/*: convert_1d_raw, convert_2d_raw"]}
{"id": "C54", "title": "Memory is freed exactly once and never used afterwards", "statement": "In every history that Rust's ownership rules admit and that makes no matrix from a raw pointer, an allocation is freed exactly when its one owner is dropped, goes out of scope or is lost in a panicking call; no matrix that can still be used refers to freed memory, nothing is freed twice, and ending all scopes frees everything. The history returns the same values as one in which no memory is ever freed.", "quantifier": "all admitted histories of API calls, drops and ends of scopes of any length, all arguments, both build profiles", "why_tests_cant": "Use after free, double free and leaks depend on the order in which values are moved, borrowed and dropped; tests run a few fixed orders.", "anchors": ["src/data_container.rs: VectorContainer, SliceContainer", "src/matrix_ref.rs", "src/addition.rs", "src/scalar_mult.rs", "src/matrix/matrix_slices.rs"]}
{"id": "C55", "title": "Threads on disjoint matrices do not influence each other", "statement": "If no writable matrix of one thread shares memory with a matrix of another, then under every interleaving of their calls each thread gets exactly the results and ends with exactly the matrices that it would get running alone; no interleaving adds undefined behaviour, no two calls of different threads can race, and the order of scheduling does not matter. Matrices that the ownership rules let a program lend to different threads meet the condition unless they come from split_in_four_mut or raw pointers.", "quantifier": "any number of threads, all schedules of any length, all API calls and arguments, all contents, both build profiles", "why_tests_cant": "The number of interleavings is unbounded and tests are single threaded.", "anchors": ["src/lib.rs:24-25 (multi-threaded routines as the goal)", "src/data_container.rs: containers", "src/matrix/matrix_slices.rs", "src/traits/random_access.rs"]}
{"id": "C56", "title": "Parts of one matrix can be used by different threads", "statement": "Matrices that the ownership rules let a program lend to different threads, the four quarters of split_in_four_mut included, can be used under every interleaving as if each thread were alone: same results, same final entries, no undefined behaviour, no entry changed by another thread, independent of the order of scheduling.", "quantifier": "any number of threads, all schedules of any length, all safe API calls and arguments, all contents, both build profiles", "why_tests_cant": "The number of interleavings and of ways to split matrices is unbounded and tests are single threaded; a race shows only under some schedules.", "anchors": ["src/lib.rs:24-25 (multi-threaded routines as the goal)", "src/matrix/matrix_slices.rs (split_in_four_mut)", "src/traits/random_access.rs", "src/layouts/: stride of views"]}
{"id": "C57", "title": "Products can be computed block by block", "statement": "A loop of matmul calls on blocks of A, B and C that accounts for every product A(i,l)*B(l,j) exactly once, in any order, with any block sizes, leaves the same matrix product in C as one call of matmul, and changes nothing else.", "quantifier": "all dense matrices of all sizes and contents, all lists of blocks, all orders, both build profiles", "why_tests_cant": "Sizes, cuts and orders are unbounded; the repository has no test of a blocked product.", "anchors": ["src/lib.rs:24-25 (blocked routines as the goal)", "src/matrix/matrix_slices.rs:19-69", "src/matrix_multiply.rs:189-237"]}
{"id": "C58", "title": "The wrong results for views have one cause", "statement": "If stride() of ArbitraryStrideRowMajor and ArbitraryStrideColumnMajor returned the strides stored in the layout, with all other code unchanged, then stride() would be right for all strided layouts, blocks of blocks would be the composed blocks at any depth, matmul would be right for all matrices and views with strides, and block by block products would be right for all block sizes.", "quantifier": "all layouts, dimensions, strides, contents, blocks, nesting depths and lists of blocks, both build profiles", "why_tests_cant": "Tests of a fix show single cases; that no second error hides behind the first one needs all views, block sizes and nestings.", "anchors": ["src/layouts/arbitrary_stride_row_major.rs:53-55", "src/layouts/arbitrary_stride_column_major.rs:54-56", "src/matrix/matrix_slices.rs:36, 66", "src/matrix_multiply.rs:211-216"]}
{"id": "C59", "title": "Ownership rejects nothing more than it must", "statement": "The signatures of the API let a program do everything that does not conflict: after any history a call is accepted exactly if its operands are still usable and none of its uses conflicts with another or ends an operand; a call ends exactly the matrices it moves and those whose loans it conflicts with; programs that only create and read are never refused, however many views, expressions and repeated operands they keep.", "quantifier": "all histories of any length over all API calls, raw pointers included, all arguments, both build profiles", "why_tests_cant": "Tests show programs that compile; that no needlessly exclusive or consuming signature rejects a legitimate combination of any number of views is a statement about all programs.", "anchors": ["src/traits/random_access.rs:30-68", "src/matrix/matrix_slices.rs", "src/scalar_mult.rs:117-163", "src/addition.rs:151-220", "src/matrix_multiply.rs:31, 52-58"]}
{"id": "C60", "title": "Threads can be interleaved access by access", "statement": "If threads hold disjoint matrices (read-only ones may be shared) then, however their calls are interleaved at the level of single loads, stores and allocations, inside of products, evaluations and for_each loops too, at every moment every thread has the results and matrices it would have if it ran alone, there is no data race, no undefined behaviour that a thread alone would not have, and every thread can always finish; the end result is that of whole calls one after the other.", "quantifier": "all numbers of threads, all calls with all arguments, all schedules of single memory accesses, all orders in which the gemm routine computes entries, both build profiles", "why_tests_cant": "The schedules inside of calls are not under the control of a test, and there are unboundedly many; data races show rarely or never.", "anchors": ["src/data_container.rs (Vec, array and slice containers are Send and Sync)", "src/matrix_multiply.rs:189-324", "src/base_matrix.rs", "src/matrix/matrix_slices.rs:75-123"]}
{"id": "C61", "title": "Parts of one matrix can be used by threads interleaved access by access", "statement": "Matrices that the borrow checker lets a program hand to different threads, such as the four quarters split_in_four_mut returns, have no common entry; calls on them, interleaved at the level of single loads, stores and allocations, never race, have no undefined behaviour, leave every thread with the results and matrices it would have alone, and can always finish.", "quantifier": "all programs that create and split the matrices, all numbers of threads, all calls, all schedules of single memory accesses, all orders in which the gemm routine computes entries, both build profiles", "why_tests_cant": "Parts of one matrix share an allocation, so an access past an entry is not out of bounds and no sanitizer reports it; whether it races depends on schedules that tests do not control.", "anchors": ["src/matrix/matrix_slices.rs:75-123", "src/base_matrix.rs", "src/matrix_multiply.rs:189-324", "src/layouts/arbitrary_stride_row_major.rs"]}
{"id": "C62", "title": "With a truthful stride whole histories agree with matrices as mathematical objects", "statement": "If stride of the two layouts of strided matrices returned their strides, every history of constructors, reads, writes, loops, expressions, evaluations, splits, non-empty blocks nested to any depth and products of any blocks that do not overlap their destination would return what the machine of matrices as functions on positions returns, panics included, and end with the same values.", "quantifier": "all histories of any length and with any arguments in the described scope, all scalar types, both build profiles", "why_tests_cant": "It is about all interplays of calls of a corrected library; single tests of the repair cannot show that no other cause of wrong results for views is left.", "anchors": ["src/layouts/arbitrary_stride_row_major.rs:53-55", "src/layouts/arbitrary_stride_column_major.rs:54-56", "src/matrix/matrix_slices.rs:19-69", "src/matrix_multiply.rs:75-236"]}
{"id": "C63", "title": "Four checks and a truthful stride make every history without unsafe calls safe", "statement": "If stride of strided matrices returned their strides, constructors checked that the number of elements can be computed and that user-given strides keep entries apart inside of the container, blocks had to be non-empty and inside, and splits interior, then no history of calls other than unsafe ones would read or write outside of the memory of a matrix, in debug or release builds, whatever the arguments; both builds would return the same; and nothing the overflow-checked build accepts today, other than empty blocks and bad strides, would be refused.", "quantifier": "all histories of any length and with any arguments without a call of an unsafe function, all scalar types, all gemm routines, both build profiles", "why_tests_cant": "It says that a list of causes of undefined behaviour is complete, which is a statement about all histories of calls and all sizes up to 2^64.", "anchors": ["src/matrix/constructors.rs:74-80", "src/base_matrix.rs:38-51", "src/matrix/matrix_slices.rs:19-141", "src/layouts/arbitrary_stride_row_major.rs:53-55", "src/matrix_multiply.rs:75-236"]}
{"id": "C64", "title": "The laws of matrix algebra that hold bit for bit in floating point", "statement": "With f32 and f64 scalars, inserting or omitting eval anywhere in a nested computation, exchanging the operands of sums and omitting factors one changes no bit of any entry of the result, whatever the gemm routine does; with c32 and c64 the same except for factors one. No other law of matrix algebra holds: associativity, distributivity and merging of scalar factors each fail for some f64 matrices. The factor one and the fresh zero matrix with which dot calls gemm change no bit of a sum.", "quantifier": "all nestings of products, sums, scalar multiples and evaluations, all matrices and dimensions, all floating point values including infinities, NaN and signed zeros, all deterministic gemm routines, both build profiles", "why_tests_cant": "Tests with random normal entries compare with a tolerance or never meet signed zeros, infinities and halfway cases; equality of bits for all of 2^64 values and all nestings is not testable.", "anchors": ["src/types.rs:21-50", "src/matrix/common_impl.rs:79-90", "src/addition.rs:1-246", "src/scalar_mult.rs:1-194", "src/matrix_multiply.rs:75-236"]}
{"id": "C65", "title": "The code blocks of the documentation for all sizes, positions and numbers", "statement": "Each code block of the documentation, with its sizes, positions, numbers and random generator replaced by arbitrary ones, runs to its end with all assertions true exactly if the positions are inside, the dimensions fit and the compared numbers are equal to themselves (not NaN), and panics otherwise: checked access, lazy sums and scalar products with eval, products with vectors, blocks, and the split into four mutable blocks. The unchecked access has undefined behaviour exactly if the offset is outside of the matrix.", "quantifier": "all dimensions whose bytes can be allocated, all positions, offsets, split points and values, all random generators, all scalar types, all gemm routines, both build profiles", "why_tests_cant": "The documentation tests run each block once, with one size, one position and thread-local random numbers; which sizes and values make an assertion fail, and that nothing else happens than a panic, is a statement about all of them.", "anchors": ["src/examples.rs:1-138", "src/macros.rs:1-66", "src/traits/random_access.rs:70-122"]}
{"id": "C66", "title": "Programs that type check never miss a method", "statement": "Whether a method exists and the type of what it returns depend on the types of the operands only (container, layout, compile-time sizes, kind of expression), never on memory, dimensions, strides or numbers. A program that type checks against the signatures of the library never calls a method that does not exist before its first panic, and every matrix it makes has the type computed before it ran; every program that runs without missing methods and panics type checks.", "quantifier": "all programs (lists of calls of the API), all states, all scalar types, all gemm routines, both build profiles", "why_tests_cant": "The compiler checks the programs that are written down; that the signatures are complete for the run-time behaviour and that the types predict it is a statement about all programs and all values.", "anchors": ["src/matrix.rs:41-146", "src/matrix/constructors.rs:12-128", "src/matrix/matrix_slices.rs:10-161", "src/matrix/common_impl.rs:75-122", "src/addition.rs:138-225", "src/scalar_mult.rs:106-167", "src/matrix_multiply.rs:61-156", "src/matrix_multiply.rs:342-349"]}
{"id": "C67", "title": "Generic code is right for every implementation of the traits", "statement": "For every implementation of the traits LayoutType, BaseLayoutType, DataContainer, DataContainerMut, UnsafeRandomAccess and UnsafeRandomAccessMut that meets the documented contract (both conversions to memory agree with the numbering, the index layout numbers alike, the memory indices fit the container and differ, container accesses reach their items), the code of the library does what it does for its own types: checked reads return the entry through both accessors and panic outside, a write changes one cell and is seen by both accessors, expressions over any mixture of matrices have the algebraic value, eval makes a new matrix with the same entries, for_each visits every entry once in order, matmul computes alpha A B + beta C, get_slice returns the slice. The crate's own layouts and containers meet the contract, and with them this code is the modelled code of the other properties. The bounds checks consult only dim and number_of_elements, so without the contract safe code can leave the memory.", "quantifier": "all implementations of the traits (functions of receiver and memory), all sizes, all contents, all expressions, all closures, both build profiles", "why_tests_cant": "Tests can run the generic code only with the implementations that exist; the claim is about every implementation a user could write.", "anchors": ["src/traits/layout.rs:84-143", "src/traits/random_access.rs:26-122", "src/data_container.rs:13-77", "src/base_matrix.rs:38-181", "src/addition.rs:50-137", "src/scalar_mult.rs:45-104", "src/matrix_ref.rs:80-159", "src/matrix/common_impl.rs:75-90", "src/matrix/base_methods.rs:10-28", "src/matrix_multiply.rs:189-236"]}
{"id": "C68", "title": "Accuracy of floating point results", "statement": "For f32, f64, c32 and c64 (IEEE-754, rounding to nearest) and every gemm routine that computes each entry by some formula for alpha (a1 b1 + ... + ak bk) + beta c, in any order, in blocks or with fused multiply-adds: every finite entry of a result of matmul, of a nested computation with dot, eval, sums and scalar products, and of an expression that is read entry by entry, differs from the exact value in real or complex numbers by at most ((1 + u)^n - 1) times the same computation with all signs removed, plus underflows, where u is the unit roundoff and n the number of roundings on top of each other (k + 3 for a product of k terms in order). A finite entry comes from finite operands, and if no intermediate result comes near the end of the range the entry is finite. Two such routines differ by at most the sum of their bounds; with cancellation they can differ in every digit.", "quantifier": "all four scalar types, all gemm routines that compute formulas, all sizes, all contents including infinities and NaN, all nested computations and expressions, both build profiles", "why_tests_cant": "The tests compare one routine with another for random entries in (0, 1), where nothing cancels, with a tolerance of 100 units in the last place that does not hold for all contents; no test knows the exact result.", "anchors": ["src/types.rs:21-50", "src/matrix_multiply.rs:189-236", "src/matrix_multiply.rs:75-160", "src/addition.rs:77-137", "src/scalar_mult.rs:69-104", "src/matrix/common_impl.rs:79-89"]}
{"id": "C69", "title": "Memory accesses of every call, in order", "statement": "Making references, blocks, quarters, slices, scalar products and sums touches no memory: expressions are lazy. Reading an entry of an expression loads that entry of each of its matrices exactly once, from left to right, and does nothing else; writing an entry is one store; a refused read or write touches no memory. eval makes one allocation of the size of the result, then goes once through the entries in 1d order, makes the loads of get1d for the entry and one store: no temporary matrix and no entry computed twice; if it panics, then before any access. for_each loads and stores every entry once, in 1d order, until the closure panics. Products load only entries of their operands and of the result, store only entries of the result and touch nothing if the dimensions do not fit; dot allocates its result first. Only calls that make a matrix of their own allocate, and once.", "quantifier": "all expressions over all sound matrices, all sizes, contents, layouts and closures, all calls, all gemm routines that keep to the entries of their arguments, both build profiles", "why_tests_cant": "Tests compare results. A second load, a temporary copy or an allocation too many leaves all results as they are.", "anchors": ["src/traits/random_access.rs:93-122", "src/matrix/common_impl.rs:41-89", "src/base_matrix.rs:121-150", "src/addition.rs:77-137", "src/scalar_mult.rs:69-104", "src/matrix_ref.rs:60-131", "src/matrix/base_methods.rs:18-28", "src/matrix_multiply.rs:75-236"]}
{"id": "C70", "title": "Results do not depend on where memory lies", "statement": "Memory is one array of bytes, in which every load and store is possible, and an allocator hands out blocks of it that are not in use; freed memory can be handed out again. Then a history of calls, drops and scope ends that is defined returns the same results and leaves the same items in the same matrices whatever the allocator, the bytes of the memory at the beginning and the encoding of the items, unless memory runs out. Safe histories are defined: they never free a block that is not in use, and two runs of one return the same. No byte is written outside of the blocks that were handed out. Without raw pointers all memory can be given back at any time.", "quantifier": "all histories of API calls with products whose result shares no entry with an operand, all allocators, all encodings of items as bytes, all contents of the memory, all gemm routines that compute the kernel, both build profiles", "why_tests_cant": "Tests run with one allocator, which rarely puts two matrices side by side or a new one where an old one was while a view of it is in use. An access past the end of a matrix then hits unused memory and nothing is seen.", "anchors": ["src/data_container.rs:11-225", "src/base_matrix.rs:17-28", "src/base_matrix.rs:121-180", "src/matrix/constructors.rs:10-60", "src/matrix/matrix_slices.rs:10-120", "src/matrix_multiply.rs:75-236"]}
{"id": "C71", "title": "Safe histories respect Rust's aliasing rules", "statement": "Under Stacked Borrows, in which every memory cell has a stack of the references that may reach it, no access of a history of calls and drops that the borrow checker admits uses a reference that has been invalidated: exclusive references made inside of the library (slices, blocks, parts of a split, raw pointers for gemm) stay valid as long as the matrix that holds them may be used, and shared ones are not written under. The code violates it: the four parts of split_in_four_mut are exclusive slices with common cells unless the matrix has two rows, and a read of one entry of a left part is then undefined behaviour.", "quantifier": "all admitted histories of API calls and drops, all matrices and sizes, all gemm routines, both build profiles, every cell of memory", "why_tests_cant": "Compiled code rarely shows an aliasing violation: results are right until an optimizer relies on the promise. Miri finds those on the executions it is given.", "anchors": ["src/data_container.rs:11-225", "src/matrix/base_methods.rs:31-84", "src/matrix/matrix_slices.rs:10-140", "src/matrix/constructors.rs:120-190", "src/matrix_multiply.rs:200-330"]}
{"id": "C72", "title": "Every access is aligned and inside memory in use", "statement": "Whenever a safe history of calls, drops and scope ends loads or stores an item, the address is that of an item of a block that is allocated at that moment: never behind the end of a block, between two items, or in memory that was freed. If the allocator returns aligned addresses and the size of an item is a multiple of its alignment, then every address is aligned and the item ends within the address space. These accesses are all there are: a run depends on no other byte, and changes no other byte outside of new blocks.", "quantifier": "all safe histories of API calls with products whose result shares no entry with an operand, and all defined histories with unsafe calls; all allocators, alignments, encodings of items as bytes and contents of the memory, all gemm routines that access only entries of their arguments, both build profiles", "why_tests_cant": "A load from freed or foreign memory returns some value, often the expected one, and on common processors an unaligned access works. Sanitizers only see the accesses of the runs they are given.", "anchors": ["src/data_container.rs:11-225", "src/base_matrix.rs:121-180", "src/matrix/constructors.rs:10-60", "src/matrix/matrix_slices.rs:10-120", "src/matrix_multiply.rs:75-236"]}
{"id": "C73", "title": "Local changes repair the wrong positions, sizes and lengths", "statement": "The failures of C02, C04, C07, C14, C15, C26 and C41 are each removed by a change in one function, and nothing else is needed. With 0 in place of 1 in convert_1d_2d of the vector layouts and an integer square root in that of the upper triangular one, 1d indices and positions are in bijection in every layout whose entries can be counted. With the rows stored from the first one, entry (0, 0) of an upper triangular matrix is at index 0, the order is that of the rows, and the conversions are still inverse to each other. With the other component in the assertion of ColumnVector::from_dimension every layout can be made from its dimension, and eval is right for every expression. With a check of the size types in from_data every matrix has the dimensions its type states, and no other matrix is rejected; then both length methods return the number of entries. With the present functions in their place, the changed callers are those of the library.", "quantifier": "all layouts, dimensions and indices whose count fits in usize, all expressions, heaps and scalar types, both build profiles", "why_tests_cant": "A test of a fix shows that one case is right now. Rounding of the square root goes wrong first at matrices of 2^53 entries, which no test can allocate.", "anchors": ["src/layouts/upper_triangular.rs:25-53", "src/layouts/row_vector.rs:24-26", "src/layouts/column_vector.rs:24-26", "src/layouts/column_vector.rs:65-72", "src/layouts/arbitrary_stride_row_vector.rs:29-31", "src/layouts/arbitrary_stride_column_vector.rs:29-31", "src/base_matrix.rs:38-51", "src/base_matrix.rs:142-158", "src/matrix/common_impl.rs:79-89"]}
{"id": "C74", "title": "Threads can share one memory and one allocator", "statement": "Threads run on one array of bytes, in which every load and store is possible, with one allocator; their calls are interleaved at the level of single accesses, and memory that a panicking call of one thread gives back may be handed out to another at once. If the threads begin with disjoint matrices (read-only ones may be shared) then at every moment every thread has the results, the matrices and, between calls, the items that it would have alone; no two threads are ever about to access a common byte, one of them to write; every access is to an item of a block in use; nothing is undefined that is defined for each thread alone; and every thread can always finish its calls unless memory runs out. Safe programs that hand out matrices by the rules of ownership, without split_in_four_mut, begin like this.", "quantifier": "all numbers of threads, all calls, all schedules of single accesses, all allocators, all encodings of items, all contents of the memory, all gemm routines that compute the kernel, both build profiles", "why_tests_cant": "A write past the end of a matrix, or to memory that was given back, shows only if the allocator puts the memory of another thread there and the schedule lets that thread read in between. A test controls neither.", "anchors": ["src/data_container.rs:11-225", "src/base_matrix.rs:17-28", "src/base_matrix.rs:121-180", "src/matrix/constructors.rs:10-60", "src/matrix/matrix_slices.rs:10-120", "src/matrix_multiply.rs:75-236"]}
{"id": "C75", "title": "Memory runs out only when there is none", "statement": "The library asks for memory only when it makes a matrix. A program ends for lack of memory only if it asks for a block that leaves the address space or has a byte in common with a block in use; if it goes on, every block it was given was free. For every defined history there is an allocator, with addresses that are not null and multiples of the size of an item, such that the history goes to its end with its results, unless all items it ever asked for do not fit in the address space. The same holds for threads and every schedule of their accesses: giving them memory behind all blocks in use, they never wait for memory until that has been used up.", "quantifier": "all histories and all schedules of threads, all encodings of items, all contents of the memory, all gemm routines that compute the kernel, both build profiles", "why_tests_cant": "A test runs with one allocator and with memory to spare. That no request is refused without need, and that none is granted that must not be, is about all allocators and all histories.", "anchors": ["src/data_container.rs:80-110", "src/matrix/constructors.rs:10-60", "src/matrix/common_impl.rs:79-90"]}
{"id": "C76", "title": "Threads can free their memory for others to use", "statement": "Threads run on one array of bytes with one allocator and also destroy matrices: by drop, at the end of a scope, or because a call that took them by value panicked. What one thread frees may be handed out to another at once, while matrices of the first still point to it. If the threads begin with disjoint matrices, and each owns what its destructors free, then at every moment every thread has the results, the matrices and, between calls, the items that it would have alone; no access is to memory that is not in use; no destructor frees memory that is not in use; no two threads are about to access a common byte, one of them to write, none is about to free what another is about to access, and no two are about to free the same; every thread can always finish unless memory runs out; and if each thread alone frees all but the common memory, then in the end only that is in use.", "quantifier": "all numbers of threads, all sequences of calls and destructors, all schedules of single accesses, all allocators, all encodings of items, all contents of the memory, all gemm routines that compute the kernel, both build profiles", "why_tests_cant": "Use after free and double free between threads show only if the allocator hands the freed memory to another thread at the right moment of the schedule. A test controls neither.", "anchors": ["src/data_container.rs:80-225", "src/addition.rs:50-75", "src/scalar_mult.rs:45-55", "src/matrix_ref.rs:20-78", "src/base_matrix.rs:17-28", "src/matrix/constructors.rs:10-60"]}
{"id": "C77", "title": "Safe programs can run as threads of one process", "statement": "Any number of programs of safe code that the borrow checker accepts run as threads on one array of bytes with one allocator. Each makes its own matrices and destroys them, by drop, at the end of a scope, or because a call that took them by value panicked. Then nothing is ever undefined; at every moment every thread has got the results, and between calls has the matrices and items, that its program has when it runs by itself with unlimited memory; no two threads are about to access a common byte, one of them to write, none is about to free what another is about to access or free, and every access is to memory in use; every thread can always finish unless memory runs out; and if the programs free what they allocate, which those without raw pointers do when their matrices leave scope, then in the end no memory is in use.", "quantifier": "all numbers of threads, all accepted safe programs without split_in_four_mut, all schedules of single accesses, all allocators, all encodings of items, all contents of the memory, all gemm routines that compute the kernel, both build profiles (release: index arithmetic does not wrap)", "why_tests_cant": "That threads with matrices of their own cannot disturb each other depends on every destructor, every address and every schedule; a test sees one allocator and one schedule.", "anchors": ["src/data_container.rs:80-225", "src/addition.rs:50-75", "src/scalar_mult.rs:45-55", "src/matrix_ref.rs:20-78", "src/matrix/constructors.rs:10-60"]}
{"id": "C78", "title": "A safe program can hand its matrices to threads", "statement": "A program of safe code that the borrow checker accepts runs on one array of bytes and then hands matrices, views and expressions to threads, by value or as references, such that no thread gets what another may write or owns; this holds if every matrix handed by value can be moved while what the other threads get stays usable. Each thread goes on with a program that would be accepted as a continuation of the first one, makes matrices and destroys matrices, also those it was handed by value. Then nothing is ever undefined; every thread has got the results that the continuation by itself gets, and its matrices have the same items; no two threads are about to access a common byte, one of them to write, none is about to free what another is about to access or free, every access is to memory in use; every thread can always finish unless memory runs out; and if each thread frees what it made and what it was handed by value, then afterwards exactly the other memory of the first program is in use.", "quantifier": "all accepted safe programs without split_in_four_mut and all ways to hand out matrices, all numbers of threads and their programs, all schedules of single accesses, all allocators, all encodings of items, all gemm routines that compute the kernel, both build profiles (release: index arithmetic does not wrap)", "why_tests_cant": "It quantifies over programs, over what is handed to whom and over schedules. A use after free through a shared view shows only if the allocator reuses the memory at that moment.", "anchors": ["src/data_container.rs:80-225", "src/addition.rs:50-75", "src/scalar_mult.rs:45-55", "src/matrix_ref.rs:20-78", "src/matrix/matrix_slices.rs:10-40"]}
{"id": "C79", "title": "After its threads a program finds what they wrote, and nothing else changed", "statement": "A safe program hands matrices to threads as in C78. At every moment, each of its items that no thread got a writable matrix of is what it was before; and when a thread makes no call, the items of what it was handed are those that the program itself would leave there by doing what the thread did. If the threads free what they make and what was moved to them, then once all threads have ended the program can go on with any safe code that the borrow checker accepts without the moved matrices: nothing is undefined, and it gets the results and matrices that it gets from its state before the threads, without the moved matrices and with the items that each thread by itself leaves in what it was lent.", "quantifier": "all accepted safe programs without split_in_four_mut before, in and after the threads, all ways to hand out matrices, all numbers of threads, all schedules of single accesses, all allocators, all encodings of items, all gemm routines that compute the kernel, both build profiles (release: index arithmetic does not wrap)", "why_tests_cant": "A write outside of a view would change an item of a matrix that the test does not look at, or only under one schedule; the claim is about all items of all matrices after all schedules.", "anchors": ["src/data_container.rs:80-225", "src/base_matrix.rs:1-40", "src/matrix_ref.rs:20-78", "src/matrix/matrix_slices.rs:10-40"]}
{"id": "C80", "title": "A program may use threads again and again", "statement": "A safe program goes on alone and with threads in turn, any number of times, each time waiting for the end of the threads, which free what they make and what was moved to them. In every round nothing is undefined, no two threads race or free the same memory, every access is to memory in use, and every thread ends unless there is no memory. After every round the items that no thread got a writable matrix of are as they were, and those of what a thread was lent are as that thread alone leaves them; and all results of the program are those of a machine with names for allocations and these items.", "quantifier": "all numbers and orders of rounds, all accepted safe programs without split_in_four_mut in and between them, all ways to hand out matrices, all numbers of threads, all schedules of single accesses, all allocators (other ones in each round), all encodings of items, all gemm routines that compute the kernel, both build profiles (release: index arithmetic does not wrap)", "why_tests_cant": "What one round leaves wrong, such as a block that is in use twice or a loan that has not ended, may show only many rounds later and only under some schedules and allocators; a test runs few rounds under few schedules.", "anchors": ["src/data_container.rs:80-225", "src/base_matrix.rs:1-40", "src/matrix_ref.rs:20-78", "src/matrix/matrix_slices.rs:10-40"]}
