{"id": "C01", "title": "Dense matrix layout is a bijection", "statement": "For an m x n dense matrix in row-major or column-major order, every in-range (i,j) is mapped to its own storage slot below m*n, no two positions share a slot, every slot is used, and the storage-to-index functions recover (i,j).", "quantifier": "all sizes m,n and all index pairs", "why_tests_cant": "unbounded sizes; a test samples a few sizes", "anchors": ["include/boost/numeric/ublas/functional.hpp: basic_row_major, basic_column_major (element, index_i, index_j, storage_size)"]}
{"id": "C02", "title": "Dense layout guards are exact under 64-bit wrap-around", "statement": "With checks enabled, storage_size throws bad_size exactly when size1*size2 does not fit in size_type, and element() of an in-range index of an allocatable matrix never throws and equals the mathematical offset (no wrap).", "quantifier": "all 64-bit sizes and indices", "why_tests_cant": "needs sizes near 2^64 that cannot be allocated in a test", "anchors": ["include/boost/numeric/ublas/functional.hpp: storage_size, element, address"]}
{"id": "C03", "title": "Triangular packed storage is a bijection onto packed_size", "statement": "For lower/upper, unit and strict triangular matrices of sizes below 2^32 in both orientations, the stored positions map one-to-one into [0,packed_size), and onto it when the matrix is square; consecutive stored elements of a row (row major) or column (column major) are adjacent. In checked builds the last column of tall unit/strict lower matrices and the last row of wide unit/strict upper ones are rejected (and only these), and unit/strict matrices with an empty side cannot be created. (Not promised, and refuted: the size guard for orders of 2^32 and above.)", "quantifier": "all sizes below 2^32, all stored positions, six triangle kinds, two orientations, checked and unchecked builds", "why_tests_cant": "unbounded sizes", "anchors": ["include/boost/numeric/ublas/functional.hpp: lower_element, upper_element, triangular_size, basic_lower, basic_unit_lower, basic_strict_lower, transposed_structure"]}
{"id": "C04", "title": "Triangular matrices behave as a function update restricted to the triangle", "statement": "A write to an accessible stored position of a triangular matrix is read back there and changes no other position; positions outside the triangle always read 0, and the diagonal of unit kinds always reads 1; a write outside the stored triangle is rejected with bad_index. All stored positions are accessible, except that checked builds reject reads and writes in the last column of tall unit/strict lower (last row of wide unit/strict upper) matrices.", "quantifier": "all sizes below 2^32, positions, values and sequences of writes, checked and unchecked builds", "why_tests_cant": "every history of writes", "anchors": ["include/boost/numeric/ublas/triangular.hpp: triangular_matrix::operator(), at_element, insert_element, erase_element", "include/boost/numeric/ublas/functional.hpp"]}
{"id": "C05", "title": "Banded storage is collision free and writes are local", "statement": "For a banded matrix with given lower/upper bandwidth, in-band positions get distinct slots in range, a write to one is read back and changes no other, and out-of-band positions read 0.", "quantifier": "all sizes, bandwidths, positions, write histories", "why_tests_cant": "unbounded sizes and bandwidths", "anchors": ["include/boost/numeric/ublas/banded.hpp: banded_matrix, hidden::banded_indexing"]}
{"id": "C06", "title": "Symmetric matrices stay symmetric", "statement": "After any sequence of element writes, a symmetric matrix reads equal at (i,j) and (j,i), the last write to either position is the value read, and no other position changed.", "quantifier": "all sizes and write histories", "why_tests_cant": "every history", "anchors": ["include/boost/numeric/ublas/symmetric.hpp: symmetric_matrix"]}
{"id": "C07", "title": "Hermitian matrices stay hermitian", "statement": "After any sequence of element writes (operator(), insert_element, erase_element of stored positions, clear), the value at (i,j) is the conjugate of the value at (j,i) for i<>j, and also for i=j as long as only real values are written to the diagonal; the last write to (i,j) or (j,i) determines both; nothing else changes. Assigning through operator() outside the stored triangle is rejected, as is erasing there in checked builds. (Refuted: erase_element outside the stored triangle in unchecked builds erases another element; a non-real value on the diagonal is accepted.)", "quantifier": "all sizes, write histories, value types with an involutive conjugation", "why_tests_cant": "every history", "anchors": ["include/boost/numeric/ublas/hermitian.hpp: hermitian_matrix"]}
{"id": "C08", "title": "Array resize preserves the prefix", "statement": "Resizing with preservation keeps the first min(old,new) elements and fills the rest with the given value; resizing without preservation changes only the size (contents unspecified); resize to the same size is a no-op.", "quantifier": "all arrays and sizes, any sequence of resizes", "why_tests_cant": "every history", "anchors": ["include/boost/numeric/ublas/storage.hpp: unbounded_array::resize_internal, bounded_array::resize, array_adaptor::resize_internal"]}
{"id": "C09", "title": "bounded_array never exceeds its capacity", "statement": "With checks enabled every constructor and resize of a bounded_array<T,N> either leaves size<=N or throws bad_size leaving it unchanged; assignment and swap exchange exactly the visible contents.", "quantifier": "all operation sequences", "why_tests_cant": "every history", "anchors": ["include/boost/numeric/ublas/storage.hpp: bounded_array"]}
{"id": "C10", "title": "Range, slice and index-list composition", "statement": "Projecting a projection addresses the same element as the composed index map: (outer.compose(inner))(i) = outer(inner(i)) for range/range, slice/range, slice/slice, indirect/range, indirect/slice, indirect/indirect, including negative strides.", "quantifier": "all ranges, slices, index arrays and indices", "why_tests_cant": "unbounded parameters and sign combinations", "anchors": ["include/boost/numeric/ublas/storage.hpp: basic_range::compose, basic_slice::compose, indirect_array::compose"]}
{"id": "C11", "title": "Projections are views", "statement": "Writing through a vector_range/vector_slice/matrix_row/matrix_column/matrix_range/matrix_slice (or nested projections) changes exactly the addressed elements of the underlying container and nothing else; reading through it returns the underlying element.", "quantifier": "all containers, projections (nested to any depth), indices, values", "why_tests_cant": "unbounded nesting and sizes", "anchors": ["include/boost/numeric/ublas/vector_proxy.hpp", "include/boost/numeric/ublas/matrix_proxy.hpp"]}
{"id": "C12", "title": "Sparse map_array refines a finite map", "statement": "Any sequence of insert/erase/operator[]/push_back/clear on a map_array behaves like a finite map from index to value, its keys stay strictly increasing, and find agrees with the map.", "quantifier": "all operation sequences", "why_tests_cant": "every history", "anchors": ["include/boost/numeric/ublas/storage_sparse.hpp: map_array"]}
{"id": "C13", "title": "Assigning a map_array copies it; copy construction does not", "statement": "After b = a (operator=) the map_array b finds exactly the entries of a, has its size and behaves like a container with these entries under every later sequence of operations. Copy construction does not copy: for every source the new container holds whatever the fresh memory held and the source's own cells are overwritten with it (a defect of the code, proved).", "quantifier": "all containers reachable by legal histories, all later histories, all contents of fresh memory", "why_tests_cant": "every content; memory-level effect", "anchors": ["include/boost/numeric/ublas/storage_sparse.hpp: map_array(const map_array&)"]}
{"id": "C14", "title": "compressed_vector refines a finite map", "statement": "Any sequence of element writes, insert_element, erase_element, push_back, pop_back, clear, reserve and resize on a compressed_vector keeps indices strictly increasing and below size, keeps nnz<=capacity, and every read returns the last value written (0 if none or erased); no in-range operation triggers undefined behaviour.", "quantifier": "all operation sequences", "why_tests_cant": "every history", "anchors": ["include/boost/numeric/ublas/vector_sparse.hpp: compressed_vector"]}
{"id": "C15", "title": "coordinate_vector sums duplicates", "statement": "Any sequence of append_element, insert_element, writes, erase and sort on a coordinate_vector reads, at each index, the sum of everything appended there since it was last erased/overwritten; sorting does not change what is read.", "quantifier": "all operation sequences", "why_tests_cant": "every history; interleavings of lazy sort", "anchors": ["include/boost/numeric/ublas/vector_sparse.hpp: coordinate_vector (append_element, sort, inplace_merge)"]}
{"id": "C16", "title": "In-place merge sorts", "statement": "The library's own inplace_merge on two adjacent sorted runs terminates, yields a sorted permutation of the same (index,value) pairs and touches nothing outside the runs.", "quantifier": "all arrays and run boundaries", "why_tests_cant": "unbounded sizes; termination", "anchors": ["include/boost/numeric/ublas/vector_sparse.hpp: coordinate_vector::inplace_merge, lower_bound", "include/boost/numeric/ublas/matrix_sparse.hpp: coordinate_matrix::inplace_merge"]}
{"id": "C17", "title": "coordinate_vector pop_back keeps the vector consistent", "statement": "pop_back on a sorted coordinate_vector removes the element with the largest index and leaves a consistent vector for which all later operations are correct, provided another element remains or the build is unchecked. (Refuted otherwise: in checked builds popping the only element always throws internal_logic; popping an unsorted vector marks it sorted and loses an element to reads.)", "quantifier": "all reachable states and later histories", "why_tests_cant": "every history", "anchors": ["include/boost/numeric/ublas/vector_sparse.hpp: coordinate_vector::pop_back"]}
{"id": "C18", "title": "compressed_matrix refines a finite map", "statement": "Any sequence of insert_element, element writes, erase_element, push_back, pop_back and clear on a compressed (CSR/CSC) matrix keeps the row-pointer array monotone and column indices strictly increasing per row, and every read returns the last value written (0 if none).", "quantifier": "all operation sequences, both orientations", "why_tests_cant": "every history", "anchors": ["include/boost/numeric/ublas/matrix_sparse.hpp: compressed_matrix"]}
{"id": "C19", "title": "mapped sparse containers refine a finite map", "statement": "mapped_vector / mapped_matrix reads return the last value written, with (i,j)->key injective for in-range indices.", "quantifier": "all operation sequences", "why_tests_cant": "every history", "anchors": ["include/boost/numeric/ublas/vector_sparse.hpp: mapped_vector", "include/boost/numeric/ublas/matrix_sparse.hpp: mapped_matrix"]}
{"id": "C20", "title": "Assignment algorithms agree with element-wise assignment", "statement": "For every combination of destination storage category and source iterator category (dense, packed, sparse), v op= e produces, at every index, exactly the same value as the element-wise loop v(i) op= e(i).", "quantifier": "all vectors, expressions, sizes and sparsity patterns", "why_tests_cant": "unbounded sparsity patterns", "anchors": ["include/boost/numeric/ublas/detail/vector_assign.hpp: vector_assign, make_conformant, iterating_/indexing_vector_assign"]}
{"id": "C21", "title": "Swapping two vectors or views exchanges them", "statement": "swap of two equal-size dense or two sparse vectors (or vector proxies) exchanges their values at every index; swap of two packed ones exchanges the positions both store and changes nothing else, provided the stored part of the first does not start before that of the second. (Refuted for packed ones otherwise, e.g. two columns of a lower triangular matrix.)", "quantifier": "all vectors, stored patterns, value types", "why_tests_cant": "unbounded patterns", "anchors": ["include/boost/numeric/ublas/detail/vector_assign.hpp: vector_swap"]}
{"id": "C22", "title": "inner_prod/prod do not depend on storage", "statement": "The dense, packed and sparse inner-product kernels return the sum over all indices of the products of the two operands' elements.", "quantifier": "all vectors, packed ranges and sparsity patterns", "why_tests_cant": "unbounded patterns", "anchors": ["include/boost/numeric/ublas/functional.hpp: vector_inner_prod, matrix_vector_prod1/2, matrix_matrix_prod"]}
{"id": "C23", "title": "Plain assignment is alias safe", "statement": "For a dense container x, x = e, x += e and x -= e (e any expression, x may occur in it) give x the value computed from the old contents, with e's sizes, change no other object, and either complete or throw leaving everything as it was; the same holds for assignment of an expression to a range/slice/indirect/row/column proxy (in checked builds including wrong sizes). Assignment without temporary (noalias, container = container, matrix_range = matrix_range) gives the same result when e never reads an element already overwritten, in particular when e does not read x or reads only x(i) for element i with the dense kernel, and for overlapping ranges when the source does not start before the destination. It does not otherwise: overlapping matrix_range assignment, noalias(v) = v + sparse, and v *= v(0) give other results.", "quantifier": "all expressions, memories, sizes, traversal orders, checked and unchecked builds", "why_tests_cant": "the expression is arbitrary (any function of memory), so is the overlap", "anchors": ["include/boost/numeric/ublas/vector.hpp: operator=, operator+=, assign", "include/boost/numeric/ublas/matrix.hpp", "include/boost/numeric/ublas/vector_expression.hpp: noalias"]}
{"id": "C24", "title": "Norms and index_norm_inf", "statement": "norm_1, norm_inf, norm_2^2 and sum equal their definitions; index_norm_inf returns an index of an element whose absolute value equals norm_inf, the first such, and 0 for empty or all-zero vectors.", "quantifier": "all vectors", "why_tests_cant": "unbounded sizes", "anchors": ["include/boost/numeric/ublas/functional.hpp: vector_norm_1, vector_norm_inf, vector_index_norm_inf, vector_norm_2_square, matrix_norm_1, matrix_norm_inf"]}
{"id": "C25", "title": "Triangular solve solves", "statement": "inplace_solve(A,x,tag) with lower/upper/unit tags, vector or matrix right-hand side, row- or column-major variant, overwrites b with the unique x such that T x = b where T is the selected triangle of A, whenever its diagonal is invertible; with checks on a zero pivot raises singular.", "quantifier": "all sizes, matrices and right-hand sides over a field", "why_tests_cant": "unbounded sizes", "anchors": ["include/boost/numeric/ublas/triangular.hpp: inplace_solve, solve"]}
{"id": "C26", "title": "LU factorisation factors", "statement": "lu_factorize(A) returning 0 leaves L (unit lower) and U (upper) in place with L*U = A; with pivoting, L*U = P*A for the row swaps recorded in pm; a non-zero return names the first zero pivot.", "quantifier": "all matrices over a field", "why_tests_cant": "unbounded sizes", "anchors": ["include/boost/numeric/ublas/lu.hpp: lu_factorize"]}
{"id": "C27", "title": "LU substitution solves the system", "statement": "After lu_factorize(A,pm)=0, lu_substitute(A,pm,b) overwrites b with x such that A_original x = b.", "quantifier": "all matrices and right-hand sides over a field", "why_tests_cant": "unbounded sizes", "anchors": ["include/boost/numeric/ublas/lu.hpp: lu_substitute, swap_rows"]}
{"id": "C28", "title": "LU substitution from the left", "statement": "After lu_factorize(A)=0 without pivoting, lu_substitute(b,A) overwrites b with x such that x A_original = b. After lu_factorize(A,pm)=0, lu_substitute(b,A,pm) computes x with x (P A_original) = P b, which is x A_original = b when no rows were exchanged. (Refuted: x A_original = b in general with pivoting.)", "quantifier": "all matrices and right-hand sides over a field", "why_tests_cant": "unbounded sizes", "anchors": ["include/boost/numeric/ublas/lu.hpp: lu_substitute(mv,m,pm)"]}
{"id": "C29", "title": "swap_rows applies a permutation", "statement": "swap_rows(pm,v) rearranges the elements of v by a permutation determined by pm only; applying the swaps in reverse order restores v.", "quantifier": "all permutation vectors with in-range entries and all vectors/matrices", "why_tests_cant": "unbounded sizes", "anchors": ["include/boost/numeric/ublas/lu.hpp: swap_rows, permutation_matrix"]}
{"id": "C30", "title": "axpy_prod, opb_prod, block_prod and sparse_prod compute the product", "statement": "axpy_prod, opb_prod and block_prod give the mathematical product, added to the old target when init is false, for every storage kind, orientation, sparsity pattern and block size of at least 1 (axpy_prod with a restriction only where it holds, except into dense targets); sparse_prod with init gives it for every non-empty result (with init = false it replaces the elements whose product is nonzero instead of adding). All agree element by element with prod.", "quantifier": "all matrices, vectors, block sizes, sparsity patterns", "why_tests_cant": "unbounded", "anchors": ["include/boost/numeric/ublas/operation.hpp", "include/boost/numeric/ublas/operation_blocked.hpp", "include/boost/numeric/ublas/operation_sparse.hpp"]}
{"id": "C31", "title": "Stream output can be read back; malformed input is rejected", "statement": "Reading what operator<< printed for a vector, matrix or (symmetric data) symmetric_matrix yields an equal one and leaves the stream right behind it, provided the element type's own text can be read back. operator>> accepts exactly the texts of the format [n](x,...,x) / [n1,n2]((x,...),...) with optional white space (and, deviating from what is printed, an optional comma before a closing bracket); symmetric_matrix additionally exactly symmetric data. Every other input sets failbit and leaves the target unchanged.", "quantifier": "all vectors/matrices of any size and element type, all input texts", "why_tests_cant": "the input text and the sizes are unbounded", "anchors": ["include/boost/numeric/ublas/io.hpp"]}
{"id": "C32", "title": "Comma/stream assignment fills every element in order", "statement": "c <<= a, b, c, ... stores the given values one after another: each value (or element of a vector expression) goes to the cursor, which starts at the origin and advances along the traverse policy (by row or by column, wrapping at the end of a row/column or not); a non-empty matrix block is stored with its first element at the cursor, which afterwards stands behind the block (at the same row, or below the block at column 0 when the row is complete); the manipulators move/move_to/begin1/begin2/next_row/next_column/traverse and fill policies act from where they stand; index_plus_assign/index_minus_assign combine with the old element. Elements not reached keep their value. In checked builds a statement with more values than the container has positions is rejected. (Not promised, and refuted: scalars that complete a row followed directly by a block; empty blocks; anything about too many values in unchecked builds.)", "quantifier": "all dense vectors and matrices of either layout and compressed vectors/matrices, all sizes, all lists of values, vector and matrix expressions (independent of the target), manipulators and policies", "why_tests_cant": "the cursor arithmetic (wrapping, blocks, moves with wrap-around of size_type) must be right for every shape and every statement", "anchors": ["include/boost/numeric/ublas/assignment.hpp: operator<<=, vector_expression_assigner, matrix_expression_assigner, traverse_policy, fill_policy, index_manipulator"]}
{"id": "C33", "title": "Tensor strides address every element once", "statement": "For every valid shape, first-order and last-order strides map each in-range multi-index to a distinct offset below the product of the extents, and onto it.", "quantifier": "all ranks and extents", "why_tests_cant": "unbounded rank", "anchors": ["include/boost/numeric/ublas/tensor/extents/extents_functions.hpp: to_strides, product", "include/boost/numeric/ublas/tensor/index_functions.hpp"]}
{"id": "C34", "title": "Tensor multi-index access agrees with linear access", "statement": "For every valid tensor t and in-range multi-index, t.at(i1,...,ip) is the element t[k] at the position k that the layout (first-order or last-order) gives the multi-index; every linear position belongs to exactly one in-range multi-index; a wrong number of (two or more) indices throws.", "quantifier": "all ranks, shapes, offsets", "why_tests_cant": "unbounded rank", "anchors": ["include/boost/numeric/ublas/tensor/tensor/tensor_core.hpp: at, operator[]", "include/boost/numeric/ublas/tensor/index_functions.hpp: to_index", "include/boost/numeric/ublas/tensor/access.hpp"]}
{"id": "C35", "title": "Tensor copy/transform/accumulate visit every element once", "statement": "copy and transform set C[i1..ip] from A[i1..ip] for every multi-index across different layouts; accumulate folds each element exactly once.", "quantifier": "all ranks, shapes, strides", "why_tests_cant": "unbounded rank", "anchors": ["include/boost/numeric/ublas/tensor/algorithms.hpp: copy, transform, accumulate"]}
{"id": "C36", "title": "Tensor transposition permutes indices", "statement": "trans(A,tau) has C[j] = A[j_tau] for every multi-index, transposing by the inverse permutation restores A, and a tuple that is no permutation throws.", "quantifier": "all ranks, shapes, permutations", "why_tests_cant": "unbounded rank", "anchors": ["include/boost/numeric/ublas/tensor/algorithms.hpp: trans", "include/boost/numeric/ublas/tensor/function/trans.hpp"]}
{"id": "C37", "title": "Tensor contraction kernels compute the contraction", "statement": "prod(A,b,m), prod(A,M,m), prod(A,B,phi_a,phi_b), inner_prod, outer_prod and the pointer-level ttt return tensors of the right shape whose elements equal the defining sums over multi-indices.", "quantifier": "all ranks, shapes, modes, permutations", "why_tests_cant": "unbounded rank", "anchors": ["include/boost/numeric/ublas/tensor/multiplication.hpp"]}
{"id": "C38", "title": "Tensor products reject inconsistent shapes", "statement": "prod of a tensor with a vector or a matrix (rank >= 2), prod of two tensors with tuples of modes, inner_prod (dynamic rank) and outer_prod throw on every combination of ranks, modes and extents for which the contraction is undefined (tuples of different length, missing modes, different extents, empty operands) and never access memory outside the operands. (Refuted: prod with a matrix on rank 1; repeated modes in a tuple are accepted; inner_prod of static-rank tensors of different shape and the pointer-level ttt read out of bounds; static-rank results of rank below 2 always throw.)", "quantifier": "all ranks, extents and modes", "why_tests_cant": "unbounded", "anchors": ["include/boost/numeric/ublas/tensor/multiplication.hpp top-level functions", "include/boost/numeric/ublas/tensor/function/*.hpp"]}
{"id": "C39", "title": "Triangular iterators visit exactly the non-zero structure", "statement": "For every triangular kind and shape, iterating a row or column with const iterators visits exactly the positions that can be non-zero (stored or unit diagonal), and with mutable iterators exactly the stored positions.", "quantifier": "all triangular kinds, all sizes, all rows and columns", "why_tests_cant": "must hold for every shape including tall and wide; tests use a few square sizes", "anchors": ["include/boost/numeric/ublas/functional.hpp: basic_lower::restrict1, restrict2, mutable_restrict1, mutable_restrict2, transposed_structure", "include/boost/numeric/ublas/triangular.hpp: triangular_matrix::find1, find2"]}
{"id": "C40", "title": "array_adaptor ownership", "statement": "In any program that creates, copies, resizes (into own or user-supplied memory), assigns, swaps and destroys array_adaptors, memory allocated by an adaptor is deleted exactly once, user-supplied memory is never deleted, nothing is used after deletion, and nothing leaks; assignment copies the visible elements into the existing memory when sizes agree.", "quantifier": "all programs over any number of adaptors and user buffers", "why_tests_cant": "ownership must hold for every interleaving of operations", "anchors": ["include/boost/numeric/ublas/storage.hpp: array_adaptor"]}
{"id": "C41", "title": "Iterating over a vector expression visits what the expression contains", "statement": "For any expression built from vectors with +, -, element-wise products, scalar factors and unary functors, the loop from begin () to end () (or from find (i) to end ()) visits positions in increasing order, reports at each one the value e (i), never misses a position stored in an operand and passes over zeros only (dense expressions visit everything); when no operand is packed it visits no other positions. So v = e, v += e, v -= e computed by iterators equals the element-wise result. Operands of different sizes are reported as bad_argument in checked builds. Reverse iteration over dense expressions visits the same elements in reverse order. (Refuted: reverse iteration over packed or sparse binary expressions reports zeros or never leaves end ().)", "quantifier": "all expression trees of all depths, all sizes, any mixture of dense, packed and sparse operands, all start positions, checked and unchecked builds", "why_tests_cant": "the iterator of a binary node interleaves two sub-iterators; every combination of stored positions at every depth has to be skipped and merged correctly", "anchors": ["include/boost/numeric/ublas/vector_expression.hpp: vector_unary, vector_binary, vector_binary_scalar1, vector_binary_scalar2", "include/boost/numeric/ublas/traits.hpp: iterator_restrict_traits"]}
{"id": "C42", "title": "Tensor comparison", "statement": "For dynamic-rank tensors of one layout: a == b is true exactly when the tensors have the same shape and all elements are equal; the relational operators hold exactly when they hold for all pairs of elements and throw for different shapes. (Refuted: a != b is not the negation of a == b; tensors of different layouts are compared by storage position; static-rank tensors of different shapes are compared without looking at the shapes.)", "quantifier": "all ranks, shapes, element values", "why_tests_cant": "unbounded rank and size", "anchors": ["include/boost/numeric/ublas/tensor/operators_comparison.hpp: compare, operator==, operator!=, operator<"]}
{"id": "C43", "title": "Element-wise tensor expressions", "statement": "Assigning (or adding, subtracting, ...) an element-wise tensor expression whose tensors have the type of the target sets every element of the target to the value of the expression at the same multi-index computed from the old operands, in whatever order the parallel loop runs its iterations and even if the target occurs in the expression; operands of another shape make it throw and leave the target unchanged. (Refuted with tensors of different layouts, and the shape check with tensors of different types.)", "quantifier": "all expressions, shapes, element values and iteration orders", "why_tests_cant": "unboundedly many expressions and schedules", "anchors": ["include/boost/numeric/ublas/tensor/expression.hpp", "include/boost/numeric/ublas/tensor/expression_evaluation.hpp: eval, all_extents_equal, retrieve_extents", "include/boost/numeric/ublas/tensor/operators_arithmetic.hpp"]}
{"id": "C44", "title": "Tensor reshape keeps the linear order", "statement": "reshape(t,e,v) has shape e, keeps the elements in linear order, drops those beyond the new size and fills the rest with v; reshaping to a shape at least as large and back gives back t.", "quantifier": "all shapes and element values", "why_tests_cant": "unbounded rank and size", "anchors": ["include/boost/numeric/ublas/tensor/function/reshape.hpp: reshape"]}
{"id": "C45", "title": "Einstein notation contracts the common labels", "statement": "a(l...) * b(m...), with different labels within each operand and some label in common, sums the products over the common labels and has the remaining labels of a, then those of b, as modes; identical label tuples give the inner product. (Refuted: without a common label the result is the element-wise, not the outer product.)", "quantifier": "all ranks, shapes, label tuples", "why_tests_cant": "unbounded rank", "anchors": ["include/boost/numeric/ublas/tensor/operators_arithmetic.hpp: operator* of two tuples", "include/boost/numeric/ublas/tensor/multi_index_utility.hpp", "include/boost/numeric/ublas/tensor/multi_index.hpp"]}
{"id": "C46", "title": "Matrix assignment, compound assignment, scalar assignment and swap are element-wise", "statement": "m = e, m += e and m -= e set every element (i,j) of m to m(i,j) op e(i,j), whatever the storage (dense, packed, sparse, proxies of these) and orientation of m and whatever positions the iterators of e visit; the size of m does not change; operands of different size are rejected by checked builds before anything is written; a packed target never writes outside its stored part; m *= t and m /= t do the same with a scalar; swap exchanges all elements of two dense or two sparse matrices (or proxies) of equal sizes, and of two packed ones of equal shape. (Refuted: swap of packed proxies of different shapes.)", "quantifier": "all matrices of all sizes and value types with x+0=x, x-0=x, all storage and orientation categories of target and source, all sets of stored elements, the iterating and indexing implementations, checked and unchecked builds", "why_tests_cant": "the result must be the same for every combination of sparsity patterns of the two operands, of which there are exponentially many, and for every storage/orientation/category combination of the dispatch table", "anchors": ["include/boost/numeric/ublas/detail/matrix_assign.hpp: matrix_assign, matrix_assign_scalar, matrix_swap, make_conformant, matrix_assign_traits"]}
{"id": "C47", "title": "axpy_lu_factorize computes the same factorisation as lu_factorize", "statement": "axpy_lu_factorize (A, pm) started with the identity permutation returns the same value, the same permutation and (in the first min(size1,size2) columns) the same elements as lu_factorize (A, pm); for matrices with at least as many rows as columns the packed factors therefore satisfy L*U = P*A even when A is singular, the return value names the first zero of the diagonal, and lu_substitute with them solves A x = b; this holds for both compiled versions (with and without BOOST_UBLAS_LU_WITH_INPLACE_SOLVE) and both orientations, and does not depend on the uninitialised work vector. (Refuted: for size2 > size1 the columns beyond size1 are lost, so L*U = P*A fails.)", "quantifier": "all matrices of all shapes over all fields with an absolute value, both versions, both orientations, checked and unchecked builds", "why_tests_cant": "the column-oriented algorithm must agree with the elimination algorithm for every matrix, including every pattern of zero pivots and row exchanges", "anchors": ["include/boost/numeric/ublas/lu.hpp: axpy_lu_factorize", "include/boost/numeric/ublas/operation.hpp: axpy_prod"]}
{"id": "C48", "title": "Iterating over a compressed_matrix visits exactly its stored elements", "statement": "On a compressed_matrix reached by any legal history of element updates, the nested loops over begin1/end1 and it1.begin/it1.end (or begin2/end2 and it2.begin/it2.end) visit exactly the stored elements, each once, row by row (column by column) with increasing indices, whatever the storage orientation, and report the indices and the value m(i,j); one row or column alone likewise; the loops never throw and never read outside the arrays; writing through an iterator changes that element only; reverse loops inside a row (column) visit the same elements backwards when they run along the storage direction, or when the matrix was completed by complete_index1_data or has an element in its last line. (Refuted: reverse iteration across the storage direction otherwise does not move back from the end iterator.)", "quantifier": "all matrix sizes, orientations, index bases, histories of set/insert/erase/push_back/pop_back/clear/reserve/resize/complete, element types, checked and unchecked builds", "why_tests_cant": "the find functions search backwards and forwards over partially built index arrays; their result must be right for every sparsity pattern and every history that produced it", "anchors": ["include/boost/numeric/ublas/matrix_sparse.hpp: compressed_matrix::find1, find2, const_iterator1, iterator1, const_iterator2, iterator2"]}
{"id": "C49", "title": "coordinate_matrix refines a finite map with lazy sorting, and converts faithfully to compressed_matrix", "statement": "After any legal sequence of append_element (duplicates allowed), insert_element, element writes and reads, erase_element, push_back, pop_back, clear, sort, resize and reserve on a coordinate_matrix, no exception is raised and no array is accessed out of bounds, and every in-range read returns the value last written at that position plus everything appended there since (zero if nothing is stored). sort() never changes what is read; after it nnz() is the number of distinct stored positions and the index and value arrays list them in storage order. In checked builds a duplicate insert_element, an out-of-order or unsorted push_back, pop_back on an empty matrix and a preserving resize are rejected. Building a compressed_matrix from a coordinate_matrix with index base 0 and at least one line gives a matrix with the same size, elements and nnz on which all later legal operations behave as specified. (Refuted: with index base 1 the conversion loses elements; with no lines it writes out of bounds; popping the only element throws in checked builds; popping an unsorted matrix loses an element; positions are never checked against the sizes.)", "quantifier": "all operation sequences, sizes, positions, both orientations, any index base, value type and std::sort implementation, checked and unchecked builds", "why_tests_cant": "every history and every permutation std::sort may produce among equal positions", "anchors": ["include/boost/numeric/ublas/matrix_sparse.hpp: coordinate_matrix, compressed_matrix (const coordinate_matrix &)", "include/boost/numeric/ublas/storage_sparse.hpp / detail: inplace_merge"]}
{"id": "C50", "title": "dense matrix iterators visit every element once, in order, forwards and backwards", "statement": "Nested loops over begin1()..end1() and it.begin()..it.end() of a dense matrix (or with begin2() outside) visit every position exactly once, row by row (column by column), for both storage orders and all sizes including empty ones; index1(), index2() and * are the position and its element; the reverse iterators visit the same positions in the opposite order; assigning through the iterators writes exactly the element at their position. Along a line, ++, --, +=, -=, == and < are arithmetic and comparison of the index, for every pair of positions including the end; the difference of two iterators is the index difference when it is not negative. (Refuted: a negative difference of iterator1 in a row major matrix, or iterator2 in a column major one, with lines longer than one comes out non-negative because of an unsigned division; index1() of the end iterator of a column major matrix is 0.)", "quantifier": "all sizes whose storage plus one line fits difference_type, both storage orders, both directions, all pairs of positions of a line, all contents, checked and unchecked builds", "why_tests_cant": "all sizes, storage orders and position pairs", "anchors": ["include/boost/numeric/ublas/matrix.hpp: matrix::find1, find2, const_iterator1, iterator1, const_iterator2, iterator2, begin1, end1, rbegin1", "include/boost/numeric/ublas/functional.hpp: basic_row_major, basic_column_major distance_i/j, increment_i/j", "include/boost/numeric/ublas/detail/iterator.hpp: reverse_iterator_base1/2"]}
{"id": "C51", "title": "triangular_adaptor and banded_adaptor show exactly their triangle or band of the underlying matrix", "statement": "Reading a triangular_adaptor or banded_adaptor over a dense matrix yields the underlying element inside the triangle (band), 1 on the diagonal of a unit triangular adaptor and 0 elsewhere; writing a position of the triangle (band) writes that element of the underlying matrix and no other, writing any other position raises bad_index. Nested const iterator loops, by rows or by columns, forwards or reverse, visit exactly the positions of the triangle (plus the unit diagonal) or band, each once and in order, with the adaptor's elements; assignment through the mutable iterators changes exactly the elements of the triangle (band). This holds for every non-empty square shape, every shape of a banded adaptor, and every shape of a triangular one iterated along its lines. (Refuted: column iteration over a unit or strict lower adaptor with more rows than columns never visits the last column; over a lower adaptor with at least two more columns than rows it raises bad_index in checked builds; begin2() of a strict lower adaptor without columns raises.)", "quantifier": "all sizes within difference_type, all six triangular structures, all band widths, both storage orders of the matrix, both iteration directions, all contents, checked and unchecked builds", "why_tests_cant": "all sizes, structures, band widths and positions", "anchors": ["include/boost/numeric/ublas/triangular.hpp: triangular_adaptor, find1, find2, const_iterator1, iterator1, const_iterator2, iterator2", "include/boost/numeric/ublas/banded.hpp: banded_adaptor, find1, find2, const_iterator1, iterator1", "include/boost/numeric/ublas/functional.hpp: basic_lower, basic_unit_lower, basic_strict_lower, transposed_structure: restrict, mutable_restrict, global_restrict, global_mutable_restrict"]}
{"id": "C52", "title": "symmetric_adaptor and hermitian_adaptor mirror one triangle; their two-phase iterators hide it", "statement": "Reading a symmetric_adaptor (hermitian_adaptor) over a dense square matrix yields the underlying element in the used triangle and the (conjugated) mirror element elsewhere. Assigning an element of a symmetric_adaptor, or insert_element of a hermitian_adaptor, makes (i,j) and (j,i) read the value and its mirror, changes no other element and never the unused triangle; operator() of a hermitian_adaptor assigned through outside the used triangle raises external_logic. Forward nested loops over const iterators visit all positions once, in row or column order, with the adaptor's elements; the mutable iterators visit and write exactly the used triangle. Within a line, an iterator found at an index and incremented supports --, += and differences against later iterators exactly. (Refuted: -= across the diagonal raises external_logic in checked builds; reverse iteration reads the unused triangle below the diagonal and does not meet begin(); begin() - end() is not -n.)", "quantifier": "all sizes within difference_type, both triangles, both storage orders, both directions, every line, every pair of indices, all contents, every involutive conjugation, checked and unchecked builds", "why_tests_cant": "all sizes, lines and index pairs; the phase switch happens at a different place on every line", "anchors": ["include/boost/numeric/ublas/symmetric.hpp: symmetric_adaptor, find1, find2, const_iterator1, const_iterator2, iterator1, iterator2", "include/boost/numeric/ublas/hermitian.hpp: hermitian_adaptor, find1, find2, const_iterator1, const_iterator2, insert_element"]}
{"id": "C53", "title": "The BLAS interface computes the documented formulas, whatever its arguments alias", "statement": "asum, nrm2, amax and dot return the 1-norm, 2-norm, maximum norm and inner product. copy, swap, scal, axpy and rot do v1=v2, exchange, v=v*t, v1+=t*v2, and (x_i,y_i) -> (c x_i + s y_i, -s x_i + c y_i); axpy may be given the same vector twice, rot two rows of one matrix; rot changes nothing but the two vectors. tmv, gmv, gr, sr, hr, sr2, hr2, tmm, gmm, srk, hrk, sr2k, hr2k store the documented formula evaluated on the values BEFORE the call even when the operands or scalars read the destination, and change no other object; tsv and tsm store the solution of the triangular system. sr/srk/sr2/sr2k keep a symmetric matrix symmetric, hr/hrk/hr2/hr2k a hermitian one hermitian (real factors). A call that throws leaves everything as it was; checked builds reject inconsistent sizes. scal by a reference to an element of the same vector is NOT a scaling (refuted by example).", "quantifier": "all destinations (containers and proxies), operand expressions, scalars, memories, sizes, iteration orders, both build modes; all scalar operations (only the laws named in each theorem)", "why_tests_cant": "the aliasing patterns between destination, operands and scalar references and the sizes are unbounded", "anchors": ["include/boost/numeric/ublas/blas.hpp: blas_1::copy, swap, scal, axpy, rot, asum, nrm2, amax, dot", "include/boost/numeric/ublas/blas.hpp: blas_2::tmv, tsv, gmv, gr, sr, hr, sr2, hr2", "include/boost/numeric/ublas/blas.hpp: blas_3::tmm, tsm, gmm, srk, hrk, sr2k, hr2k"]}
{"id": "C54", "title": "Iterating over a matrix expression reports its elements, in order, leaving out zeros only", "statement": "For any nesting of -m, conj(m), trans(m), herm(m), m1+m2, m1-m2, element_prod, t*m, m*t, m/t, outer_prod(v1,v2) and prod(m1,m2) over dense, packed and sparse containers, the loop over begin1()..end1() and, inside each row, begin()..end() terminates, visits rows and columns in strictly increasing order without repetition, reports e(i,j) at each visited position and leaves out only positions where e(i,j) is zero; likewise column by column. Nothing but positions stored in an operand is visited when no operand is packed. prod(m,v) and prod(v,m) report the full inner product of each visited line. Hence m = e, m += e, m -= e give the target e(i,j) at every position. Sums of different sizes are reported by checked builds. Limits found and proved: a product whose first operand has an empty row cannot be an operand of a sum (checked builds throw internal_logic, unchecked builds report elements of another row); the dense iterators of outer_prod skip the rows where the first vector is zero, so the iterators of a dense sum with it run past the end.", "quantifier": "all expression trees, all operand sizes, contents and stored positions, both directions, both build modes, all scalar types satisfying the zero laws", "why_tests_cant": "expression nesting, operand storage categories and stored patterns are unbounded", "anchors": ["include/boost/numeric/ublas/matrix_expression.hpp: vector_matrix_binary, matrix_unary1, matrix_unary2, matrix_binary, matrix_binary_scalar1, matrix_binary_scalar2, matrix_vector_binary1, matrix_vector_binary2, matrix_matrix_binary (find1, find2, const_iterator1, const_iterator2)", "include/boost/numeric/ublas/functional.hpp: matrix_matrix_prod, matrix_vector_prod1, matrix_vector_prod2"]}
{"id": "C55", "title": "Iterating over a view visits exactly the selected part", "statement": "For every well-formed view - vector_range, vector_slice, vector_indirect, matrix_row, matrix_column, matrix_vector_range/slice/indirect, matrix_range, matrix_slice, matrix_indirect, nested to any depth over dense, packed or sparse containers - iterators from find(i) to end() (and, for matrices, begin()/end() of the outer iterator inside each row or column) show the selected positions in increasing order, once each, with their indices in the view and the value operator() has there; elements not shown are zero. A range, row or column shows exactly what the iterators of the underlying object show inside it, the other views every position. Reverse iterators show the same backwards, begin()[k] is the k-th element, end()-begin() their number. A view is again a well-formed operand for expressions and assignments. In checked builds the end iterator of a slice, indirect or matrix_vector view, or of a range ending inside a dense vector, throws bad_index when dereferenced.", "quantifier": "all containers (any category, any set of stored positions, any sizes), all nestings of views that fit, all starting positions i, both directions, checked and unchecked builds, all value types", "why_tests_cant": "the set of visited positions depends on the container's pattern, the nesting and the offsets of the views; tests sample a few shapes of dense matrices", "anchors": ["include/boost/numeric/ublas/vector_proxy.hpp: vector_range, vector_slice, vector_indirect (find, const_iterator)", "include/boost/numeric/ublas/matrix_proxy.hpp: matrix_row, matrix_column, matrix_vector_range, matrix_vector_slice, matrix_vector_indirect, matrix_range, matrix_slice, matrix_indirect (find1, find2, const_iterator1, const_iterator2)", "include/boost/numeric/ublas/storage.hpp: basic_range::const_iterator, basic_slice::const_iterator, indirect_array::const_iterator", "include/boost/numeric/ublas/detail/iterator.hpp: reverse_iterator_base"]}
{"id": "C56", "title": "Iterating over a mapped_matrix visits exactly its stored elements", "statement": "After any legal history of element writes, inserts, erases and clears, the nested iterator loops over a mapped_matrix (begin1()/end1() outside and it1.begin()/it1.end() inside, or with columns outside) visit exactly the stored elements, each once, in row-by-row (column-by-column) order with their values, for row-major and column-major storage alike; find1/find2 with rank 1 give the first stored element of the line from the given index on or the end; ++ goes to the next stored element of the line and -- back; writing through an iterator changes that element only. Reverse iteration: in unchecked builds the inner reverse loop visits every position from the end of the line down to the first stored element, not only the stored ones; in checked builds (refuted) it always raises bad_index, because -- on an end iterator asks it for its index.", "quantifier": "all sizes with room for one line past the end in size_type, both storage orders, both iteration directions, all histories of operations, checked and unchecked builds", "why_tests_cant": "all histories, sizes and patterns of stored elements; an off-by-one in the line search shows only for particular empty lines", "anchors": ["include/boost/numeric/ublas/matrix_sparse.hpp: mapped_matrix::find1, find2, const_iterator1, iterator1, const_iterator2, iterator2", "include/boost/numeric/ublas/functional.hpp: basic_row_major::address, index_i, index_j", "include/boost/numeric/ublas/detail/iterator.hpp: reverse_iterator_base1, reverse_iterator_base2"]}
{"id": "C57", "title": "Iterating over a sparse vector visits exactly its stored elements", "statement": "After any legal history, iterating over a mapped_vector, compressed_vector or coordinate_vector from begin() to end() visits exactly the stored elements (index() and value), each once, by increasing index; rbegin() to rend() the same in the opposite order; find(a) to find(b) exactly those with index in [a, b). For coordinate_vector this includes elements appended since the last sort, duplicates summed. index() and * on end() throw bad_index in checked builds. Assigning through the iterators (*it = g(it.index(), *it)) changes exactly the stored elements and leaves a consistent vector.", "quantifier": "all element types, index bases, sizes, reserved capacities, legal histories, fresh-memory contents, std::sort implementations, checked and unchecked builds, all bounds a <= b and all functions g", "why_tests_cant": "The index arrays depend on the whole history (unsorted appends, duplicates, capacity growth); tests see a few histories.", "anchors": ["include/boost/numeric/ublas/vector_sparse.hpp: mapped_vector/compressed_vector/coordinate_vector const_iterator, iterator, find, begin, end, rbegin, rend", "include/boost/numeric/ublas/detail/iterator.hpp: reverse_iterator_base"]}
{"id": "C58", "title": "A sparse matrix kept as a vector of sparse vectors behaves as a finite map", "statement": "generalized_vector_of_vector with mapped, compressed or coordinate lines: after any legal history of writes, insert_element, append_element, erase_element, clear, sort, reads and resize (with or without preserve), nothing has thrown or touched memory outside the arrays; size1/size2 are the last requested; every in-range read returns the value last written plus everything appended since, or zero; find_element is null exactly for elements not stored; nnz() is the number of stored elements. In checked builds writes outside the matrix and insert_element of a stored element throw bad_index. Refuted: a const read outside the matrix throws in checked builds (it returns zero); a preserving resize to fewer lines never throws (it does right after append_element with coordinate lines).", "quantifier": "all element types, layouts, line types, index bases, sizes, legal histories, fresh-memory contents, std::sort implementations, checked and unchecked builds", "why_tests_cant": "The lines and the end marker are created, kept and recycled by every resize; only some orders of growing, shrinking and storing expose a line left with stale contents.", "anchors": ["include/boost/numeric/ublas/vector_of_vector.hpp: generalized_vector_of_vector resize, find_element, operator (), insert_element, append_element, erase_element, clear, sort, nnz, storage_invariants"]}
{"id": "C59", "title": "Iterating over a matrix kept as a vector of sparse vectors visits exactly its stored elements", "statement": "generalized_vector_of_vector with mapped, compressed or coordinate lines, after any legal history: nested loops over iterator1/iterator2 (iterator2/iterator1 for column_major) with the inner loop along the stored lines, forward or from rbegin() to rend(), visit exactly the stored elements (index1, index2, value), each once, in order; assigning through the iterators changes exactly the stored elements and leaves a consistent matrix; in checked builds an end iterator has no index and no element and cannot be incremented. In unchecked builds the loops may also run across the lines, and along them from rbegin1()/rbegin2(). Refuted: in checked builds loops across the lines throw external_logic as soon as there is an element, and loops from rbegin1()/rbegin2() throw bad_index; in unchecked builds reversed loops across the lines are undefined behaviour with compressed lines (every matrix that stores anything) and mapped lines, and work with coordinate lines.", "quantifier": "all element types, layouts, line types, index bases, sizes, legal histories, fresh-memory contents, std::sort implementations, assigned functions g, checked and unchecked builds", "why_tests_cant": "The position an iterator searches for depends on which elements every line stores, on the order they were stored in and on the end marker; tests see a few matrices.", "anchors": ["include/boost/numeric/ublas/vector_of_vector.hpp: generalized_vector_of_vector find1, find2, const_iterator1, iterator1, const_iterator2, iterator2, begin1, end1, begin2, end2, rbegin1, rend1, rbegin2, rend2", "include/boost/numeric/ublas/detail/iterator.hpp: reverse_iterator_base1, reverse_iterator_base2"]}
{"id": "C60", "title": "Zero, unit and scalar vectors and zero, identity and scalar matrices are what their names say", "statement": "For any sizes, element access and iteration agree with the mathematical object: zero_vector and zero_matrix list nothing, scalar_vector and scalar_matrix list every element in order, unit_vector (with index below its size) lists its one, identity_matrix - after any sequence of resize, assignment and swap, square or not - lists exactly its diagonal by rows and by columns, forwards and backwards, and within a row or column between any two indices. In checked builds there is no element at the end. Refuted: a unit_vector whose index is not below its size (default constructed or resized) still lists an element; traversing a wide identity_matrix by columns through find2 (as matrix expressions do) throws in checked builds; the inner loop of a row or column beyond the smaller size lists an element outside the matrix.", "quantifier": "all element types, sizes, indices, operation sequences, checked and unchecked builds", "why_tests_cant": "Non-square and empty shapes and every combination of bounds matter; tests use a few square ones.", "anchors": ["include/boost/numeric/ublas/vector.hpp: zero_vector, unit_vector, scalar_vector", "include/boost/numeric/ublas/matrix.hpp: zero_matrix, identity_matrix, scalar_matrix"]}
{"id": "C61", "title": "c_vector and c_matrix never leave their built-in array and hold what was last written", "statement": "For every legal history of construction, resize, element writes (by index or iterator), erase, clear and assignment (from a container, an expression, another c_vector/c_matrix) of a c_vector<T,N> or c_matrix<T,N,M>, in checked and unchecked builds, with and without move semantics: no exception, no access outside the array, every element reads as last written, iteration forwards, backwards, by rows and by columns lists exactly those elements, a copy is equal, swapping two objects of equal size exchanges them. Asking for more than N (N x M) elements throws bad_size in every build; in checked builds indices and iterators outside throw bad_index. Refuted: in checked builds assigning an expression (or, with move semantics, another c_vector) of a different but fitting size throws bad_size; so does c_matrix::resize with preserve (the default) whenever it changes a size; in unchecked builds swapping with a shorter vector loses the elements beyond the shorter size; dereferencing the end of a row of a c_matrix whose columns are all in use is not rejected in checked builds.", "quantifier": "all element types, capacities, sizes, operation sequences, uninitialised contents, checked and unchecked builds, with and without move semantics", "why_tests_cant": "Histories are unbounded and the failures depend on capacity, size and build configuration together.", "anchors": ["include/boost/numeric/ublas/vector.hpp: c_vector", "include/boost/numeric/ublas/matrix.hpp: c_matrix"]}
{"id": "C62", "title": "Iterating over a coordinate_matrix visits exactly its stored elements, in order, whatever was appended when", "statement": "After any legal history of a coordinate_matrix (duplicate and out-of-order appends included), both orientations, any index base, checked and unchecked builds: the nested loops begin1()..end1() / it1.begin()..it1.end() and begin2()..end2() / it2.begin()..it2.end() visit every stored element once, with its indices and the sum of everything appended there, row by row (column by column), touch nothing outside the arrays, and leave every m(i,j) as it was; find1/find2(1,i,j) land on the first stored element of the line at or behind the index; writing through the mutable iterators changes exactly the stored elements and later histories run on; in checked builds the ends have no index. Refuted: a reversed inner loop along the storage direction reports the number of the next non-empty line instead of its own, and reads outside the arrays on the last non-empty line when nnz() equals nnz_capacity(); a reversed inner loop across it throws in checked builds and reads outside the arrays in unchecked ones; reversed outer loops throw in checked builds, and with the mutable iterator2 never move in unchecked ones; dereferencing the end of a row can read outside the arrays in checked builds; find2 with direction -1 can read before the array.", "quantifier": "all element types with associative commutative addition, std::sort implementations, histories, layouts, index bases, lines, directions, checked and unchecked builds", "why_tests_cant": "What an iterator sees depends on the whole history of unsorted appends, on the storage orientation, and on whether the arrays happen to be full.", "anchors": ["include/boost/numeric/ublas/matrix_sparse.hpp: coordinate_matrix::find1, find2, const_iterator1, iterator1, const_iterator2, iterator2, begin1, end1, begin2, end2"]}
{"id": "C63", "title": "mapped_vector_of_mapped_vector is a finite map of positions; its iterators visit what is stored along the layout, and not otherwise", "statement": "After any legal history (writes, reads, insert_element, erase_element, clear, resize without preserve) of a mapped_vector_of_mapped_vector, both layouts, checked and unchecked builds: no exception, every m(i,j) is the value written last (zero where nothing is stored), find_element is null exactly where nothing is stored; the nested loops along the layout (rows of a row_major matrix) visit exactly the stored elements in order, forwards and backwards, and assigning through them changes exactly those; a loop across the layout visits exactly the stored elements of that line; the loop over a line that was written to visits exactly its elements. Checked builds reject insert_element of a stored element, resize with preserve, and the index or element of an end iterator. Refuted: no index is checked, so writes outside the matrix are accepted and read back in checked builds; the loop over a line never written to visits the elements of the next line that was; a reversed loop across the layout throws bad_index (checked) or is undefined (unchecked) when there is an element to visit; the nested loops with the outer loop across the layout step through line numbers instead of column numbers and skip elements, visit nothing, or run off the map.", "quantifier": "all element types, histories, layouts, sizes, lines, directions, checked and unchecked builds", "why_tests_cant": "Which lines exist in the outer map depends on the whole history (a line stays after its last element is erased), and the iterators behave differently on lines that exist and lines that do not.", "anchors": ["include/boost/numeric/ublas/matrix_sparse.hpp: mapped_vector_of_mapped_vector, its find1, find2, const_iterator1, iterator1, const_iterator2, iterator2"]}
{"id": "C64", "title": "Iterators of triangular_matrix, symmetric_matrix, hermitian_matrix and banded_matrix visit exactly the elements they should, in order, and write only those", "statement": "For every triangular_matrix, symmetric_matrix, hermitian_matrix and banded_matrix built by construction and element writes (both layouts, all triangles, any band, checked and unchecked builds): every element can be read; the nested loops over rows (or columns) with const iterators visit exactly the positions that are not structural zeros (all positions for symmetric and hermitian) with their elements, in order, and with reverse iterators in the opposite order; a loop over one line between find(1,a) and find(1,b) visits exactly the visited positions between a and b; assigning through mutable iterators sets exactly the stored elements (and their mirror images for symmetric / hermitian) and nothing else; iterators on one line move, subtract, compare and index like their positions; comparing iterators of different lines raises external_logic in checked builds. Refuted: column loops with mutable iterators over a unit or strict lower triangular matrix with more rows than columns never reach the last column; begin of an empty strict triangular matrix raises in checked builds.", "quantifier": "all element types, kinds, layouts, sizes, bands, histories of construction and element writes, directions, ranges, checked and unchecked builds", "why_tests_cant": "The clipped ranges come from unsigned arithmetic on sizes and bands; a boundary that is off by one shows only for particular combinations of shape, direction and kind.", "anchors": ["include/boost/numeric/ublas/triangular.hpp: triangular_matrix find1, find2, const_iterator1, iterator1, const_iterator2, iterator2", "include/boost/numeric/ublas/symmetric.hpp: symmetric_matrix iterators", "include/boost/numeric/ublas/hermitian.hpp: hermitian_matrix iterators", "include/boost/numeric/ublas/banded.hpp: banded_matrix iterators"]}
{"id": "C65", "title": "compressed_matrix_view presents compressed row/column arrays as the matrix they describe", "statement": "For any arrays in compressed storage (starts, indices, values; any index base, row or column major, checked and unchecked builds), a compressed_matrix_view over them reads every in-range element the arrays list as the value listed and every other one as zero; packing any lines of (index,value) pairs with increasing indices gives a view that reads exactly those; the view refers to the arrays: changing one value changes exactly the element listed there; the checked constructor accepts exactly if the entry behind the last start is nnz plus the base (so arrays of another index base are rejected with external_logic); a view over the arrays of a compressed_matrix after any legal history ended by complete_index1_data() reads the same as the matrix. Refuted: indices are never compared with the sizes; a line out of order is accepted and elements it lists read as zero.", "quantifier": "all element types, index bases, layouts, sizes, arrays, positions; all legal compressed_matrix histories; checked and unchecked builds", "why_tests_cant": "Binary search over user supplied arrays with a compile time index base: a wrong bound or base shows only for particular lines (empty, first, last) and positions.", "anchors": ["include/boost/numeric/ublas/experimental/sparse_view.hpp: c_array_view, compressed_matrix_view, make_compressed_matrix_view"]}
{"id": "C66", "title": "matrix_row_vector / matrix_column_vector present a matrix as a vector of its rows / columns", "statement": "For every dense matrix (row or column major, checked and unchecked builds): iterating over the vector of rows (columns) and over each row (column) visits every element exactly once, line by line, and reverse iterators visit the lines from last to first; assigning all elements through the iterators assigns exactly the matrix's elements; after any legal sequence of element assignments through rows and columns and of resizes of either vector (preserving or not) the matrix and both vectors have the sizes and elements that the sequence describes; iterator arithmetic (advance, distance, comparison) is that of the line numbers; checked builds raise bad_index for any line or position out of range. Refuted for unchecked builds: reading one past the end of a row yields the first element of the next row.", "quantifier": "all element types, sizes, layouts, elements, directions, sequences of operations; checked and unchecked builds", "why_tests_cant": "Both vectors share one matrix, resize moves all elements, and rows and columns of one matrix are mixed in arbitrary orders.", "anchors": ["include/boost/numeric/ublas/matrix_vector.hpp: detail::matrix_vector_iterator, matrix_row_vector, matrix_column_vector, make_row_vector, make_column_vector"]}
{"id": "C67", "title": "vector_of_vector holds the elements its history describes", "statement": "For every legal sequence of element assignments, erase_element, clear, resize (preserving or not), assignment, copy, swap, and assignments of expressions and containers on two vector_of_vector matrices (row or column major, checked or unchecked): every call succeeds and afterwards both matrices have exactly the sizes and elements that sequence describes, independently of uninitialised memory. Checked builds raise bad_index for indices outside the matrix, except in the hidden line behind the last. Refuted: a preserving resize to fewer rows keeps the first dropped row in the hidden line, where it survives clear (), can be read one row behind the last even in checked builds, and comes back when the matrix is enlarged.", "quantifier": "all element types, sizes, layouts, histories on two matrices, contents of uninitialised memory; checked and unchecked builds", "why_tests_cant": "The state behind the last line depends on the whole history of resizes, assignments and swaps.", "anchors": ["include/boost/numeric/ublas/matrix.hpp: vector_of_vector (constructors, resize, operator(), insert_element, erase_element, clear, operator=, assign, assign_temporary, swap)"]}
{"id": "C68", "title": "iterating over vector_of_vector visits every element once", "statement": "Whatever the history of a vector_of_vector matrix and wherever its lines lie in memory: nested iteration by rows or by columns visits every element exactly once, in order, and reverse iterators visit them in the opposite order; writing through the iterators sets exactly the elements; random access along a row or column (+ n, - n, difference, [n], ==, ++, --) agrees with the index; a row loop makes size1 () steps if there is a column; iterators of different lines raise bad_index in checked builds. Refuted: assignment of iterators copies only the pointer, so the position is stale; < between rows follows addresses, begin1 () < end1 () is false for a new matrix; loops pass over rows without columns.", "quantifier": "all element types, sizes, layouts, histories, addresses of lines, directions; checked and unchecked builds", "why_tests_cant": "Iterators compare addresses in separately allocated lines, so the result depends on the allocator.", "anchors": ["include/boost/numeric/ublas/matrix.hpp: vector_of_vector::find1, find2, const_iterator1, iterator1, const_iterator2, iterator2, begin1, end1, begin2, end2, rbegin1, rend1"]}
{"id": "C69", "title": "Printing a tensor shows every element once, at its place", "statement": "For every tensor of rank 2 or more whose extents are below 2^32 (dynamic, static rank or static extents, first- or last-order layout), operator << writes exactly the Matlab-like text of its elements: a single value for one element, a line separated by ';' or ',' for a vector, a page for a matrix, and nested cat (k, ...) of pages otherwise, each element once and in order; two tensors of the same shape with the same text are equal if element texts contain no blanks and are distinct. Refuted: a rank 1 tensor of two or more elements makes operator << throw std::out_of_range; printing a default constructed tensor reads out of bounds.", "quantifier": "all element types and their texts, ranks, extents below 2^32, layouts, elements", "why_tests_cant": "The text comes from a recursion over modes with pointer strides; ranks and extents are unbounded.", "anchors": ["include/boost/numeric/ublas/tensor/ostream.hpp: detail::print, operator <<"]}
{"id": "C70", "title": "Making tensors from sizes, values, matrices, vectors and other tensors", "statement": "extents accept exactly the lists of positive numbers (of the right length for a static rank) and throw otherwise. A tensor (dynamic or static rank 2) made from a dense matrix m of the matching layout has T.at (i, j) == m (i, j) for every i, j, one made from a vector has T.at (i, 0) == v (i), empty ones throw; a tensor of static extents made from a matrix, from a vector as long as the tensor, or from a tensor of any layout with the same extents has the same elements and throws if the extents differ; filling sets every element; assigning a container replaces the elements in layout order or throws; ones, zeros and tensor (n...) make tensors of the given extents with every element one or zero, or throw for a zero extent. Refuted: a tensor of static extents rejects vectors of another length (one element is accepted for any n x 1 tensor, the rest is uninitialised); at of a tensor of static extents is checked (it is undefined behaviour outside).", "quantifier": "all element types, layouts, extents whose product fits size_t, matrices, vectors, tensors, values", "why_tests_cant": "Sizes, ranks, layouts and contents are unbounded; conversions between layouts permute all elements.", "anchors": ["include/boost/numeric/ublas/tensor/tensor/tensor_dynamic.hpp: constructors, operator =", "include/boost/numeric/ublas/tensor/tensor/tensor_static_rank.hpp: constructors, operator =", "include/boost/numeric/ublas/tensor/tensor/tensor_static.hpp: constructors, at", "include/boost/numeric/ublas/tensor/extents/extents_static_size.hpp: extents_core", "include/boost/numeric/ublas/tensor/function/init.hpp: init, init_static_rank, init_static"]}
{"id": "C71", "title": "Dense vectors behave as lists of values", "statement": "After any history of legal calls (construction, element writes, erase_element, clear, resize, assignment of the same type, of itself, of other vectors, of expressions that may read the assigned vector, compound assignment, noalias assignment, scaling, swap) two vectors of type vector<T>, bounded_vector<T, N> or fixed_vector<T, N> have the size and elements of two lists treated in the same way; size (), v (i), and iteration forwards, backwards and between find (i) and find (j) show exactly that list, iterators are random access and *it = x writes that element. In checked builds every illegal call throws: bad_index for an index not below size (), bad_size for more than N elements of a bounded vector, bad_argument for operands of different sizes and for anything but N elements assigned to a fixed vector. resize (n) and vector (n) leave elements unspecified, resize (n, true) keeps the common prefix and zero-fills. Refuted: vector (n) is zero-filled; without checks noalias assignment of another size is detected (longer is truncated, shorter is undefined behaviour).", "quantifier": "all element types and operations, N, sizes, histories, expressions over the two vectors, indices, checked or not, with or without move semantics", "why_tests_cant": "Histories, sizes and expressions are unbounded; aliasing between the assigned vector and the expression takes many forms.", "anchors": ["include/boost/numeric/ublas/vector.hpp: vector, bounded_vector, fixed_vector", "include/boost/numeric/ublas/storage.hpp: unbounded_array, bounded_array", "include/boost/numeric/ublas/detail/vector_assign.hpp: indexing_vector_assign, indexing_vector_assign_scalar", "include/boost/numeric/ublas/exception.hpp: BOOST_UBLAS_SAME"]}
{"id": "C72", "title": "Dense matrices behave as tables of values", "statement": "After any history of legal calls (construction, element writes, erase_element, clear, resize, assignment of the same type, of itself, of other matrices, of element-wise and transposed expressions that may read the assigned matrix, compound assignment, noalias assignment, scaling, swap) two matrices of type matrix<T, L>, bounded_matrix<T, M, N, L> or fixed_matrix<T, M, N, L>, row or column major, have the extents and elements of two tables treated in the same way: size1 (), size2 () and m (i, j) show exactly that table. resize (n1, n2) leaves elements unspecified, resize (n1, n2, true) keeps the common block. In checked builds every illegal call throws: bad_index for an index out of range, bad_size for extents whose product cannot be counted or exceeds M * N of a bounded matrix, bad_argument for operands of different extents and anything but M x N assigned to a fixed matrix. Plain (compound) assignment is correct for every expression; noalias assignment is whenever the expression does not read the target transposed. Refuted: noalias (A) = trans (A) transposes A; a bounded_matrix<T, M, N> has at most M rows.", "quantifier": "all element types and operations, layouts, M, N, extents, histories, expressions over the two matrices, indices, checked or not, with or without move semantics", "why_tests_cant": "Histories, extents and expressions are unbounded; aliasing between the assigned matrix and the expression takes many forms.", "anchors": ["include/boost/numeric/ublas/matrix.hpp: matrix, bounded_matrix, fixed_matrix, detail::matrix_resize_preserve", "include/boost/numeric/ublas/storage.hpp: unbounded_array, bounded_array", "include/boost/numeric/ublas/detail/matrix_assign.hpp: indexing_matrix_assign, indexing_matrix_assign_scalar", "include/boost/numeric/ublas/functional.hpp: basic_row_major, basic_column_major"]}
{"id": "C73", "title": "Structured matrices behave as structured tables", "statement": "After any history of legal calls (construction, element writes, insert_element, erase_element, clear, resize, assignment of the same type, of itself, of element-wise and transposed expressions that may read the assigned matrix, compound assignment, noalias assignment, scaling, swap) two matrices of type triangular_matrix (six kinds), symmetric_matrix, hermitian_matrix (lower, upper) or banded_matrix, row or column major, show two tables of the stored positions treated in the same way: a triangular matrix zeros or ones elsewhere, a symmetric matrix the mirrored element, a hermitian matrix its conjugate, a banded matrix zeros. Assignment takes from an expression exactly the values at the stored positions; resize (..., true) of triangular, symmetric and hermitian matrices keeps the common stored elements. In checked builds illegal calls throw: bad_index for positions out of range or (triangular, banded; hermitian except insert_element) not stored, bad_argument for a symmetric or hermitian matrix that would not be square and operands of different extents, bad_size or bad_argument for noalias assignment of other extents. noalias assignment of an expression reading the target transposed is correct for triangular, symmetric and hermitian matrices. Refuted: it is for banded ones; resize of a banded matrix preserves.", "quantifier": "all element types and operations, triangle kinds, layouts, bandwidths, extents, histories, expressions over the two matrices, indices, checked or not", "why_tests_cant": "Histories, extents, bandwidths and expressions are unbounded; storage is shared between mirrored positions and aliasing takes many forms.", "anchors": ["include/boost/numeric/ublas/triangular.hpp: triangular_matrix", "include/boost/numeric/ublas/symmetric.hpp: symmetric_matrix", "include/boost/numeric/ublas/hermitian.hpp: hermitian_matrix", "include/boost/numeric/ublas/banded.hpp: banded_matrix", "include/boost/numeric/ublas/detail/matrix_assign.hpp: matrix_assign (packed_proxy_tag), matrix_assign_scalar"]}
{"id": "C74", "title": "Sparse vectors behave as finite maps under assignment", "statement": "After any history of legal calls (construction with any capacity, reads, element writes, insert_element, erase_element, clear, resize, assignment of the same type, of itself, of a vector of another type, of element-wise expressions, compound assignment +=, -= with and without a temporary, noalias assignment, scaling through the iterators, swap) two mapped_vectors, two compressed_vectors or two coordinate_vectors hold the two finite maps of stored elements that the calls describe: size (), every element, and what iterating visits are theirs. Assignment of an expression stores exactly its nonzero elements; noalias (v) += e keeps the stored elements of v and adds exactly the nonzero ones of e, and may read v itself. In checked builds reads and writes out of range and insert_element of a stored element throw bad_index, operands of different sizes bad_argument or bad_size. coordinate_vector: without resize (n, false) and assignment from another type (C15). Refuted: noalias (v) = v leaves v as it is (it empties v).", "quantifier": "all element types with the laws of zero, index bases, sizes, capacities, histories, expressions over the two vectors and any well-formed other vectors, indices, checked or not", "why_tests_cant": "Histories, sizes, sparsity patterns and expressions are unbounded; the conformance and merge loops depend on every interleaving of stored positions, and reading may reorder a coordinate_vector.", "anchors": ["include/boost/numeric/ublas/vector_sparse.hpp: mapped_vector, compressed_vector, coordinate_vector", "include/boost/numeric/ublas/detail/vector_assign.hpp: make_conformant, vector_assign (sparse_tag, sparse_proxy_tag), vector_assign_scalar"]}
{"id": "C75", "title": "Sparse matrices behave as finite maps under assignment", "statement": "After any history of legal calls (construction with any sizes and capacity, reads, element writes, insert_element, erase_element, clear, resize without preservation, assignment of the same type, of itself, of a matrix of another type, of expressions (sums, element-wise functions, transposes, products by scalars, matrix products), compound assignment += and -= through a temporary, noalias assignment, scaling through the iterators, swap) two mapped_matrices, two compressed_matrices or two coordinate_matrices, row or column major, hold the two finite maps of stored elements that the calls describe: size1 (), size2 (), every element, and what the nested loops row by row and column by column visit are theirs. Assignment of an expression stores exactly its nonzero elements. In checked builds insert_element of a stored element throws bad_index, resize with preservation (the default argument) internal_logic, operands of different sizes bad_argument, noalias assignment to a matrix of other sizes bad_size, and mapped_matrix throws bad_index on reads and writes out of range. Refuted: noalias (m) = m leaves m as it is (it empties m).", "quantifier": "all element types with the laws of zero (coordinate_matrix: associative and commutative addition), index bases, layouts, sizes (mapped_matrix: with a representable product), capacities, histories, expressions over the two matrices and any well-formed other matrices, indices, checked or not", "why_tests_cant": "Histories, sizes, sparsity patterns and expressions are unbounded; storage order, iteration order and the order in which a product or a transpose delivers its elements all differ, and reading reorders a coordinate_matrix.", "anchors": ["include/boost/numeric/ublas/matrix_sparse.hpp: mapped_matrix, compressed_matrix, coordinate_matrix", "include/boost/numeric/ublas/detail/matrix_assign.hpp: matrix_assign (sparse_tag), matrix_assign_scalar"]}
{"id": "C76", "title": "Packed matrices survive every kind of resizing, and resize_packed_preserve preserves only where the packing allows it", "statement": "After any history of element writes, insert_element, erase_element, clear, resize (k), resize (k, false) and resize_packed_preserve (k) a square triangular, symmetric or hermitian matrix has the last order asked for, every element in range can be read, and an element reads as what was last written to it unless it left the matrix or the storage was renewed since: resize (k) keeps the common elements (new ones are indeterminate), resize (k, false) keeps nothing, and resize_packed_preserve (k) keeps the common elements and makes the new ones zero. The last holds for the packings whose addresses do not depend on the order (row-major lower, column-major upper); in the other two it moves elements to other positions. banded_matrix::resize_packed_preserve and resize (.., false) leave a matrix whose in-band elements can all be read and written, and the former keeps the common in-band elements if the numbers of diagonals do not change; with the defaulted 0 diagonals it mixes elements up.", "quantifier": "all element types, triangular kinds (lower, upper, unit, strict), both layouts, orders below 2^32 (banded: shapes whose storage size fits), allocator contents, checked and unchecked builds, and call sequences", "why_tests_cant": "Whether an element survives depends on the packing formula, the orders before and after and everything written between; tests resize a few small matrices in one orientation, and indeterminate storage usually looks like zero.", "anchors": ["include/boost/numeric/ublas/triangular.hpp: triangular_matrix::resize, resize_packed_preserve", "include/boost/numeric/ublas/symmetric.hpp: symmetric_matrix::resize, resize_packed_preserve", "include/boost/numeric/ublas/hermitian.hpp: hermitian_matrix::resize, resize_packed_preserve", "include/boost/numeric/ublas/banded.hpp: banded_matrix::resize, resize_packed_preserve", "include/boost/numeric/ublas/storage.hpp: unbounded_array::resize"]}
{"id": "C77", "title": "A tensor built out of an expression, a matrix or a vector has their values, and norm, real, imag and conj compute what they say whatever the layout", "statement": "tensor t = x, for an expression x of tensors of one type and shape, has this shape and the element-wise values of x under every order of the parallel iterations; two shapes anywhere in x throw runtime_error. A tensor of the other layout is copied in storage order, so the new tensor has its shape but not its elements. A tensor made of a matrix of the same layout has its elements, one made of a vector is a column; an empty matrix throws. t = v sets every element. norm (t) is the root of the sum of the products of each element with itself, added up in an order that depends on the shape only: it is the same in both layouts, is the root of inner_prod (t, t), is unchanged by trans for commutative sums, and over the integers the sum is zero only for the zero tensor; for complex elements it is not a norm (the norm of (1, i) is 0). real, imag and conj, where they build a tensor, apply the function to each value of the expression and compose with the lazily evaluated ones. On a default constructed tensor they throw.", "quantifier": "all element types, layouts, shapes with extents (norm) or sizes (expressions) below 2^32, expression trees, iteration orders, and matrices and vectors", "why_tests_cant": "The values come out of stride computations and of a parallel loop over linear positions, so the claim ranges over all shapes, layouts and schedules; tests fill every tensor with one value, or compare sizes and storage, which hides both the order of the elements and the missing conjugation in norm.", "anchors": ["include/boost/numeric/ublas/tensor/tensor/tensor_dynamic.hpp: tensor_core constructors, operator=", "include/boost/numeric/ublas/tensor/function/norm.hpp: norm", "include/boost/numeric/ublas/tensor/function/real.hpp: real", "include/boost/numeric/ublas/tensor/function/imag.hpp: imag", "include/boost/numeric/ublas/tensor/function/conj.hpp: conj"]}
{"id": "C78", "title": "shallow_array_adaptor: copies share reference-counted memory, and the sharing ends exactly where the interface says", "statement": "Any program that creates, copies, resizes, assigns, swaps, writes through and destroys shallow_array_adaptors, some of them on the user's memory, never deletes memory twice, never deletes the user's memory and never touches deleted memory; allocated memory lives exactly as long as some adaptor holds it, so nothing leaks when all adaptors are gone. A copy allocates nothing and shares with everything its original shares with. A write through one object is seen through exactly the objects that share its memory. resize to the present size changes nothing; to another size it gives the object memory of its own with the old elements (then the given value) and changes no other object. Assignment copies elements: to a target of another size it changes no other object, to a target of the same size it changes every object of this size that shares with the target (so assignment does not change its target only). swap, and assign_temporary between owners, exchange; the end of an object changes no other one.", "quantifier": "all valid programs (sequences of calls on any number of objects), sizes, elements and user buffers, and every state they reach", "why_tests_cant": "Ownership and aliasing depend on the whole history of copies, resizes and destructions; the repository has no test of this class, and a test would only see one history.", "anchors": ["include/boost/numeric/ublas/storage.hpp: shallow_array_adaptor"]}
{"id": "C79", "title": "Element proxies of sparse vectors stand for their element", "statement": "With BOOST_UBLAS_STRICT_VECTOR_SPARSE (the default) v (i) on a non-const mapped, compressed or coordinate vector returns a proxy. At any later moment, whatever calls changed the vector meanwhile (insertions that reallocate, erasures, resizes, assignments, swap), reading the proxy gives element i of the vector at that moment, zero if it is not stored, and stores nothing; r = x, r = q and r op= x, r op= q (q another proxy, of the same or the other vector, or r itself) and a change through r.ref () store exactly the value computed from the values at that moment as element i and change no other element; copies of a proxy stand for the same element. In checked builds v (i) throws bad_index exactly when i is out of range.", "quantifier": "all programs over two vectors of one type and any number of proxies, interleaved with any member function calls of C74, all sizes, elements, operators and index bases", "why_tests_cant": "A proxy outlives the state it was made in: its meaning depends on every call between its construction and its use, including reallocations and reorderings of the storage.", "anchors": ["include/boost/numeric/ublas/vector_sparse.hpp: sparse_vector_element", "include/boost/numeric/ublas/vector_sparse.hpp: mapped_vector, compressed_vector, coordinate_vector operator () and find_element"]}
{"id": "C80", "title": "Element proxies of sparse matrices stand for their element", "statement": "With BOOST_UBLAS_STRICT_MATRIX_SPARSE (the default) m (i, j) on a non-const mapped, compressed or coordinate matrix returns a proxy. At any later moment, whatever calls changed the matrix meanwhile, reading the proxy gives element (i, j) at that moment, zero if it is not stored, and stores nothing; r = x, r = q, r op= x, r op= q (q another proxy, of the same or the other matrix, or r itself) and a change through r.ref () store exactly the value computed from the values at that moment as element (i, j) and change no other element; copies of a proxy stand for the same element. Proxies are used only while their indices are inside the matrix; making one is not checked.", "quantifier": "all programs over two matrices of one type, row- or column-major, and any number of proxies, interleaved with any member function calls of C75, all sizes, elements, operators and index bases", "why_tests_cant": "A proxy outlives the state it was made in: its meaning depends on every call between its construction and its use, including reallocations and reorderings of the storage.", "anchors": ["include/boost/numeric/ublas/matrix_sparse.hpp: sparse_matrix_element", "include/boost/numeric/ublas/matrix_sparse.hpp: mapped_matrix, compressed_matrix, coordinate_matrix operator () and find_element"]}
