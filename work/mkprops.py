import json
P=[]
def p(title,statement,quant,why,anchors):
    P.append(dict(id="C%02d"%(len(P)+1),title=title,statement=statement,quantifier=quant,why_tests_cant=why,anchors=anchors))
F="include/boost/numeric/ublas/"
p("Dense matrix layout is a bijection","For an m x n dense matrix in row-major or column-major order, every in-range (i,j) is mapped to its own storage slot below m*n, no two positions share a slot, every slot is used, and the storage-to-index functions recover (i,j).","all sizes m,n and all index pairs","unbounded sizes; a test samples a few sizes",[F+"functional.hpp: basic_row_major, basic_column_major (element, index_i, index_j, storage_size)"])
p("Dense layout guards are exact under 64-bit wrap-around","With checks enabled, storage_size throws bad_size exactly when size1*size2 does not fit in size_type, and element() of an in-range index of an allocatable matrix never throws and equals the mathematical offset (no wrap).","all 64-bit sizes and indices","needs sizes near 2^64 that cannot be allocated in a test",[F+"functional.hpp: storage_size, element, address"])
p("Triangular packed storage is a bijection onto packed_size","For lower/upper, unit and strict triangular matrices in both orientations, the stored positions map one-to-one into [0,packed_size), and onto it when the matrix is square.","all sizes, all stored positions, six triangle kinds, two orientations","unbounded sizes",[F+"functional.hpp: lower_element, upper_element, triangular_size, basic_lower, basic_unit_lower, basic_strict_lower, transposed_structure"])
p("Triangular matrices behave as a function update restricted to the triangle","A write to a stored position of a triangular matrix is read back there and changes no other position; positions outside the triangle always read 0, and the diagonal of unit kinds always reads 1; a write outside the stored triangle is rejected with bad_index.","all matrices, positions, values and sequences of writes","every history of writes",[F+"triangular.hpp: triangular_matrix::operator(), at_element, insert_element, erase_element",F+"functional.hpp"])
p("Banded storage is collision free and writes are local","For a banded matrix with given lower/upper bandwidth, in-band positions get distinct slots in range, a write to one is read back and changes no other, and out-of-band positions read 0.","all sizes, bandwidths, positions, write histories","unbounded sizes and bandwidths",[F+"banded.hpp: banded_matrix, hidden::banded_indexing"])
p("Symmetric matrices stay symmetric","After any sequence of element writes, a symmetric matrix reads equal at (i,j) and (j,i), the last write to either position is the value read, and no other position changed.","all sizes and write histories","every history",[F+"symmetric.hpp: symmetric_matrix"])
p("Hermitian matrices stay hermitian","After any sequence of element writes through the API, the value at (i,j) is the conjugate of the value at (j,i); the last write to (i,j) or (j,i) determines both; nothing else changes.","all sizes, write histories, value types with an involutive conjugation","every history",[F+"hermitian.hpp: hermitian_matrix"])
p("Array resize preserves the prefix","Resizing with preservation keeps the first min(old,new) elements and fills the rest with the given value; resizing without preservation changes only the size (contents unspecified); resize to the same size is a no-op.","all arrays and sizes, any sequence of resizes","every history",[F+"storage.hpp: unbounded_array::resize_internal, bounded_array::resize, array_adaptor::resize_internal"])
p("bounded_array never exceeds its capacity","With checks enabled every constructor and resize of a bounded_array<T,N> either leaves size<=N or throws bad_size leaving it unchanged; assignment and swap exchange exactly the visible contents.","all operation sequences","every history",[F+"storage.hpp: bounded_array"])
p("Range, slice and index-list composition","Projecting a projection addresses the same element as the composed index map: (outer.compose(inner))(i) = outer(inner(i)) for range/range, slice/range, slice/slice, indirect/range, indirect/slice, indirect/indirect, including negative strides.","all ranges, slices, index arrays and indices","unbounded parameters and sign combinations",[F+"storage.hpp: basic_range::compose, basic_slice::compose, indirect_array::compose"])
p("Projections are views","Writing through a vector_range/vector_slice/matrix_row/matrix_column/matrix_range/matrix_slice (or nested projections) changes exactly the addressed elements of the underlying container and nothing else; reading through it returns the underlying element.","all containers, projections (nested to any depth), indices, values","unbounded nesting and sizes",[F+"vector_proxy.hpp",F+"matrix_proxy.hpp"])
p("Sparse map_array refines a finite map","Any sequence of insert/erase/operator[]/push_back/clear on a map_array behaves like a finite map from index to value, its keys stay strictly increasing, and find agrees with the map.","all operation sequences","every history",[F+"storage_sparse.hpp: map_array"])
p("map_array copy construction yields an equal, independent copy","Copy-constructing a map_array gives a container with the same entries and leaves the source unchanged.","all containers","every content; memory-level effect",[F+"storage_sparse.hpp: map_array(const map_array&)"])
p("compressed_vector refines a finite map","Any sequence of element writes, insert_element, erase_element, push_back, pop_back, clear, reserve and resize on a compressed_vector keeps indices strictly increasing and below size, keeps nnz<=capacity, and every read returns the last value written (0 if none or erased); no in-range operation triggers undefined behaviour.","all operation sequences","every history",[F+"vector_sparse.hpp: compressed_vector"])
p("coordinate_vector sums duplicates","Any sequence of append_element, insert_element, writes, erase and sort on a coordinate_vector reads, at each index, the sum of everything appended there since it was last erased/overwritten; sorting does not change what is read.","all operation sequences","every history; interleavings of lazy sort",[F+"vector_sparse.hpp: coordinate_vector (append_element, sort, inplace_merge)"])
p("In-place merge sorts","The library's own inplace_merge on two adjacent sorted runs terminates, yields a sorted permutation of the same (index,value) pairs and touches nothing outside the runs.","all arrays and run boundaries","unbounded sizes; termination",[F+"vector_sparse.hpp: coordinate_vector::inplace_merge, lower_bound",F+"matrix_sparse.hpp: coordinate_matrix::inplace_merge"])
p("coordinate_vector pop_back keeps the vector consistent","pop_back on a non-empty coordinate_vector removes the last stored element and leaves a consistent vector for which later reads are correct.","all reachable states","every history",[F+"vector_sparse.hpp: coordinate_vector::pop_back"])
p("compressed_matrix refines a finite map","Any sequence of insert_element, element writes, erase_element, push_back, pop_back and clear on a compressed (CSR/CSC) matrix keeps the row-pointer array monotone and column indices strictly increasing per row, and every read returns the last value written (0 if none).","all operation sequences, both orientations","every history",[F+"matrix_sparse.hpp: compressed_matrix"])
p("mapped sparse containers refine a finite map","mapped_vector / mapped_matrix reads return the last value written, with (i,j)->key injective for in-range indices.","all operation sequences","every history",[F+"vector_sparse.hpp: mapped_vector",F+"matrix_sparse.hpp: mapped_matrix"])
p("Assignment algorithms agree with element-wise assignment","For every combination of destination storage category and source iterator category (dense, packed, sparse), v op= e produces, at every index, exactly the same value as the element-wise loop v(i) op= e(i).","all vectors, expressions, sizes and sparsity patterns","unbounded sparsity patterns",[F+"detail/vector_assign.hpp: vector_assign, make_conformant, iterating_/indexing_vector_assign"])
p("Swapping two vectors or views exchanges them","swap of two equal-size vectors (or vector proxies) of any storage category exchanges their values at every index.","all vectors and sparsity patterns","unbounded patterns",[F+"detail/vector_assign.hpp: vector_swap"])
p("inner_prod/prod do not depend on storage","The dense, packed and sparse inner-product kernels return the sum over all indices of the products of the two operands' elements.","all vectors, packed ranges and sparsity patterns","unbounded patterns",[F+"functional.hpp: vector_inner_prod, matrix_vector_prod1/2, matrix_matrix_prod"])
p("Plain assignment is alias safe","x = e and x += e evaluate e completely with the old x before any element of x changes; noalias(x) = e equals it whenever e does not read x (or reads only x(i) when producing element i).","all expressions and contents","all expressions",[F+"vector.hpp: operator=, operator+=, assign",F+"matrix.hpp",F+"vector_expression.hpp: noalias"])
p("Norms and index_norm_inf","norm_1, norm_inf, norm_2^2 and sum equal their definitions; index_norm_inf returns an index of an element whose absolute value equals norm_inf, the first such, and 0 for empty or all-zero vectors.","all vectors","unbounded sizes",[F+"functional.hpp: vector_norm_1, vector_norm_inf, vector_index_norm_inf, vector_norm_2_square, matrix_norm_1, matrix_norm_inf"])
p("Triangular solve solves","inplace_solve(A,x,tag) with lower/upper/unit tags, vector or matrix right-hand side, row- or column-major variant, overwrites b with the unique x such that T x = b where T is the selected triangle of A, whenever its diagonal is invertible; with checks on a zero pivot raises singular.","all sizes, matrices and right-hand sides over a field","unbounded sizes",[F+"triangular.hpp: inplace_solve, solve"])
p("LU factorisation factors","lu_factorize(A) returning 0 leaves L (unit lower) and U (upper) in place with L*U = A; with pivoting, L*U = P*A for the row swaps recorded in pm; a non-zero return names the first zero pivot.","all matrices over a field","unbounded sizes",[F+"lu.hpp: lu_factorize"])
p("LU substitution solves the system","After lu_factorize(A,pm)=0, lu_substitute(A,pm,b) overwrites b with x such that A_original x = b.","all matrices and right-hand sides over a field","unbounded sizes",[F+"lu.hpp: lu_substitute, swap_rows"])
p("LU substitution from the left solves x*A=b","After lu_factorize(A,pm)=0, lu_substitute(b,A,pm) overwrites b with x such that x A_original = b.","all matrices and right-hand sides over a field","unbounded sizes",[F+"lu.hpp: lu_substitute(mv,m,pm)"])
p("swap_rows applies a permutation","swap_rows(pm,v) rearranges the elements of v by a permutation determined by pm only; applying the swaps in reverse order restores v.","all permutation vectors with in-range entries and all vectors/matrices","unbounded sizes",[F+"lu.hpp: swap_rows, permutation_matrix"])
p("axpy_prod, opb_prod, block_prod and sparse_prod compute the product","axpy_prod, opb_prod, block_prod and sparse_prod give the mathematical product (added to the target when init is false), for every storage kind and block size.","all matrices, vectors, block sizes, sparsity patterns","unbounded",[F+"operation.hpp",F+"operation_blocked.hpp",F+"operation_sparse.hpp"])
p("Stream output can be read back","Reading what operator<< printed for a vector or matrix yields an equal vector or matrix; on malformed input the target is unchanged and failbit is set.","all vectors/matrices and all malformed inputs","all inputs",[F+"io.hpp"])
p("Comma/stream assignment fills every element in order","v <<= a,b,c,... and m <<= ... with a traverse policy store the given values at consecutive positions of that policy, and reject too many values.","all containers and value lists","unbounded",[F+"assignment.hpp"])
p("Tensor strides address every element once","For every valid shape, first-order and last-order strides map each in-range multi-index to a distinct offset below the product of the extents, and onto it.","all ranks and extents","unbounded rank",[F+"tensor/extents/extents_functions.hpp: to_strides, product",F+"tensor/index_functions.hpp"])
p("Linear index and multi-index are inverse","Converting a linear offset to a multi-index with the strides and back is the identity.","all ranks, shapes, offsets","unbounded rank",[F+"tensor/index_functions.hpp: compute_single_index, compute_multi_index"])
p("Tensor copy/transform/accumulate visit every element once","copy and transform set C[i1..ip] from A[i1..ip] for every multi-index across different layouts; accumulate folds each element exactly once.","all ranks, shapes, strides","unbounded rank",[F+"tensor/algorithms.hpp: copy, transform, accumulate"])
p("Tensor transposition permutes indices","trans(A,pi) has C[i_pi] = A[i] for every multi-index, and transposing by the inverse permutation restores A.","all ranks, shapes, permutations","unbounded rank",[F+"tensor/algorithms.hpp: trans",F+"tensor/function/trans.hpp"])
p("Tensor contraction kernels compute the contraction","ttv, ttm, ttt (with and without permutation), inner and outer equal the defining sums over multi-indices.","all ranks, shapes, modes, permutations","unbounded rank",[F+"tensor/multiplication.hpp"])
p("Tensor products reject inconsistent shapes","ttv/ttm/ttt/inner/outer throw on every combination of ranks, modes and extents for which the contraction is undefined and never access memory outside the operands.","all ranks, extents and modes","unbounded",[F+"tensor/multiplication.hpp top-level functions",F+"tensor/function/*.hpp"])
json_lines="\n".join(json.dumps(x) for x in P)+"\n"
open("/verif/properties.jsonl","w").write(json_lines)
print(len(P))
