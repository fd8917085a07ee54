# Working notes (survey of /repo, base dir include/boost/numeric/ublas)
## Suspected defects found by reading (candidates for _refuted theorems)
- functional.hpp 2010-2060 basic_unit_lower/strict_lower::element: L::lower_element(i-1,size_i-1,j,size_j-1): for tall
  matrices (size_i>size_j), element (i, size_j-1), i>=size_j is legit but CHECK j<size_j-1 throws bad_index in checked builds.
- storage_sparse.hpp ~247-256 map_array copy ctor: std::uninitialized_copy(data_, data_+capacity_, c.data_) : args REVERSED (src corrupted, copy indeterminate).
- detail/vector_assign.hpp vector_swap packed_proxy (~517-550): `it_size -= size` but `it` never advanced when v starts before e -> swaps wrong elements.
- lu.hpp 340-345 lu_substitute(mv, m, pm): applies swap_rows BEFORE solving x*A=b; should be inverse perm AFTER. wrong result.
- storage.hpp indirect_array::compose(ia): check `ia.data_[i] <= size_` off by one (inner array's own check still catches index==size in checked mode; UB unchecked)
- vector_sparse compressed_vector::reserve(n<nnz, preserve=true) silently discards trailing nonzeros.
## Framework ideas
- result monad: Ok v | Throw exc | UB ; `checks: bool` parameter = BOOST_UBLAS_CHECK enabled
- uninitialised memory cells: option T
- 64-bit wrap for size_t where property is about overflow
- values: Section over abstract commutative ring/field; order-exact fold with arbitrary ops where possible
## Read so far: functional.hpp (all), storage.hpp (unbounded,bounded,range,slice,indirect,index_pair), vector.hpp (vector members),
  detail/vector_assign.hpp(all), lu.hpp(all), triangular.hpp solve (2255-2450), storage_sparse map_array, vector_sparse compressed_vector
- vector_sparse.hpp coordinate_vector::pop_back (~1950): `sorted_ = sorted_filled_ = filled_;` (= for ==): (a) after pop to empty sorted_=false -> storage_invariants throws internal_logic (checked);
  (b) with unsorted tail remaining, it's marked sorted -> lookups wrong, duplicates never summed. Same probably in coordinate_matrix.
- coordinate_vector::resize(n,false)/reserve(n,false): sorted_ not reset; if it was unsorted -> sorted_=false, sorted_filled_=filled_=0 -> storage_invariants throws internal_logic in checked builds.
- coordinate_vector custom inplace_merge/lower_bound: good proof target (vector_sparse.hpp 1862-1905), sort() sums duplicates (1907-1945)
- compressed_matrix (matrix_sparse.hpp 2799-): CSR insert/erase/push_back/pop_back; good refinement target.
- tensor/algorithms.hpp copy/transform/accumulate/trans loops use `auto d = 0u` (32-bit) against 64-bit extents: extent > 2^32-1 => never terminates.
- tensor/algorithms.hpp trans: p<2 returns WITHOUT copying (check function/trans.hpp for rank-1 result); complex overload conj()s only for non-const complex* (generic template taken for const ptr)
- tensor/multiplication.hpp: ttt (30-130), ttm (160-200) raw pointer recursions read.
- tensor/multiplication.hpp top-level ttt: guard `q > pa && q > pb` (should be ||): q>pb,q<=pa => s=pb-q underflows, no exception, OOB.
- ttt no-perm q==0 calls recursive::outer assuming ranks >=2; rank-1 operand => reads na[1] OOB. ttm0 with p==1 reads nc[1]. mtv uses wc[o] (o=1 when m=0) fine only if vector strides all 1.
- most recursive loops use 32-bit `0u` counters.
- whole multiplication.hpp read (ttt perm/noperm, ttm, ttm0, ttv, ttv0, mtv, mtm, inner, outer_2x2, outer, outer perm, top-level checks).
11. triangular_size overflow guard unsound: size=2^32 passes but (size+1)*size wraps -> 2^31.
12. hermitian_matrix::erase_element on the non-stored triangle throws (checked) or erases wrong slot; diagonal may hold non-real.
13. banded_matrix::resize(preserve=true) uses detail::matrix_resize_preserve (verify in matrix.hpp).
15. matrix_range/slice(?)::operator=(same type) has no temporary -> overlapping views of one matrix corrupt (C23 refuted candidate)
14. proxy.project(range::all()) expands with data_.size() (done: C11_project_all_of_projection_refuted)
