{
"C01": {
"status": "proved",
"note": ""
},
"C02": {
"status": "proved",
"note": ""
},
"C03": {
"status": "proved",
"note": "All shapes below 2^32, both builds, exact outcome per position; unsound size guard at 2^32 refuted."
},
"C04": {
"status": "proved",
"note": "All shapes below 2^32 and all histories; rejected positions characterised exactly."
},
"C05": {
"status": "proved",
"note": "Element operations proved; preserving resize of banded_matrix is refuted."
},
"C06": {
"status": "proved",
"note": "operator()/insert/erase/clear proved; at_element on the non-stored triangle refuted."
},
"C07": {
"status": "proved",
"note": "Restated with the two restrictions the code needs; each shown necessary by a _refuted theorem."
},
"C39": {
"status": "proved",
"note": ""
},
"C08": {
"status": "proved",
"note": "Arrays (unbounded_array, bounded_array via C09, array_adaptor) and dense/triangular matrix resize; the documented zero fill of matrix::resize is refuted; banded resize refuted under C05."
},
"C09": {
"status": "proved",
"note": ""
},
"C10": {
"status": "proved",
"note": "For non-empty inner selections; the empty tail of a reversed slice is refuted (checked builds throw)."
},
"C40": {
"status": "proved",
"note": "Shallow array adaptor (optional) not modelled."
},
"C11": {
"status": "proved",
"note": "Views of dense vectors/matrices nested to any depth. project(view, range::all()) is refuted. Proxy iterators and views of packed/sparse containers not modelled."
},
"C12": {
"status": "proved",
"note": ""
},
"C13": {
"status": "proved",
"note": "operator= proved; the copy constructor passes uninitialized_copy's ranges reversed (refuted for every source)."
},
"C19": {
"status": "proved",
"note": "map_array storage (std::map storage is the ISO finite map). Refuted side claims: matrix resize(preserve), reserve below nnz, insert_element out of range."
},
"C14": {
"status": "proved",
"note": "Histories of all listed operations proved. Side claims refuted: reserve below nnz, insert_element out of range on a full vector (UB in checked builds), insert_element of an own element."
},
"C15": {
"status": "proved",
"note": "history refinement, rejections; the non-preserving resize defect is stated as a _refuted theorem"
},
"C16": {
"status": "proved",
"note": "vector and matrix merge"
},
"C17": {
"status": "proved",
"note": "proved for sorted vectors with >= 2 elements (or unchecked builds); the rest is false, see the _refuted theorems"
},
"C18": {
"status": "proved",
"note": "All histories whose push_back goes behind everything stored and not before the furthest line touched since the last clear; without the latter restriction push_back after pop_back is refuted, as are resize(preserve), reserve below nnz and out-of-range writes. Iterators not modelled."
},
"C25": {
"status": "proved",
"note": "All kernels (dense/packed/sparse, row/column, lower/upper/unit, vector left/right, matrix RHS) over an arbitrary field: solves, unique, singular raised, bad sizes rejected. Exact arithmetic, not floating point."
},
"C24": {
"status": "proved",
"note": "All three kernels of every reduction, over totally ordered exact scalars. The SCALED_NORM build's iterator kernels divide by zero when the vector starts with zero (refuted theorem)."
},
"C26": {
"status": "proved",
"note": "LU factorisation with and without pivoting over any field; returned singular index; pivot choice"
},
"C27": {
"status": "proved",
"note": "lu_substitute(m, v) and (m, pm, v)"
},
"C28": {
"status": "proved",
"note": "lu_substitute(v, m, pm) proved to solve x (P A) = P b, and x A = b only when no exchange happened; refuted in general by a 2x2 example"
},
"C29": {
"status": "proved",
"note": "swap_rows on vectors and matrices"
},
"C20": {
"status": "proved",
"note": "all kernels of vector_assign.hpp and the dispatch tables, over sorted-index iterators"
},
"C21": {
"status": "proved",
"note": "dense and sparse proved; packed kernel proved only when v does not start before e, refuted otherwise (lower triangular columns)"
},
"C22": {
"status": "proved",
"note": "vector/matrix products: every dispatch of inner_prod and the row/column iterators of prod equal the textbook sums"
},
"C33": {
"status": "proved",
"note": "All valid shapes whose element count fits in size_t; without that bound the constructor accepts shapes whose product wraps (refuted)."
},
"C34": {
"status": "proved",
"note": "Components are not range-checked by at() (refuted); rank-1 at(i) is linear access."
},
"C35": {
"status": "proved",
"note": "Extents below 2^32; larger ones make the 32-bit counters run for ever (refuted)."
},
"C36": {
"status": "proved",
"note": "Rank >= 2 and extents below 2^32; rank 1 yields zeros (refuted)."
},
"C37": {
"status": "proved",
"note": "Extents below 2^32 where a 32-bit counter is used; products without contraction need rank >= 2 operands for outer_prod (C38)."
},
"C38": {
"status": "proved",
"note": "prod with vector, prod with matrix (rank >= 2), prod with tuples (never out of bounds, rejects bad tuples), inner_prod (dynamic rank) and outer_prod proved; refuted: ttm on rank 1, repeated modes accepted, static-rank inner_prod reads out of bounds, pointer-level ttt guard."
},
"C42": {
"status": "proved",
"note": "== and relational operators proved for dynamic rank and one layout; != is not the negation of == (refuted), static rank ignores the shapes (refuted), different layouts are compared by position (refuted)."
},
"C43": {
"status": "proved",
"note": "All tensors of one type: proved for every expression and schedule; refuted with mixed layouts and mixed types. Matrix/vector operands not modelled."
},
"C44": {
"status": "proved",
"note": ""
},
"C45": {
"status": "proved",
"note": "Common-label and identical-label cases proved; no common label gives an element-wise product (refuted as outer product)."
},
"C46": {
"status": "proved",
"note": "Assignment, scalar assignment and swap proved for all storage kinds and orientations; swap of packed proxies of different shapes refuted (C46_swap_packed_refuted), so the property holds for swap only with equal shapes. *= and /= of a matrix expression do not exist; times-assign is scalar only."
},
"C30": {
"status": "proved",
"note": "axpy_prod, opb_prod, block_prod and sparse_prod; sparse_prod needs a non-empty result and overwrites instead of adding when init is false (theorems named refuted/no_init state what happens)"
},
"C23": {
"status": "proved",
"note": "dense kernels for every expression; unsafe cases (noalias overlap, overlapping matrix_range assignment, noalias with a sparse right-hand side, aliased scalar) are the theorems named _refuted"
},
"C31": {
"status": "proved",
"note": "character-level model of io.hpp; accepted language characterised exactly; trailing comma accepted and negative sizes read modulo 2^64 (theorems named _refuted)"
},
"C32": {
"status": "proved",
"note": "Every statement equals its plan of writes (C32_vector_plan/C32_matrix_plan); dense vectors and matrices of both layouts, value lists under all four policies, grids of blocks, compressed vectors and matrices; too many values rejected in checked builds. Limits shown by the _refuted theorems."
},
"C47": {
"status": "proved",
"note": "Equality with lu_factorize's result proved by running both loops in step; the L*U = P*A statement for size2 <= size1; counterexample for wide matrices."
},
"C41": {
"status": "proved",
"note": "All tree shapes by induction; reverse iteration proved for dense expressions and refuted for packed and sparse ones."
},
"C48": {
"status": "proved",
"note": "traversal in both orders, single lines, reverse lines (along storage, or completed index array), writes; reverse across storage refuted on a witness"
},
"C49": {
"status": "proved",
"note": "coordinate_matrix history refinement, rejections, conversion to compressed_matrix; refuted corner cases proved as such"
},
"C50": {
"status": "proved",
"note": "dense matrix iterators: traversal, reverse traversal, writing, arithmetic; negative difference and column-major end index refuted"
},
"C51": {
"status": "proved",
"note": "all shapes the code handles; the shapes where iteration fails are refuted separately"
},
"C52": {
"status": "proved",
"note": "forward traversal, arithmetic, element access, mutable iterators; the broken operations are refuted separately"
},
"C53": {
"status": "proved",
"note": "dense containers and proxies; SIMPLE_ET_DEBUG variants not modelled"
},
"C54": {
"status": "proved",
"note": "All expression forms except reverse iteration; operands of sums need iterators for every line (refuted otherwise)."
},
"C55": {
"status": "proved",
"note": "all views, nested arbitrarily, const iterators over abstract containers (positions visited + elements); sizes unbounded, same_closure checks not modelled; writing through iterators not modelled"
},
"C56": {
"status": "proved",
"note": "mapped_matrix over map_array; reverse iteration refuted in checked builds and characterised in unchecked ones"
},
"C57": {
"status": "proved",
"note": "forward, reverse and ranged loops and assignment through iterators for the three sparse vectors, after any legal history"
},
"C58": {
"status": "proved",
"note": "Histories for the three line types, both layouts; rejects; two refuted expectations (out-of-range const reads return zero in checked builds; preserving shrink after append_element throws)."
},
"C59": {
"status": "proved",
"note": "Loops along the lines (forward, inner reversed, assigning) in both builds; across the lines and reversed in unchecked builds; end iterators rejected in checked builds. What users would expect and does not hold is stated in the _refuted theorems: across/reverse in checked builds, reverse across with compressed or mapped lines."
},
"C60": {
"status": "proved",
"note": "Access and iteration for all sizes; what does not hold (unit_vector with index outside, identity_matrix by find2 in checked builds, inner loops beyond the smaller size) is stated in the _refuted theorems."
},
"C61": {
"status": "proved",
"note": "histories, iteration, copy and swap proved; capacity and checked access proved; four expectations refuted"
},
"C62": {
"status": "proved",
"note": "coordinate_matrix iterators: nested loops, find, writing, checked ends; reverse loops refuted for all histories"
},
"C63": {
"status": "proved",
"note": "All histories, both layouts, checked and unchecked; loops along the layout exact in both directions; four defects proved as refutations."
},
"C64": {
"status": "proved",
"note": "Iterators of the four packed containers, both layouts, both builds; with two refuted corner cases."
},
"C65": {
"status": "proved",
"note": "compressed_matrix_view over compressed arrays, incl. those of a compressed_matrix; two refuted missing checks."
},
"C66": {
"status": "proved",
"note": "a dense matrix as vector of rows / columns; one refuted missing check in unchecked builds."
},
"C67": {
"status": "proved",
"note": "array-of-lines matrix; refuted: hidden line behind the last one is readable and comes back."
},
"C68": {
"status": "proved",
"note": "loops over an array-of-lines matrix for any placement of the lines; refuted: iterator assignment, ordering of rows, empty rows."
},
"C69": {
"status": "proved",
"note": "text of a tensor; refuted: rank 1 throws, default tensor reads out of bounds."
},
"C70": {
"status": "proved",
"note": "making tensors; refuted: short vectors accepted and at unchecked for static extents."
},
"C71": {
"status": "proved",
"note": "dense vectors; refuted: sized constructor zero-fills, unchecked size mismatches detected."
},
"C72": {
"status": "proved",
"note": "dense matrices; refuted: noalias transposition in place, row bound of bounded_matrix."
},
"C73": {
"status": "proved",
"note": "histories of the four structured matrix types; refuted for banded: noalias transposition, preserving resize."
},
"C74": {
"status": "proved",
"note": "histories of the three sparse vector types with assignment; refuted: noalias (v) = v."
},
"C75": {
"status": "proved",
"note": "histories of the three sparse matrix types, both layouts, with assignment of expressions; refuted: noalias (m) = m."
},
"C76": {
"status": "proved",
"note": "histories with all resizing members; refuted: resize_packed_preserve in the other two packings and with changed diagonals."
},
"C77": {
"status": "proved",
"note": "proved for all shapes and layouts; refuted: elements of a tensor converted from the other layout, norm for complex elements."
},
"C78": {
"status": "proved",
"note": "proved for all programs; refuted: assignment changes its target only."
},
"C79": {
"status": "proved",
"note": "proved for all programs."
},
"C80": {
"status": "proved",
"note": "proved for all programs."
}
}