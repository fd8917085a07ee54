# Formal model of Boost.uBLAS in Coq — design

## Trusted base

* Coq 8.16.1's kernel (and `vm_compute`, which the kernel uses to check the closed computations in
  `_refuted` witnesses and Examples).
* `rocq/theories/Assumptions.v` (generated by `work/manifest.py`) runs `Print Assumptions` on every
  theorem named in MANIFEST.json.  Each of them prints **"Closed under the global context"**: no axiom,
  not even one of the standard library, is used.  (vcheck's scan lists the constants
  `Coq.ssr.ssrunder.Under_rel.*`: they belong to the standard library's ssreflect support, which `Lia`
  loads; no theorem depends on them.)
* No axioms, no `Admitted`, no functors or module types, no plugins, no switched-off kernel checks.
* The reading of the C++ sources: each definition in `*Model.v` cites file and lines in /repo.
  Nothing ties the model to the code but that reading; the code is neither compiled nor run.
* Hypotheses in theorem statements that stand for foreign code: `sorts` (std::sort over uBLAS's proxy
  iterators sorts; C15–C17), the laws of the value type (`vlaws`, `is_field`, `scalars`, associativity and
  commutativity of `+` where needed), `valued`/element text round trip (C31).  Each is met by a concrete
  instance shown next to the theorem.

## How to read the development

For every area X there are
* `XModel.v` — the code, function by function, with file and line citations;
* `XSpec.v` — the vocabulary of the theorem statements, independent of the model's helpers;
* `XProofs*.v`, `XThms.v`, `XSeq.v` — lemmas;
* `XProps.v` — the theorems `CNN_…` of MANIFEST.json, each followed by a concrete case meeting its hypotheses.

If the English claim first written down turned out to be false of the code, the theorem `…_refuted` gives
a concrete witness, and the property in properties.jsonl is stated with the exact scope in which it holds
(the refuted remainder is named in parentheses).

## General modelling choices (`Base.v`)

* `res A := Ok a | Throw e | UB`.  `Throw e` is a uBLAS exception (`bad_size`, `bad_index`,
  `bad_argument`, `singular`, `external_logic`, `internal_logic`, std exceptions).  `UB` is undefined
  behaviour (out-of-bounds storage access, reading past an end iterator, ...).
* `BOOST_UBLAS_CHECK(cond, exn)` is `check chk cond exn`, where `chk : bool` is a model parameter:
  `chk = true` is a checked (debug) build in which the macro throws, `chk = false` is an `NDEBUG`
  build in which the macro is empty (exception.hpp:188-210).  Theorems are stated for both where
  both make sense.
* `size_type` is modelled either as `N` with explicit `mod 2^64` (layouts, packed containers, ranges and
  slices, proxies, comma assignment, tensor strides) or as unbounded `nat` (noted at the top of each file).
* Element types are abstract: a type with operations; algebraic laws appear as hypotheses of the theorem,
  never as axioms.  Floating-point rounding is NOT modelled: theorems about LU/solve/products speak of an
  arbitrary commutative ring/field.
* Containers are values (list of cells + sizes); in-place mutation returns the new value.  Where identity
  and aliasing matter (C40 array_adaptor, C23 aliasing) the heap is explicit.
* Loops are structural recursion on an index count or on fuel with a distinct out-of-fuel outcome
  that the theorems exclude.
* Iterators are the list of the indices they still have to visit (assignment, inner products, products).
* Not modelled anywhere: allocation failure, exceptions thrown by element operations, iterator classes'
  debug bookkeeping (`same_closure`), blocks under BOOST_UBLAS_TYPE_CHECK, the Duff-device unrolling
  (identical to the loop), SIMD/bindings/OpenCL back-ends, serialization, performance, C++ template
  dispatch itself (dispatch is represented by which model function a category selects).

## Per property

| id | files | what is modelled | proof |
|----|-------|------------------|-------|
| C01, C02, C03, C39 | Layout*, PackedThms | basic_row_major/column_major element, address, storage_size, index_i/j; triangular_size, lower/upper_element, kinds and transposed_structure, iterator restriction | arithmetic (nia, div/mod) for all sizes |
| C01, C04–C08 | Packed* | matrix, triangular_matrix, symmetric_matrix, hermitian_matrix, banded_matrix: construct, read, write, insert, erase, clear, resize | refinement to function update by induction over the history |
| C08, C09, C40 | Storage*, Adaptor* | unbounded_array, bounded_array (resize, swap, assignment), array_adaptor with explicit heap | list lemmas, ownership invariant over histories |
| C10, C11 | Range*, Proxy* | basic_range, basic_slice, indirect_array (wrapping arithmetic, signed overflow = UB); nested vector/matrix projections as address maps | arithmetic mod 2^64; induction over the projection expression |
| C12, C13, C19 | MapArray*, Mapped*, SparseProps | map_array with raw memory, mapped_vector, mapped_matrix over map_array | refinement to finite maps |
| C14 | CVec* | compressed_vector | refinement + invariant over histories |
| C15–C17 | Coord*, CoVec* | coordinate_vector incl. lazy sort, inplace_merge, summation of duplicates | refinement to sums of appended entries |
| C18 | CMat* | compressed_matrix, both orientations | refinement to finite maps |
| C20, C21 | Assign* | detail/vector_assign.hpp kernels, dispatch, swap | loop induction; refinement to the element-wise loop |
| C22 | Inner* | inner_prod, matrix-vector and matrix-matrix element kernels | loop induction |
| C23 | Alias* | assignments whose source is re-read from memory; temporaries, noalias, proxies | invariant over memory |
| C24 | Norm* | sum, norm_1, norm_2, norm_inf, index_norm_inf (both kernels) | loop induction |
| C25 | Tri*, FieldLib, LinStore | inplace_solve kernels (dense/packed/sparse, row/column, vector/matrix right-hand sides) | loop invariants over a field |
| C26–C29 | Lu* | permutation_matrix, swap_rows, lu_factorize with/without pivoting, lu_substitute | loop invariants |
| C30 | Oper* | axpy_prod, opb_prod, block_prod, sparse_prod | loop invariants; sum rearrangement |
| C31 | Io* | operator<< and >> of vectors, matrices, symmetric matrices at character level | round trip and rejection by induction over the text |
| C32 | Comma* | assignment.hpp: assigners, manipulators, traverse and fill policies; dense and compressed targets | each statement equals its plan of writes; induction |
| C33–C36, C44 | Tensor*, TensorProps, TensorExprProps | extents, strides, to_index, copy/transform/accumulate/trans recursion, reshape | induction over rank |
| C37, C38, C45 | Tensor*, TensorMulProps | ttv/ttm/ttt/inner/outer kernels and their public wrappers, Einstein notation | induction over rank |
| C41 | Vex* | vector expression trees and their iterators (find, index, ++, --, *, ==) | invariant: iterator stands at position p, sub-iterators at the next position they visit; structural induction on the tree; counterexamples for reverse iteration |
| C42, C43 | TensorExprProps | comparison and element-wise expressions under any iteration order | induction over expressions; commutation of iterations |
| C48 | CMIter* | compressed_matrix find1/find2 and the four iterator classes (one definition, parametrised by the direction) | invariant: an iterator stands on the next stored element of its line; induction on the distance to the end; counterexample for reverse iteration across the storage direction |
| C49 | CoMat*, CoConvProofs | coordinate_matrix (lazy sort, duplicates, reserve, pop/push) and compressed_matrix(coordinate_matrix) | refinement to finite maps of sums, reusing the inplace_merge/sort lemmas of C16; the conversion is related to the C18 representation by counting entries per line; counterexamples for index base 1, no lines, pop_back |
| C50 | DMIter* | matrix find1/find2, iterator1/iterator2 arithmetic, difference, indices, dereference, dual begin/end, reverse iterators | an iterator is a storage offset; the loop lemma turns the nested loops with any body into a fold over the grid of positions; div/mod arithmetic; exact value of the wrapped difference |
| C51 | MAdapt* | triangular_adaptor and banded_adaptor over a dense matrix: operator(), find1/find2, const and mutable iterators, reverse iterators, and the restrict/global_restrict functions they use | clipping lemmas give the visited interval of lines and of each line; the loop lemma of C50 on intervals; filter of the grid = visited positions; fold invariant for writes |
| C52 | SAdapt* | symmetric_adaptor, hermitian_adaptor over a dense matrix: operator(), insert_element, find1/find2, the two-phase const iterators with all their checks (++, --, +=, -=, -, ==, indices, *), the mutable iterators | invariant: an iterator at index x of line o is in the first phase iff x < o, whatever the direction; preserved by every operation; loop lemma by induction on remaining steps; mutable iterators reduced to C51 |
| C53 | Blas* | every function of blas.hpp over the aliasing memory of AliasModel: destinations (container or proxy), operand expressions and scalar references are read from the current memory | composition of C23 (assignment through a temporary), C24, C22 and C25; direct_ok with a reads-ahead argument for axpy and rot; symmetry by extensionality of the sums |
| C54 | Mex* | matrix expressions as trees; their nested iterators (find1/find2 with rank, ++, ==, index1/index2, *) in both directions over containers given by the positions their iterators visit | position invariant At (iterator, position) by induction on the tree for find, ++, ==, index, *; loop lemma; lines of products through the kernels of C22; refutations by computation |
| C55 | ViewIter* | vector and matrix views as trees over abstract containers; index iterators of range / slice / indirect_array; find, ++, --, +=, -, ==, index, * and begin () / end () of the outer iterators of every view class; forward and reverse loops | derived view (qview, pview) gives the visited positions; invariant KAt / PAt (iterator stands before the k-th visited position; in a range, offset by the number of positions before its start) by induction on the view; generic loop lemmas |
| C56 | MMIter* | find1/find2 with the search loop over lower_bound, rank 0 and rank 1 iterators, ==, index1/index2, *, ++, -- of mapped_matrix over map_array, 64-bit addresses; the nested loops, forward and reverse; stores through iterators | line addresses are strictly monotone; loop invariant of the search (nothing stored before the current index, stale index differs from the line); invariant from (iterator at the first stored element from y on, or at the end); induction on the rest of the line |
| C57 | SVIter* | find/begin/end, ++, --, ==, index, * of the mapped_vector, compressed_vector and coordinate_vector iterators with their checks, the sort inside find of coordinate_vector, reverse iterators, loops that read and loops that assign through the iterators | each vector is described by its sorted entry list (from the C13-C15 invariants); lower_bound = number of smaller keys; induction on the rest of the list; uniqueness of a sorted entry list with given contents |
| C58 | VV* | generalized_vector_of_vector over mapped_vector, compressed_vector and coordinate_vector lines: constructors, nnz, resize (both forms), find_element, operator (), assignment to an element, insert_element, append_element, erase_element, clear, sort, storage_invariants | one abstract interface of a line (iv_ok: what C13-C15 prove of each vector), invariant line by line (every line represents its row of the map, the extra last line is empty), induction on the history; loops over the lines by one lemma on foldM |
| C59 | VVIter* | iterators of generalized_vector_of_vector over the three kinds of lines: find1/find2, ++, --, *, assignment through *, index1/index2, ==, begin/end/rbegin/rend of the matrix and of a line, nested loops forward, reversed, assigning | one abstract interface of a line with iterators (it_ok, from C57) plus C58's invariant; loops by induction on the lines/positions; the sort a loop triggers is carried through (state-passing); order specified by stored_in_order (CMIterSpec) |
| C60 | Special* | zero_vector, unit_vector, scalar_vector, zero_matrix, identity_matrix, scalar_matrix: access, find, iterators (++, --, *, index, ==, begin/end of a line), resize/assign/swap of identity_matrix and unit_vector; user loops | one interface per kind of object, loop lemmas by induction on the number of rounds, order specified by stored_in_order/listed |
| C61 | CArr* | c_vector and c_matrix: constructors, resize, access, erase, clear, =, assign, swap, copy, iterators | state (size, elements or unspecified), representation invariant preserved by every operation; iteration by the loop lemmas of C60 |
| C62 | CoIter* | find1/find2, the four iterator classes and the nested forward, writing and reversed loops of coordinate_matrix | the sorted arrays as one key-sorted list (as C48), positions as counts of smaller keys; every find sorts first, so the history invariant of C49 gives the sorted matrix the loops run on |
| C63 | NMap*, NMIter* | mapped_vector_of_mapped_vector: all element operations, find1/find2, the four iterator classes, nested forward, writing and reversed loops | representation invariant: sorted map of sorted maps with an empty sentinel line at index size_M, the stored map f and the set t of lines written to; positions are counts of smaller keys (lemmas of C48) |
| C64 | PkIter* | triangular_matrix, symmetric_matrix, hermitian_matrix, banded_matrix: find1/find2, the four iterator classes, nested const, writing and reversed loops | every found range is the stretch of shown positions of its line (range lemmas of C51); grid filtered by the shown positions; writes by induction on a duplicate free list of stored positions |
| C65 | SView* | c_array_view, compressed_matrix_view: construction, find_element, operator () | lower_bound on an increasing stretch; packing lemmas; C18's description of the arrays of a compressed_matrix |
| C66 | MVec* | matrix_row_vector, matrix_column_vector, their iterators, resize (preserve true and false) | loops over positions; invariant over histories of assignments and resizes |
| C67 | VoV* | vector_of_vector: constructors, resize, element access, clear, assignment, swap | refinement over histories of two matrices with an explicit hidden line; one refuted row resurrection |
| C68 | VoVIter* | iterator1 / iterator2 of vector_of_vector and loops over them | loop induction relative to a symbolic allocator; three refuted claims |
| C69 | TPrint* | operator << for tensors and detail::print | induction over modes; the text is proved equal to an independent grammar and to determine the elements; two refuted cases |
| C70 | TCtor* | extents, tensor constructors, conversions, fill, container assignment, ones / zeros | addresses from the stride theorems (C24) and dense matrix contents (C50); copy between layouts by the n-mode copy kernel (C27); two refuted cases |
| C71 | DVec* | vector, bounded_vector, fixed_vector: constructors, element access, resize, assignments, swap, iterators | simulation by two lists of optional values over an abstract storage contract, which the three storage arrays are proved to meet; loop invariants for the assignment kernels; two refuted cases |
| C72 | DMat* | matrix, bounded_matrix, fixed_matrix: constructors, element access, resize, assignments, swap, both layouts | simulation by two tables of optional values over the storage contract of C71 and injectivity of the layout functions; nested loop invariants for the assignment kernels under in-place safe aliasing; two refuted cases |
| C73 | PHist* | triangular, symmetric, hermitian, banded matrices: element access, resize, assignments, swap | one simulation by two tables over a contract (which stored element a position shows, which element a write changes), instantiated four times from the storage lemmas of C03-C05 |
| C74 | SHist* | mapped, compressed, coordinate vectors: element access, resize, the sparse assignment loops, swap | one simulation by two finite maps over a contract of 19 facts, instantiated from C12-C15 and C57; the merge loop by induction with the element map changing under it |
| C75 | SMHist* | mapped, compressed, coordinate matrices: element access, resize, the sparse assignment loop, scaling through the iterators, swap | one simulation by two finite maps over a contract of 19 facts, instantiated from C18, C19, C48, C49, C56, C62; an expression is lowered to C54's expressions over what iterating visits |
| C76 | PkResize* | resize (k), resize (k, false), resize_packed_preserve of the four packed containers mixed with the element operations of C04-C07 | histories over a partial function (None: indeterminate); one induction for the three packed kinds, addresses shown independent of the order; the banded invariant allows storage longer than needed | 
| C77 | TMk* | constructors from expressions, matrices and vectors, assignment of a value, norm, real, imag, conj | C43's evaluation lemma at the extents found in the tree; accumulate as a fold over multi-indices (C35); a permutation of the multi-indices for trans | 
| C78 | Shallow* | constructors, destructor, resize (both kinds), operator [], operator =, assign_temporary, swap of shallow_array_adaptor over an explicit heap | invariant: allocated and live iff held, every holder's size within its block; per-call lemmas and induction over the program | 
| C79 | El* | sparse_vector_element: construction, copy, get_d, set, assignments, conversion, ref (); find_element of the three vectors | find_element lemma per vector over the settled iterator view, then induction over the program with C74's step lemma for the other calls | 
| C80 | MEl* | sparse_matrix_element: construction, copy, get_d, set, assignments, conversion, ref (); find_element of the three matrices | find_element lemma per matrix, the write after a hit identified with m (i, j) = x of C18, C19, C49; induction over the program with C75's step lemma for the other calls | 
| C46 | MAssign* | detail/matrix_assign.hpp kernels, dispatch, swap | loop induction |
| C47 | AxpyLu* | axpy_lu_factorize, both preprocessor versions, both orientations | runs in step with lu_factorize (relational invariant) |

## What is simplified or left out, per area

* Packed/Layout: sizes below 2^32 for triangular kinds (the guard is refuted above); BOOST_UBLAS_OWN_BANDED /
  LEGACY_BANDED and STRICT_HERMITIAN variants not modelled; triangular_adaptor and banded_adaptor are C51.
* Storage: sizes are nat; trivially constructible element types keep junk in fresh cells (universally quantified).
* Proxies: over dense containers.  Proxy iterators not modelled.
* Sparse containers: non-strict builds, unbounded naturals for indices and capacities (no wrap of 2*capacity),
  unbounded_array storage; std::map storage is its ISO specification.  set_filled not modelled.
* Assignment kernels (C20–C22, C30, C46): iterators as lists of visited indices; source is a snapshot (aliasing
  is C23); result distinct from operands; block_prod result types dense only, copies of blocks taken as values.
* Expression iterators (C41): leaves are containers given by the positions their iterators visit; one value type;
  default iterators (no BOOST_UBLAS_USE_INDEXED_ITERATOR); same_closure checks not modelled; -- at 0 is UB.
* symmetric_adaptor / hermitian_adaptor (C52): one model, parametrised by the function applied to mirrored elements (identity, conj); d in += and -= is kept as a signed number (its conversions to size_type and back cancel); STRICT_HERMITIAN and USE_INDEXED_ITERATOR variants are not modelled.
* BLAS (C53): dense value semantics of AliasModel (operands are arbitrary expressions of the memory, destinations dense containers or proxies); a product element is the index-order sum; BOOST_UBLAS_SIMPLE_ET_DEBUG variants not modelled; for axpy, scal and rot the scalars must not refer into the vectors written (iterators copy the scalar, indexing re-reads it).
* Matrix expression iterators (C54): one value type; const_iterator2 is modelled as const_iterator1 with the indices exchanged; same_closure checks, reverse iterators and the INDEXED_ITERATOR / INVARIANT_HOISTING variants are not modelled; operands of sums must have iterators for every line (`total`), visited lines of product operands must be found again (`steady`: no packed sum that leaves gaps) -- both conditions hold for containers.
* View iterators (C55): const_iterators only (iterator has the same code); indices are unbounded naturals, leaving them (wrap-around below zero) is UB; comparisons of closures and index sets not modelled; the containers below are given by the positions their iterators visit.
* mapped_matrix iterators (C56): map_array storage (std::map has the same lower_bound interface); const and mutable iterators share one model, writing is a separate operation; identity checks of operator == not modelled; requires s1 * s2 + max (s1, s2) < 2^64, otherwise addresses past the end wrap around (checked builds raise).
* sparse vector iterators (C57): an iterator is a position in the index storage; const and mutable iterators share one model; loops are written with a fuel argument that the theorems require to exceed the size; the same-container check of operator == is not modelled.
* generalized_vector_of_vector (C58): outer vector<V> over unbounded_array only (a list of lines), unbounded natural sizes; constructors from expressions, operator =, swap and serialization not modelled.
* generalized_vector_of_vector iterators (C59): iterator1 and iterator2 (const and mutable) are one definition parametrised by direction; the same-matrix check of == is not modelled; an iterator of a line is compared with one of another line as unequal in unchecked builds (C++ leaves this undefined for map iterators and pointers into different arrays); the first index of an empty coordinate line, which -- reads and discards, is arbitrary; -- below 0 is UB.
* vectors and matrices without storage (C60): iterator1/iterator2 are one definition parametrised by direction; same-container check of == not modelled; -- below 0, where unchecked, is UB; serialization not modelled.
* c_vector, c_matrix (C61): right hand sides are given by their size and elements (no aliasing: C23); vector_assign/matrix_assign by their dense element loop (C20, C46); compound assignment, serialization not modelled; N x M array as one list of N * M cells.
* coordinate_matrix iterators (C62): iterator1/iterator2 and find1/find2 are one definition with the direction as parameter, except for the missing - 1 in the mutable iterator2's operator --; the container identity checks of == are not modelled; an index decremented below 0 is UB; find with direction -1 is modelled, only its failure is proved.
* mapped_vector_of_mapped_vector (C63): std::map is a list of pairs with increasing keys and the operations ISO C++ gives it (lower_bound, find, insert, erase, [ ]), iterators are positions in it; nnz () and nnz_capacity () do not compile (they use data_ as a function) and are left out; iterators of different inner maps compare unequal; construction and assignment from expressions are C46; map_array as the map type is not modelled.
* packed container iterators (C64): an iterator is the pair it1_, it2_ (the pointer to the container is the container argument); the iterators of the four containers are textually alike and modelled once, with the class as a parameter selecting find and element access; the clipping of banded_matrix is that of banded_adaptor (C51); BOOST_UBLAS_USE_INDEXED_ITERATOR and the legacy band layouts are off; assigning to an element of a hermitian matrix through a mutable iterator is at_element (a plain reference).
* compressed_matrix_view (C65): index and value arrays are c_array_view (an array is the list of elements it spans); unbounded naturals for index_type and array_size_type; std::lower_bound is its ISO specification (undefined on a range that is not partitioned); zero_based of an index below the base is UB; the class has no iterators.
* Vectors of rows and columns (C66): over matrix<T, L> only; an iterator is its position_ and the comparison of matrix pointers is left out; boost::iterator_facade supplies operators from increment/decrement/advance/distance_to/equal/dereference as documented; matrix_row_vector::crend () does not compile when used and is not modelled.
* vector_of_vector (C67): sizes are unbounded naturals; copying a line copies its contents (C08); matrix_assign is element-wise (C46); serialization is not modelled.
* Iterators of vector_of_vector (C68): a pointer is a line and an offset, its address base(line) + offset with base the allocator's choice (non-empty lines have distinct positive addresses, empty ones are null); forming a pointer outside a line, as the code does with null + j for an empty line, is not itself an error here although ISO C++ makes it undefined; -- of index 0 and a negative position are UB.
* Printing tensors (C69): the stream is the string written with default formatting; the text of an element is a parameter; std::endl is a newline (flushing not modelled); w[r] is read once before the loop over a mode; pointers past the buffer are only flagged when dereferenced.
* Making tensors (C70): uninitialised std::array elements are an arbitrary function of the position; element conversions are the identity; the length of an array argument equals the product of the static extents (it is part of the type); the converting constructors of tensor_dynamic.hpp:157-163 and tensor_static_rank.hpp:138-145 call a member no tensor has, never compile when used and are left out.
* Dense vectors (C71): elements are values of any type whose copies do not throw; a size mismatch inside a conversion from another container type is that of the indexing loop; expressions are element-wise trees over the two vectors and vectors of other types; iterators are distances from the beginning of the array, moving one out of [begin, end] is undefined.
* Dense matrices (C72): as C71; expressions are trees of element-wise operations and transpositions over the two matrices and matrices of other types; fixed_matrix has no resize, and its assignment from another container type calls it (matrix.hpp:1425-1428), so it does not compile and is not modelled; assignment loops are the indexing ones in the order of the layout (C20 and C46 relate the iterating ones).
* Structured matrices (C73): over unbounded_array, orders below 2^32, unit and strict triangles not empty and not longer than wide (lower) or wider than long (upper) as in C03; banded resize with preserve is excluded from legal histories (C05 refutes it); the packed assignment loops are written as loops over all positions that skip those the mutable iterators do not visit (C64 proves which these are).
* Sparse vectors (C74): mapped_vector over map_array, the others over unbounded_array; in an expression a vector is represented by what iterating over it visits at that moment (taken anew at every step of the merge loop of += and -=, which reads the target live); noalias (v) = e with e reading v is excluded except e = v; expressions of a sparse operand with a function not mapping zeros to zero are excluded (C41).
* Sparse matrices (C75): mapped_matrix over map_array, the others over unbounded_array; in an expression a matrix is represented by what the two nested loops over it visit at that moment; noalias (m) = e with e reading m is excluded except e = m; noalias (m) += e and -= e are not in these histories (C46 has the loops); operands of products and sums are required to conform.
* Resizing packed matrices (C76): square triangular matrices only; unbounded_array storage of a trivially constructible type; the state left when a size computation throws is not modelled; banded resize with preservation (wrong anyway, C05) is not in the histories.
* Building tensors (C77): dynamic rank; std::sqrt, std::real, std::imag and std::conj are arbitrary functions; the explicit constructor from a tensor of another layout does not compile (it calls a member container () that does not exist) and is not modelled; matrix and vector expressions are evaluated into a temporary first (C73-C75), only the step from the temporary is modelled here.
* shallow_array_adaptor (C78): shared_array is modelled by its specification (the deleter runs when the last holder lets go); own_ stands for which deleter was given. The self-overlapping std::copy between two objects on the same memory (same source and destination) leaves the elements as they are in the model; strictly the standard does not allow it. User memory handed over is never memory that an adaptor allocated.
* sparse_vector_element (C79): the cache d_ is a local value of each operation (it is rewritten by get_d () before every use); the other operand is a value or a proxy, not a reference into the vector's storage; the reference r.ref () returns is used before any other call, and its position in the storage is found by a second search; the comparisons of proxies are not modelled. The earlier histories of these vectors (C13-C15, C74) use ref (i), the branch without the macro; C79 shows that the default branch stores the same elements.
* sparse_matrix_element (C80): the same simplifications as for sparse_vector_element (C79). Using a proxy whose indices are outside the (resized) matrix is excluded.
* triangular_adaptor / banded_adaptor (C51): the adapted matrix is the dense matrix of C03/C50; default banded configuration (no OWN_BANDED, no LEGACY_BANDED); assignment of whole expressions to an adaptor is covered by C46's packed target only; the adaptors over sparse matrices are not modelled.
* dense matrix iterators (C50): iterator and const_iterator share one model; forming a pointer one line past the storage, as find1 (0, size1, j) does, is not an error, only access is; n * size in += is taken without wrap-around (pointer addition wraps to the same address); the conversion to size_type in distance_i/j is modelled.  The BOOST_UBLAS_USE_INDEXED_ITERATOR variant is not modelled.
* coordinate_matrix (C49): the two index arrays, always written together, are one array of pairs; std::sort is any function
  meeting its contract; iterators, serialization, set_filled and the expression constructors are not modelled; in the
  conversion the uninitialised capacity and fill counters are 0 until reserve sets them (it does not read them).
* compressed_matrix iterators (C48): same container assumed in ==; -- at index 0 is UB; stores through rank-0 iterators
  (at_element) not modelled; outer reverse iteration (decrementing a plain index) not modelled.
* Aliasing (C23): object-level memory, dense kernels and the sparse noalias kernel; unary minus is 0 - x.
* Linear algebra: exact fields; the tolerance checks under BOOST_UBLAS_TYPE_CHECK are not modelled.
* Stream I/O: classic locale, skipws, eofbit not kept, no allocation failure, element text without NUL.
* Comma assignment: expressions are independent of the target in the theorems (the model lets them read it);
  push_back into a dense container does not compile (UB placeholder, excluded); sparse indices unbounded; += on a
  sparse element reads the old value, then stores.
* Tensors: loops whose 32-bit counter can never reach its bound are modelled as UB; moving a pointer past its
  buffer without dereferencing is not flagged; output buffer distinct from the inputs; matrix/vector operands in
  tensor expressions, tensor construction from another layout (does not instantiate) not modelled; static-rank
  trans leaves nc uninitialised for non-permutations; `mtm` modelled, unused by the library.

## Testing the theorems

`work/mut.py` applies realistic wrong edits to the model in a scratch copy and rebuilds; results in
seeded/LOG.jsonl (one line per edit: definition, edit, broken claim, failed theorems, tightened theorems).
