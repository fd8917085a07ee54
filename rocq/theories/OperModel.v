(** OperModel.v -- model of the product kernels of
    /repo/include/boost/numeric/ublas/operation.hpp (axpy_prod, opb_prod), operation_blocked.hpp
    (block_prod) and operation_sparse.hpp (sparse_prod).

    Matrix and vector operands are [mexp] and [src] (MAssignModel.v, AssignModel.v): element access,
    iterators as lists of the indices they visit, categories.  Results are [tgt] and [mtg].  The result
    is a different object than the operands.  Blocks under BOOST_UBLAS_TYPE_CHECK are not modelled.  The
    overloads that return a new object create it and call the modelled ones with init = true. *)
From Verif Require Import Base AssignModel InnerModel MAssignModel.
Open Scope nat_scope.

(** zero_vector (n): iterates over nothing (vector.hpp:1684-1880); zero_matrix (n1, n2): no rows, no
    columns, unknown orientation (matrix.hpp:3453-3730). *)
Definition zero_src {T} (O : vops T) (n : nat) : src T := Src n [] (fun _ => v0 O) ISparse.
Definition zero_mexp {T} (O : vops T) (n1 n2 : nat) : mexp T :=
  MExp n1 n2 (fun _ _ => v0 O) [] (fun _ => []) [] (fun _ => []) ISparse ISparse OUnknown.

Section Kernels.
Context {T : Type} (O : vops T).
Variables chk iterating : bool.

(** v (i) += y *)
Definition vinc (v : tgt T) (i : nat) (y : T) : res (tgt T) := apply_idx O chk FPlus v i y.
(** m (i, j) += y *)
Definition minc (m : mtg T) (i j : nat) (y : T) : res (mtg T) := m_apply O chk FPlus m i j y.

(** ** axpy_prod (matrix, vector) *)
(** row major, x dense or packed: operation.hpp:122-149 *)
Definition mv_row_step (A : mexp T) (x : src T) (i : nat) (v : tgt T) (j : nat) : res (tgt T) :=
  let* y := at_idx chk x j in vinc v i (vmul O (e_at A i j) y).
Definition mv_rows (A : mexp T) (x : src T) (v : tgt T) : res (tgt T) :=
  foldM (fun v i => foldM (mv_row_step A x i) (e_row A i) v) (e_rows A) v.
(** column major, x dense or packed: 151-178 *)
Definition mv_col_step (A : mexp T) (x : src T) (j : nat) (v : tgt T) (i : nat) : res (tgt T) :=
  let* y := at_idx chk x j in vinc v i (vmul O (e_at A i j) y).
Definition mv_cols (A : mexp T) (x : src T) (v : tgt T) : res (tgt T) :=
  foldM (fun v j => foldM (mv_col_step A x j) (e_col A j) v) (e_cols A) v.
(** row (A, i) and column (A, j): the constructors do not check the index (matrix_proxy.hpp:54-58, 527-531); the
    use of a row or column outside the matrix is undefined. *)
Definition row_of (A : mexp T) (i : nat) : res (src T) :=
  if i <? e_1 A then Ok (e_line A i) else UB.
Definition col_of (A : mexp T) (j : nat) : res (src T) := 
  if j <? e_2 A then Ok (e_line (e_tr A) j) else UB.
(** column (A, j) * t and t * row (A, i): vector_expression.hpp, vector_binary_scalar2 / scalar1: the
    iterators are those of the vector. *)
Definition times_r (e : src T) (t : T) : src T := Src (s_n e) (s_its e) (fun i => vmul O (s_at e i) t) (s_cat e).
Definition times_l (t : T) (e : src T) : src T := Src (s_n e) (s_its e) (fun i => vmul O t (s_at e i)) (s_cat e).
(** x sparse: 180-196 *)
Definition mv_sparse_step (A : mexp T) (x : src T) (v : tgt T) (j : nat) : res (tgt T) :=
  let* c := col_of A j in vector_assign O chk iterating FPlus v (times_r c (s_at x j)).
Definition mv_sparse (A : mexp T) (x : src T) (v : tgt T) : res (tgt T) :=
  foldM (mv_sparse_step A x) (s_its x) v.
(** if (init) v.assign (zero_vector (n)) *)
Definition v_init (init : bool) (n : nat) (v : tgt T) : res (tgt T) :=
  if init then vector_assign O chk iterating FAssign v (zero_src O n) else Ok v.
(** Dispatchers: 198-207 and 239-261.  dense_random_access_iterator_tag derives from the packed one;
    there is no overload for an unknown orientation. *)
Definition axpy_mv (init : bool) (A : mexp T) (x : src T) (v : tgt T) : res (tgt T) :=
  let* v := v_init init (e_1 A) v in
  match s_cat x, e_or A with
  | ISparse, _ => mv_sparse A x v
  | _, ORow => mv_rows A x v
  | _, OCol => mv_cols A x v
  | _, OUnknown => UB
  end.

(** ** axpy_prod (vector, matrix): 344-484.  *)
(** column major: 344-371 *)
Definition vm_col_step (x : src T) (A : mexp T) (j : nat) (v : tgt T) (i : nat) : res (tgt T) :=
  let* y := at_idx chk x i in vinc v j (vmul O (e_at A i j) y).
Definition vm_cols (x : src T) (A : mexp T) (v : tgt T) : res (tgt T) :=
  foldM (fun v j => foldM (vm_col_step x A j) (e_col A j) v) (e_cols A) v.
(** row major: 373-400 *)
Definition vm_row_step (x : src T) (A : mexp T) (i : nat) (v : tgt T) (j : nat) : res (tgt T) :=
  let* y := at_idx chk x i in vinc v j (vmul O (e_at A i j) y).
Definition vm_rows (x : src T) (A : mexp T) (v : tgt T) : res (tgt T) :=
  foldM (fun v i => foldM (vm_row_step x A i) (e_row A i) v) (e_rows A) v.
(** x sparse: 402-418 *)
Definition vm_sparse_step (x : src T) (A : mexp T) (v : tgt T) (i : nat) : res (tgt T) :=
  let* r := row_of A i in vector_assign O chk iterating FPlus v (times_l (s_at x i) r).
Definition vm_sparse (x : src T) (A : mexp T) (v : tgt T) : res (tgt T) :=
  foldM (vm_sparse_step x A) (s_its x) v.
(** 420-429, 456-476 *)
Definition axpy_vm (init : bool) (x : src T) (A : mexp T) (v : tgt T) : res (tgt T) :=
  let* v := v_init init (e_2 A) v in
  match s_cat x, e_or A with
  | ISparse, _ => vm_sparse x A v
  | _, ORow => vm_rows x A v
  | _, OCol => vm_cols x A v
  | _, OUnknown => UB
  end.

(** ** axpy_prod (coordinate_matrix, vector): 99-120.  The coordinate_matrix is given by its arrays: the
    triples (row, column, value) of the first nnz () entries, in storage order; index_M / index_m map the
    stored (major, minor) pair back to (row, column). *)
Definition coord_step (x : src T) (v : tgt T) (p : nat * nat * T) : res (tgt T) :=
  let '(i, j, a) := p in let* y := at_idx chk x j in vinc v i (vmul O a y).
Definition axpy_coord (init : bool) (size1 : nat) (A : list (nat * nat * T)) (x : src T) (v : tgt T) : res (tgt T) :=
  let* v := v_init init size1 v in foldM (coord_step x) A v.

(** ** axpy_prod (compressed_matrix with IB = 0, vector): 28-60 and vector times matrix 286-317.  idx1, idx2,
    val: index1_data (), index2_data (), value_data (); f1: filled1 (). *)
Definition arr {A} (l : list A) (k : nat) : res A := rdn l k.
(** the major index selects the element of the result: 34-44 (row major), 292-302 (x * A, column major) *)
Definition cm_gather_row (idx1 idx2 : list nat) (val : list T) (x : src T) (v : tgt T) (i : nat) : res (tgt T) :=
  let* b := arr idx1 i in
  let* e := arr idx1 (i + 1) in
  let* v1 := touch O chk v i in
  let* t := foldM (fun t j => let* a := arr val j in let* c := arr idx2 j in let* y := at_idx chk x c in
                              Ok (vadd O t (vmul O a y))) (seq b (e - b)) (t_at v1 i) in
  apply_idx O chk FAssign v1 i t.
Definition cm_gather (f1 : nat) (idx1 idx2 : list nat) (val : list T) (x : src T) (v : tgt T) : res (tgt T) :=
  foldM (cm_gather_row idx1 idx2 val x) (seq 0 (f1 - 1)) v.
(** the minor index selects the element of the result: 54-60 (column major), 311-317 (x * A, row major) *)
Definition cm_scatter_col (idx1 idx2 : list nat) (val : list T) (x : src T) (v : tgt T) (j : nat) : res (tgt T) :=
  let* b := arr idx1 j in
  let* e := arr idx1 (j + 1) in
  foldM (fun v i => let* c := arr idx2 i in let* a := arr val i in let* y := at_idx chk x j in
                    vinc v c (vmul O a y)) (seq b (e - b)) v.
Definition cm_scatter (f1 : nat) (idx1 idx2 : list nat) (val : list T) (x : src T) (v : tgt T) : res (tgt T) :=
  foldM (cm_scatter_col idx1 idx2 val x) (seq 0 (f1 - 1)) v.
(** Dispatchers: 62-86 and 319-343.  [major]: is the result indexed by the major index?  (row major A times
    x, or x times column major A). *)
Definition axpy_compressed (init : bool) (major : bool) (size : nat) (f1 : nat) (idx1 idx2 : list nat) (val : list T)
  (x : src T) (v : tgt T) : res (tgt T) :=
  let* v := v_init init size v in
  if major then cm_gather f1 idx1 idx2 val x v else cm_scatter f1 idx1 idx2 val x v.

(** ** axpy_prod (matrix, matrix) *)
(** row (m, i) of a dense matrix as an object to assign to (matrix_proxy.hpp:30-110: storage category
    dense_proxy_tag), and the matrix after the assignment. *)
Definition row_ref (m : mtg T) (i : nat) : tgt T := Tgt (g_2 m) (seq 0 (g_2 m)) (g_at m i) SDenseProxy.
Definition with_row (k : tgt T -> res (tgt T)) (m : mtg T) (i : nat) : res (mtg T) :=
  if i <? g_1 m then let* v := k (row_ref m i) in Ok (g_put m i v) else UB.
(** dense_proxy_tag, row major: 490-515 (the restriction TRI is not used).  The column major version
    563-588 is this one on the transposed matrices with e2^T and e1^T in the roles of e1 and e2. *)
Definition mm_dense_step (A B : mexp T) (i : nat) (m : mtg T) (j : nat) : res (mtg T) :=
  let* r := row_of B j in
  with_row (fun v => vector_assign O chk iterating FPlus v (times_l (e_at A i j) r)) m i.
Definition mm_dense (A B : mexp T) (m : mtg T) : res (mtg T) :=
  foldM (fun m i => foldM (mm_dense_step A B i) (seq 0 (e_2 A)) m) (seq 0 (e_1 A)) m.
(** sparse_proxy_tag (packed_proxy_tag derives from it), row major: 517-561; column major 590-636 is this
    one on the transposed matrices with e2^T, e1^T and the transposed restriction. *)
Definition mm_sparse_elem (R : nat -> nat -> bool) (A B : mexp T) (i j : nat) (m : mtg T) (k : nat) : res (mtg T) :=
  if R i k then minc m i k (vmul O (e_at A i j) (e_at B j k)) else Ok m.
Definition mm_sparse_step (R : nat -> nat -> bool) (A B : mexp T) (i : nat) (m : mtg T) (j : nat) : res (mtg T) :=
  let* r := row_of B j in foldM (mm_sparse_elem R A B i j) (s_its r) m.
Definition mm_sparse (R : nat -> nat -> bool) (A B : mexp T) (m : mtg T) : res (mtg T) :=
  foldM (fun m i => foldM (mm_sparse_step R A B i) (e_row A i) m) (e_rows A) m.
(** if (init) m.assign (zero_matrix (n1, n2)) *)
Definition m_init (init : bool) (n1 n2 : nat) (m : mtg T) : res (mtg T) :=
  if init then matrix_assign O chk iterating FAssign m (zero_mexp O n1 n2) else Ok m.
(** Dispatchers: 638-654 (restriction R), 686-700 (R = full).  Dispatch on the orientation of m; none for an
    unknown one. *)
Definition on_orient (o : orient) (row : mexp T -> mexp T -> mtg T -> res (mtg T))
  (col : mexp T -> mexp T -> mtg T -> res (mtg T)) (A B : mexp T) (m : mtg T) : res (mtg T) :=
  match o with
  | ORow => row A B m
  | OCol => let* m1 := col (e_tr B) (e_tr A) (g_tr m) in Ok (g_tr m1)
  | OUnknown => UB
  end.
Definition axpy_mm (init : bool) (R : nat -> nat -> bool) (A B : mexp T) (m : mtg T) : res (mtg T) :=
  let* m := m_init init (e_1 A) (e_2 B) m in
  match icat_of (g_sc m) with
  | IDense => on_orient (g_or m) mm_dense mm_dense A B m
  | _ => on_orient (g_or m) (mm_sparse R) (mm_sparse (flip R)) A B m
  end.

(** ** opb_prod: 716-843.  ce1, re2 are copies in a vector<value_type> (vector.hpp:133-138: storage of that
    size with any values, then assignment). *)
Variable junk : nat -> T.
Definition vector_copy (e : src T) : res (tgt T) :=
  vector_assign O chk iterating FAssign (Tgt (s_n e) (seq 0 (s_n e)) junk SDense) e.
(** outer_prod (v1, v2): matrix_expression.hpp:322-922: dense iterators over all rows and columns, element
    (i, j) is v1 (i) * v2 (j), unknown orientation. *)
Definition outer (v w : tgt T) : mexp T :=
  MExp (t_n v) (t_n w) (fun i j => vmul O (t_at v i) (t_at w j))
       (seq 0 (t_n v)) (fun _ => seq 0 (t_n w)) (seq 0 (t_n w)) (fun _ => seq 0 (t_n v)) IDense IDense OUnknown.
Definition opb_step (A B : mexp T) (m : mtg T) (k : nat) : res (mtg T) :=
  let* c := col_of A k in
  let* r := row_of B k in
  let* ce1 := vector_copy c in
  let* re2 := vector_copy r in
  matrix_assign O chk iterating FPlus m (outer ce1 re2).
(** 716-770 (both orientations have the same text), dispatcher 814-828; no overload for sparse or packed
    results. *)
Definition opb_prod (init : bool) (A B : mexp T) (m : mtg T) : res (mtg T) :=
  let* m := m_init init (e_1 A) (e_2 B) m in
  match icat_of (g_sc m), g_or m with
  | IDense, ORow | IDense, OCol =>
      let* size := same_size chk (e_2 A) (e_1 B) in
      foldM (opb_step A B) (seq 0 size) m
  | _, _ => UB
  end.

(** ** block_prod: operation_blocked.hpp *)
(** for (b = 0; b < n; b += BS) { e = b + min (n - b, BS); body (b, e) }: with BS = 0 and n > 0 the loop does
    not end: UB. *)
Fixpoint for_blocks {S} (body : nat -> nat -> S -> res S) (fuel b n BS : nat) (s : S) : res S :=
  if b <? n then
    match fuel with
    | 0 => UB
    | Datatypes.S fuel =>
        let* s1 := body b (b + Nat.min (n - b) BS) s in
        for_blocks body fuel (b + BS) n BS s1
    end
  else Ok s.
Definition blocks {S} (body : nat -> nat -> S -> res S) (n BS : nat) (s : S) : res S :=
  for_blocks body (Datatypes.S n) 0 n BS s.
(** Element i of the product of two blocks, as read by the assignment (C22: the sum of all products). *)
Fixpoint bdot (n : nat) (x y : nat -> T) : T :=
  match n with 0 => v0 O | S n => vadd O (bdot n x y) (vmul O (x n) (y n)) end.
Definition fresh (n : nat) : tgt T := Tgt n (seq 0 n) junk SDense.
(** project (v, range (b, e)) of a dense vector, and the vector after an assignment to it. *)
Definition sub_ref (v : tgt T) (b e : nat) : tgt T := Tgt (e - b) (seq 0 (e - b)) (fun k => t_at v (b + k)) SDenseProxy.
Definition with_sub (k : tgt T -> res (tgt T)) (v : tgt T) (b e : nat) : res (tgt T) :=
  let* w := k (sub_ref v b e) in
  Ok (Tgt (t_n v) (t_its v) (fun i => if (b <=? i) && (i <? e) then t_at w (i - b) else t_at v i) (t_sc v)).
(** The loops of 23-74 (matrix times vector) and 76-128 (vector times matrix), default cached variant:
    element k of the result is the sum over l of f k l.  v_range is a vector<value_type>; e1_range, e2_range
    are copies, so only the values of the operands are used; the result type V is a dense vector. *)
Definition block_inner (f g : nat -> nat -> T) (BS nj ib ie : nat) (vr : tgt T) : res (tgt T) :=
  blocks (fun jb je vr =>
    vector_assign O chk iterating FPlus vr
      (Src (ie - ib) (seq 0 (ie - ib)) (fun i => bdot (je - jb) (fun j => f (ib + i) (jb + j)) (fun j => g (ib + i) (jb + j))) IDense)) nj BS vr.
Definition block_vec (f g : nat -> nat -> T) (BS ni nj : nat) : res (tgt T) :=
  blocks (fun ib ie v =>
    let* vr := vector_assign O chk iterating FAssign (fresh (ie - ib)) (zero_src O (ie - ib)) in
    let* vr := block_inner f g BS nj ib ie vr in
    with_sub (fun w => vector_assign O chk iterating FAssign w (as_src vr)) v ib ie) ni BS (fresh ni).
(** 23-74: v (i) is the sum of e1 (i, j) * e2 (j) *)
Definition block_mv (BS : nat) (A : mexp T) (x : src T) : res (tgt T) :=
  let* nj := same_size chk (e_2 A) (s_n x) in
  block_vec (fun i j => e_at A i j) (fun _ j => s_at x j) BS (e_1 A) nj.
(** 76-128: v (j) is the sum of e1 (i) * e2 (i, j) *)
Definition block_vm (BS : nat) (x : src T) (A : mexp T) : res (tgt T) :=
  let* ni := same_size chk (s_n x) (e_1 A) in
  block_vec (fun _ i => s_at x i) (fun j i => e_at A i j) BS (e_2 A) ni.

(** Matrix results: a dense matrix<T, L> of orientation o and its ranges. *)
Definition dense_mtg (n1 n2 : nat) (f : nat -> nat -> T) (s : scat) (o : orient) : mtg T :=
  MTg n1 n2 (fun i j => (i <? n1) && (j <? n2)) f s o (fun _ => seq 0 n1) (fun _ => seq 0 n2).
Definition dense_mexp (n1 n2 : nat) (f : nat -> nat -> T) (o : orient) : mexp T :=
  MExp n1 n2 f (seq 0 n1) (fun _ => seq 0 n2) (seq 0 n2) (fun _ => seq 0 n1) IDense IDense o.
Definition with_msub (k : mtg T -> res (mtg T)) (m : mtg T) (ib ie jb je : nat) : res (mtg T) :=
  let* w := k (dense_mtg (ie - ib) (je - jb) (fun a b => g_at m (ib + a) (jb + b)) SDenseProxy (g_or m)) in
  Ok (MTg (g_1 m) (g_2 m) (g_st m)
          (fun i j => if (ib <=? i) && (i <? ie) && (jb <=? j) && (j <? je) then g_at w (i - ib) (j - jb) else g_at m i j)
          (g_sc m) (g_or m) (g_out1 m) (g_out2 m)).
(** body of the two outer loops, 162-189 (and 232-260) *)
Definition block_mm_body (o : orient) (A B : mexp T) (BS nk ib ie jb je : nat) (m : mtg T) : res (mtg T) :=
  let* mr := matrix_assign O chk iterating FAssign (dense_mtg (ie - ib) (je - jb) (fun i j => junk (i + j)) SDense o)
               (zero_mexp O (ie - ib) (je - jb)) in
  let* mr := blocks (fun kb ke mr =>
      matrix_assign O chk iterating FPlus mr
        (dense_mexp (ie - ib) (je - jb)
           (fun i j => bdot (ke - kb) (fun k => e_at A (ib + i) (kb + k)) (fun k => e_at B (kb + k) (jb + j))) OUnknown)) nk BS mr in
  with_msub (fun w => matrix_assign O chk iterating FAssign w (as_mexp mr)) m ib ie jb je.
(** 130-199 (row major), 201-270 (column major: the two outer loops exchanged), dispatcher 272-281 *)
Definition block_mm (o : orient) (BS : nat) (A B : mexp T) : res (mtg T) :=
  let* nk := same_size chk (e_2 A) (e_1 B) in
  let m := dense_mtg (e_1 A) (e_2 B) (fun i j => junk (i + j)) SDense o in
  match o with
  | ORow => blocks (fun ib ie m => blocks (fun jb je m => block_mm_body o A B BS nk ib ie jb je m) (e_2 B) BS m) (e_1 A) BS m
  | OCol => blocks (fun jb je m => blocks (fun ib ie m => block_mm_body o A B BS nk ib ie jb je m) (e_1 A) BS m) (e_2 B) BS m
  | OUnknown => UB
  end.

(** ** sparse_prod: operation_sparse.hpp:23-92 (row major); 94-161 (column major) is the row major one on the
    transposed matrices with e2^T, e1^T and the transposed restriction.  [temporary] is a dense vector. *)
(** temporary (j) += a; jb = min (jb, j); je = max (je, j) *)
Definition sp_acc (s : tgt T * nat * nat) (j : nat) (a : T) : res (tgt T * nat * nat) :=
  let '(t, jb, je) := s in
  let* t1 := vinc t j a in Ok (t1, Nat.min jb j, Nat.max je j).
(** inner loops 53-69 over row i of e1 and the rows of e2 *)
Definition sp_row_step (A B : mexp T) (i : nat) (s : tgt T * nat * nat) (j : nat) : res (tgt T * nat * nat) :=
  let* r := row_of B j in
  foldM (fun s k => sp_acc s k (vmul O (e_at A i j) (e_at B j k))) (s_its r) s.
(** 70-81 *)
Definition sp_flush_step (R : nat -> nat -> bool) (i : nat) (s : mtg T * tgt T) (j : nat) : res (mtg T * tgt T) :=
  let '(m, t) := s in
  let* x := at_idx chk (as_src t) j in
  if veqb O x (v0 O) then Ok (m, t)
  else
    let* m1 := (if R i j then m_apply O chk FAssign m i j x else Ok m) in
    let* t1 := apply_idx O chk FAssign t j (v0 O) in
    Ok (m1, t1).
Definition sp_outer_step (R : nat -> nat -> bool) (A B : mexp T) (s : mtg T * tgt T) (i : nat) : res (mtg T * tgt T) :=
  let '(m, t) := s in
  let* q := foldM (sp_row_step A B i) (e_row A i) (t, t_n t, 0) in
  let '(t, jb, je) := q in
  foldM (sp_flush_step R i) (seq jb (je + 1 - jb)) (m, t).
Definition sparse_row (R : nat -> nat -> bool) (A B : mexp T) (m : mtg T) : res (mtg T) :=
  let* s := foldM (sp_outer_step R A B) (e_rows A) (m, t_clear O (fresh (e_2 B))) in Ok (fst s).
(** Dispatchers: 163-205 *)
Definition sparse_prod (init : bool) (R : nat -> nat -> bool) (A B : mexp T) (m : mtg T) : res (mtg T) :=
  let* m := m_init init (e_1 A) (e_2 B) m in
  on_orient (g_or m) (sparse_row R) (sparse_row (flip R)) A B m.
End Kernels.
