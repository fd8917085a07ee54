(** TriModel.v -- model of the triangular solvers,
    /repo/include/boost/numeric/ublas/triangular.hpp:2012-2775. *)
From Verif Require Import Base FieldLib LinStore LayoutModel.
Open Scope nat_scope.

(** Storage categories as the solver overloads see them (fwd.hpp:33-60): dense_proxy_tag (and
    dense_tag), packed_proxy_tag (and packed_tag), everything else ends in the
    unknown_storage_tag overload (sparse_proxy_tag, sparse_tag, unknown). *)
Inductive scat := CDense | CPacked | CSparse.

(** A constant matrix expression: sizes, element access, and what its iterators visit.
    [e_vis e i j] says that the position (i,j) is visited by the iterators (stored, for sparse
    and packed matrices; always, for dense ones).  Simplification: iterators are represented by
    the increasing sequence of visited indices, see [col_its], [row_its]; for the triangular
    types this is the content of theorems C39. *)
Record mexp (F : Type) := MExp {
  e_1 : nat; e_2 : nat; e_at : nat -> nat -> F; e_vis : nat -> nat -> bool;
  e_cat : scat; e_or : layout }.
Arguments MExp {F} _ _ _ _ _ _.
Arguments e_1 {F} _. Arguments e_2 {F} _. Arguments e_at {F} _ _ _. Arguments e_vis {F} _ _ _.
Arguments e_cat {F} _. Arguments e_or {F} _.

Definition erd {F} (chk : bool) (e : mexp F) (i j : nat) : res F :=
  if (i <? e_1 e) && (j <? e_2 e) then Ok (e_at e i j) else if chk then Throw bad_index else UB.

(** Row indices visited between find1 (1, a, j) and find1 (1, b, j). *)
Definition col_its {F} (e : mexp F) (j a b : nat) : list nat :=
  filter (fun i => e_vis e i j) (upto a b).
(** Column indices visited between find2 (1, i, a) and find2 (1, i, b). *)
Definition row_its {F} (e : mexp F) (i a b : nat) : list nat :=
  filter (fun j => e_vis e i j) (upto a b).

(** triangular.hpp:41-190 of functional.hpp / fwd.hpp:110-140: the four tags of the solvers. *)
Inductive ttag := TLower | TUnitLower | TUpper | TUnitUpper.

(** triangular_adaptor<const E1, unit_lower> (e1): triangular.hpp:1055-1300.  Element access
    1120-1142; storage category 1082-1083 (dense becomes packed, sparse stays sparse); find1/find2
    1258-1300 restrict the range to the triangle (see C39) and iterate the adapted matrix.
    Simplification: the iterators of the unit adaptors also meet the diagonal when the adapted
    matrix visits it; the solvers never iterate over the diagonal. *)
Definition acat (c : scat) : scat := match c with CDense => CPacked | _ => c end.
Definition unit_lower_adaptor {F} (O : fops F) (e : mexp F) : mexp F :=
  MExp (e_1 e) (e_2 e)
    (fun i j => if j <? i then e_at e i j else if i =? j then f1 O else f0 O)
    (fun i j => e_vis e i j && (j <=? i)) (acat (e_cat e)) (e_or e).
Definition unit_upper_adaptor {F} (O : fops F) (e : mexp F) : mexp F :=
  MExp (e_1 e) (e_2 e)
    (fun i j => if i <? j then e_at e i j else if i =? j then f1 O else f0 O)
    (fun i j => e_vis e i j && (i <=? j)) (acat (e_cat e)) (e_or e).

(** trans (e): matrix_expression.hpp, matrix_unary2 with scalar_identity: transposed element
    access; iterator1 is the iterator2 of the argument and conversely. *)
Definition flip (l : layout) : layout := match l with RowMajor => ColMajor | ColMajor => RowMajor end.
Definition etrans {F} (e : mexp F) : mexp F :=
  MExp (e_2 e) (e_1 e) (fun i j => e_at e j i) (fun i j => e_vis e j i) (e_cat e) (flip (e_or e)).

Section Kernels.
Context {F : Type} (O : fops F).
(** [chk]: BOOST_UBLAS_CHECK_ENABLE; [sck]: BOOST_UBLAS_SINGULAR_CHECK defined. *)
Variables chk sck : bool.

(** 2046-2051 and every other kernel: the test of the pivot. *)
Definition pivot_check (a : F) : res unit :=
  if (chk || sck) && feqb O a (f0 O) then Throw singular else Ok tt.

(** e2 () (m) -= e1 () (m, n) * t. *)
Definition sub_at (e : mexp F) (n : nat) (t : F) (x : vec F) (m : nat) : res (vec F) :=
  let* y := vrd chk x m in
  let* a := erd chk e m n in
  vwr chk x m (fsub O y (fmul O a t)).

(** t -= e1 () (n, m) * e2 () (m). *)
Definition acc_at (e : mexp F) (x : vec F) (n : nat) (t : F) (m : nat) : res F :=
  let* a := erd chk e n m in
  let* y := vrd chk x m in
  Ok (fsub O t (fmul O a y)).

(** Body of the column-oriented kernels, e.g. 2045-2057: divide by the pivot, then subtract the
    multiples of column n at the row indices [its]. *)
Definition col_step (e : mexp F) (its : nat -> list nat) (x : vec F) (n : nat) : res (vec F) :=
  let* p := erd chk e n n in
  pivot_check p ;;
  let* y := vrd chk x n in
  let t := fdiv O y p in
  let* x1 := vwr chk x n t in
  if feqb O t (f0 O) then Ok x1 else foldM (sub_at e n t) (its n) x1.

(** Body of the row-oriented kernels, e.g. 2154-2167. *)
Definition row_step (e : mexp F) (its : nat -> list nat) (x : vec F) (n : nat) : res (vec F) :=
  let* p := erd chk e n n in
  pivot_check p ;;
  let* y := vrd chk x n in
  let* t := foldM (acc_at e x n) (its n) y in
  vwr chk x n (fdiv O t p).

Definition sizes_ok (e : mexp F) (n : nat) : res unit :=
  check chk (e_1 e =? e_2 e) bad_size ;;
  check chk (e_2 e =? n) bad_size.

(** inplace_solve (e1, e2, lower_tag, column_major_tag, .): 2035-2058 dense, 2059-2087 packed,
    2088-2114 sparse. *)
Definition lower_col (c : scat) (e : mexp F) (x : vec F) : res (vec F) :=
  sizes_ok e (vn x) ;;
  let size := vn x in
  foldM (col_step e (fun n => match c with
                              | CDense => upto (n + 1) size
                              | _ => col_its e n (n + 1) (e_1 e) end)) (upto 0 size) x.

(** inplace_solve (e1, e2, lower_tag, row_major_tag, .): 2116-2140 dense (the column algorithm),
    2141-2169 packed, 2170-2197 sparse. *)
Definition lower_row (c : scat) (e : mexp F) (x : vec F) : res (vec F) :=
  sizes_ok e (vn x) ;;
  let size := vn x in
  match c with
  | CDense => foldM (col_step e (fun n => upto (n + 1) size)) (upto 0 size) x
  | _ => foldM (row_step e (fun n => row_its e n 0 n)) (upto 0 size) x
  end.

(** inplace_solve (e1, e2, upper_tag, column_major_tag, .): 2233-2259 dense, 2260-2288 packed,
    2289-2317 sparse. *)
Definition upper_col (c : scat) (e : mexp F) (x : vec F) : res (vec F) :=
  sizes_ok e (vn x) ;;
  let size := vn x in
  foldM (col_step e (fun n => match c with
                              | CDense => downto 0 n
                              | _ => rev (col_its e n 0 n) end)) (downto 0 size) x.

(** inplace_solve (e1, e2, upper_tag, row_major_tag, .): 2318-2344 dense, 2345-2374 packed,
    2375-2404 sparse.  The outer bound is e1.size1 () here. *)
Definition upper_row (c : scat) (e : mexp F) (x : vec F) : res (vec F) :=
  sizes_ok e (vn x) ;;
  let size := e_1 e in
  foldM (row_step e (fun n => match c with
                              | CDense => upto (n + 1) (e_2 e)
                              | _ => row_its e n (n + 1) (e_2 e) end)) (downto 0 size) x.

(** Redirectors 2199-2214, 2406-2421. *)
Definition lower_or (o : layout) (c : scat) (e : mexp F) (x : vec F) :=
  match o with ColMajor => lower_col c e x | RowMajor => lower_row c e x end.
Definition upper_or (o : layout) (c : scat) (e : mexp F) (x : vec F) :=
  match o with ColMajor => upper_col c e x | RowMajor => upper_row c e x end.

(** inplace_solve (e1, e2, tag): dispatchers 2215-2231, 2422-2438. *)
Definition inplace_solve (e : mexp F) (x : vec F) (tag : ttag) : res (vec F) :=
  match tag with
  | TLower => lower_or (e_or e) (e_cat e) e x
  | TUnitLower => let e' := unit_lower_adaptor O e in lower_or (e_or e) (e_cat e') e' x
  | TUpper => upper_or (e_or e) (e_cat e) e x
  | TUnitUpper => let e' := unit_upper_adaptor O e in upper_or (e_or e) (e_cat e') e' x
  end.

(** solve (e1, e2, tag): 2440-2449; the temporary r (e2) is a copy. *)
Definition solve (e : mexp F) (b : vec F) (tag : ttag) : res (vec F) := inplace_solve e b tag.

(** inplace_solve (e1 vector, e2 matrix, tag): redirectors and dispatchers 2452-2522. *)
Definition left_lower_or (o : layout) (e : mexp F) (x : vec F) :=
  match o with
  | RowMajor => upper_col (e_cat e) (etrans e) x
  | ColMajor => upper_row (e_cat e) (etrans e) x
  end.
Definition left_upper_or (o : layout) (e : mexp F) (x : vec F) :=
  match o with
  | RowMajor => lower_col (e_cat e) (etrans e) x
  | ColMajor => lower_row (e_cat e) (etrans e) x
  end.
Definition inplace_solve_left (x : vec F) (e : mexp F) (tag : ttag) : res (vec F) :=
  match tag with
  | TLower => left_lower_or (e_or e) e x
  | TUnitLower => left_lower_or (e_or e) (unit_lower_adaptor O e) x
  | TUpper => left_upper_or (e_or e) e x
  | TUnitUpper => left_upper_or (e_or e) (unit_upper_adaptor O e) x
  end.

(** e2 () (m, l) -= e1 () (m, n) * t. *)
Definition msub_at (e : mexp F) (n l : nat) (t : F) (x : mat F) (m : nat) : res (mat F) :=
  let* y := mrd chk x m l in
  let* a := erd chk e m n in
  mwr chk x m l (fsub O y (fmul O a t)).

(** 2561-2567: one right-hand side l. *)
Definition mrhs_step (e : mexp F) (n : nat) (its : list nat) (p : F) (x : mat F) (l : nat) : res (mat F) :=
  let* y := mrd chk x n l in
  let t := fdiv O y p in
  let* x1 := mwr chk x n l t in
  if feqb O t (f0 O) then Ok x1 else foldM (msub_at e n l t) its x1.

Definition mcol_step (e : mexp F) (its : nat -> list nat) (ls : list nat) (x : mat F) (n : nat) : res (mat F) :=
  let* p := erd chk e n n in
  pivot_check p ;;
  foldM (mrhs_step e n (its n) p) ls x.

(** inplace_solve (e1, matrix e2, lower_tag, .): 2544-2571 dense, 2572-2603 packed, 2604-2633
    sparse. *)
Definition mlower (c : scat) (e : mexp F) (x : mat F) : res (mat F) :=
  sizes_ok e (mn1 x) ;;
  let size1 := mn1 x in
  foldM (mcol_step e (fun n => match c with
                               | CDense => upto (n + 1) size1
                               | _ => col_its e n (n + 1) (e_1 e) end) (upto 0 (mn2 x)))
    (upto 0 size1) x.

(** inplace_solve (e1, matrix e2, upper_tag, .): 2652-2680 dense, 2681-2712 packed, 2713-2743
    sparse. *)
Definition mupper (c : scat) (e : mexp F) (x : mat F) : res (mat F) :=
  sizes_ok e (mn1 x) ;;
  let size1 := mn1 x in
  foldM (mcol_step e (fun n => match c with
                               | CDense => downto 0 n
                               | _ => rev (col_its e n 0 n) end) (downto 0 (mn2 x)))
    (downto 0 size1) x.

(** Dispatchers 2634-2650, 2744-2760: for the unit tags the storage category passed on is that of
    the original matrix. *)
Definition inplace_solve_mat (e : mexp F) (x : mat F) (tag : ttag) : res (mat F) :=
  match tag with
  | TLower => mlower (e_cat e) e x
  | TUnitLower => mlower (e_cat e) (unit_lower_adaptor O e) x
  | TUpper => mupper (e_cat e) e x
  | TUnitUpper => mupper (e_cat e) (unit_upper_adaptor O e) x
  end.
(** solve (e1, matrix e2, tag): 2762-2771. *)
Definition solve_mat (e : mexp F) (b : mat F) (tag : ttag) : res (mat F) := inplace_solve_mat e b tag.
End Kernels.
