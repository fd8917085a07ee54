(** LuModel.v -- model of /repo/include/boost/numeric/ublas/lu.hpp: permutation_matrix, swap_rows,
    lu_factorize, lu_substitute.  The debug-only blocks under BOOST_UBLAS_TYPE_CHECK (which
    recompute the product and compare it up to a tolerance) are not modelled. *)
From Verif Require Import Base FieldLib LinStore LayoutModel TriModel NormModel.
Open Scope nat_scope.

(** permutation_matrix (size): lu.hpp:39-45, a vector of indices initialised with the identity. *)
Definition permutation_matrix (size : nat) : vec nat := Vec size (fun i => i).

Section Lu.
Context {F R : Type} (O : fops F) (NO : nops F R).
(** [chk]: BOOST_UBLAS_CHECK_ENABLE; [sck]: BOOST_UBLAS_SINGULAR_CHECK; [w]: which kernel
    index_norm_inf uses for a dense column (by index or by iterator, see NormModel). *)
Variables chk sck : bool.
Variable w : visit.

(** std::swap (mv (i), mv (j)). *)
Definition vswap {X} (v : vec X) (i j : nat) : res (vec X) :=
  let* a := vrd chk v i in
  let* b := vrd chk v j in
  let* v1 := vwr chk v i b in
  vwr chk v1 j a.

(** swap_rows (pm, mv, vector_tag): lu.hpp:62-72. *)
Definition swap_rows_step {X} (pm : vec nat) (v : vec X) (i : nat) : res (vec X) :=
  let* p := vrd chk pm i in
  if i =? p then Ok v else vswap v i p.
Definition swap_rows_vec {X} (pm : vec nat) (v : vec X) : res (vec X) :=
  foldM (swap_rows_step pm) (upto 0 (vn pm)) v.

(** row (m, i).swap (row (m, j)): matrix_proxy.hpp, matrix_row::swap -> vector_swap<scalar_swap>
    (detail/vector_assign.hpp:478-494, dense case): exchange element by element. *)
Definition swap_elem {X} (i j : nat) (m : mat X) (k : nat) : res (mat X) :=
  let* a := mrd chk m i k in
  let* b := mrd chk m j k in
  let* m1 := mwr chk m i k b in
  mwr chk m1 j k a.
Definition row_swap {X} (m : mat X) (i j : nat) : res (mat X) :=
  foldM (swap_elem i j) (upto 0 (mn2 m)) m.

(** swap_rows (pm, mv, matrix_tag): lu.hpp:73-83. *)
Definition swap_mrows_step {X} (pm : vec nat) (m : mat X) (i : nat) : res (mat X) :=
  let* p := vrd chk pm i in
  if i =? p then Ok m else row_swap m i p.
Definition swap_rows_mat {X} (pm : vec nat) (m : mat X) : res (mat X) :=
  foldM (swap_mrows_step pm) (upto 0 (vn pm)) m.

(** project (mci, range (i + 1, size1)) *= m_inv: lu.hpp:111, 155. *)
Definition scale_elem (i : nat) (c : F) (m : mat F) (r : nat) : res (mat F) :=
  let* y := mrd chk m r i in
  mwr chk m r i (fmul O y c).
Definition scale_col (i : nat) (c : F) (m : mat F) : res (mat F) :=
  foldM (scale_elem i c) (upto (i + 1) (mn1 m)) m.

(** project (m, range (i + 1, size1), range (i + 1, size2)).minus_assign (outer_prod (column i,
    row i)): lu.hpp:115-117, 159-161.  Row by row (for column-major targets the library runs
    column by column; no element is read that the loop writes). *)
Definition rank1_elem (i a : nat) (m : mat F) (b : nat) : res (mat F) :=
  let* x := mrd chk m a i in
  let* y := mrd chk m i b in
  let* z := mrd chk m a b in
  mwr chk m a b (fsub O z (fmul O x y)).
Definition rank1_row (i : nat) (m : mat F) (a : nat) : res (mat F) :=
  foldM (rank1_elem i a) (upto (i + 1) (mn2 m)) m.
Definition rank1 (i : nat) (m : mat F) : res (mat F) :=
  foldM (rank1_row i) (upto (i + 1) (mn1 m)) m.

(** lu_factorize (m): lu.hpp:91-126; state (m, singular). *)
Definition lu_step (s : mat F * nat) (i : nat) : res (mat F * nat) :=
  let '(m, sing) := s in
  let* p := mrd chk m i i in
  let* s1 :=
    (if negb (feqb O p (f0 O)) then
       let* m1 := scale_col i (fdiv O (f1 O) p) m in Ok (m1, sing)
     else if sing =? 0 then Ok (m, i + 1)
     else Ok (m, sing)) in
  let '(m1, sing1) := s1 in
  let* m2 := rank1 i m1 in
  Ok (m2, sing1).
Definition lu_factorize (m : mat F) : res (mat F * nat) :=
  foldM lu_step (upto 0 (Nat.min (mn1 m) (mn2 m))) (m, 0).

(** index_norm_inf (project (mci, range (i, size1))): the sub-column below the diagonal. *)
Definition sub_column (m : mat F) (i : nat) : vexp F :=
  VExp (mn1 m - i) (fun k => mat_at m (i + k) i) (fun _ => true).

(** lu_factorize (m, pm): lu.hpp:128-170; state (m, pm, singular). *)
Definition lup_step (s : mat F * vec nat * nat) (i : nat) : res (mat F * vec nat * nat) :=
  let '(m, pm, sing) := s in
  let i_norm_inf := i + v_index_norm_inf NO w (sub_column m i) in
  check chk (i_norm_inf <? mn1 m) external_logic ;;
  let* p := mrd chk m i_norm_inf i in
  let* s1 :=
    (if negb (feqb O p (f0 O)) then
       let* s2 :=
         (if negb (i_norm_inf =? i) then
            let* pm1 := vwr chk pm i i_norm_inf in
            let* m1 := row_swap m i_norm_inf i in
            Ok (m1, pm1)
          else
            (let* q := (if chk then vrd chk pm i else Ok i_norm_inf) in
             check chk (q =? i_norm_inf) external_logic ;;
             Ok (m, pm))) in
       let '(m1, pm1) := s2 in
       let* d := mrd chk m1 i i in
       let* m2 := scale_col i (fdiv O (f1 O) d) m1 in
       Ok (m2, pm1, sing)
     else if sing =? 0 then Ok (m, pm, i + 1)
     else Ok (m, pm, sing)) in
  let '(m1, pm1, sing1) := s1 in
  let* m2 := rank1 i m1 in
  Ok (m2, pm1, sing1).
Definition lu_factorize_pivot (m : mat F) (pm : vec nat) : res (mat F * vec nat * nat) :=
  foldM lup_step (upto 0 (Nat.min (mn1 m) (mn2 m))) (m, pm, 0).

(** A dense matrix as the argument of the triangular solvers. *)
Definition dense_exp (o : layout) (m : mat F) : mexp F :=
  MExp (mn1 m) (mn2 m) (mat_at m) (fun _ _ => true) CDense o.

(** lu_substitute (m, e): lu.hpp:264-300 (vector and matrix right-hand sides). *)
Definition lu_substitute (o : layout) (m : mat F) (b : vec F) : res (vec F) :=
  let* y := inplace_solve O chk sck (dense_exp o m) b TUnitLower in
  inplace_solve O chk sck (dense_exp o m) y TUpper.
Definition lu_substitute_mat (o : layout) (m : mat F) (b : mat F) : res (mat F) :=
  let* y := inplace_solve_mat O chk sck (dense_exp o m) b TUnitLower in
  inplace_solve_mat O chk sck (dense_exp o m) y TUpper.
(** lu_substitute (m, pm, mv): lu.hpp:301-305. *)
Definition lu_substitute_pm (o : layout) (m : mat F) (pm : vec nat) (b : vec F) : res (vec F) :=
  let* b1 := swap_rows_vec pm b in lu_substitute o m b1.
Definition lu_substitute_pm_mat (o : layout) (m : mat F) (pm : vec nat) (b : mat F) : res (mat F) :=
  let* b1 := swap_rows_mat pm b in lu_substitute_mat o m b1.
(** lu_substitute (e, m): lu.hpp:306-323 (vector from the left; the matrix version 324-341 calls a
    non-existent inplace_solve (matrix, matrix) overload and cannot be instantiated). *)
Definition lu_substitute_left (o : layout) (b : vec F) (m : mat F) : res (vec F) :=
  let* y := inplace_solve_left O chk sck b (dense_exp o m) TUpper in
  inplace_solve_left O chk sck y (dense_exp o m) TUnitLower.
(** lu_substitute (mv, m, pm): lu.hpp:342-346. *)
Definition lu_substitute_left_pm (o : layout) (b : vec F) (m : mat F) (pm : vec nat) : res (vec F) :=
  let* b1 := swap_rows_vec pm b in lu_substitute_left o b1 m.
End Lu.
