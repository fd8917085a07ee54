(** AxpyLuModel.v -- model of axpy_lu_factorize, /repo/include/boost/numeric/ublas/lu.hpp:172-262, in
    both versions: the default one (work matrix mr, 187-218) and the one compiled under
    BOOST_UBLAS_LU_WITH_INPLACE_SOLVE (work matrices lr and ur, 219-253).  The debug-only block under
    BOOST_UBLAS_TYPE_CHECK is not modelled. *)
From Verif Require Import Base FieldLib LinStore LayoutModel TriModel NormModel LuModel.
Open Scope nat_scope.

Section Axpy.
Context {F R : Type} (O : fops F) (NO : nops F R).
(** [chk], [sck], [w] as in LuModel; [o]: the orientation of the matrix type. *)
Variables chk sck : bool.
Variable w : visit.
Variable o : layout.

(** project (mr, range (0, i), range (0, i)): matrix_proxy.hpp, matrix_range::operator () adds the
    starts, which are 0 here. *)
Definition lead_block (mr : mat F) (i : nat) : mexp F :=
  MExp i i (mat_at mr) (fun _ _ => true) CDense o.
(** project (column (m, i), range (0, i)). *)
Definition lead_column (m : mat F) (i : nat) : vec F := Vec i (fun k => mat_at m k i).

(** urr.assign (...): 193, 229: element k of the vector goes to mr (k, i). *)
Definition put_elem (i : nat) (u : vec F) (mr : mat F) (k : nat) : res (mat F) :=
  let* x := vrd chk u k in mwr chk mr k i x.
Definition put_lead (i : nat) (u : vec F) (mr : mat F) : res (mat F) :=
  foldM (put_elem i u) (upto 0 i) mr.

(** axpy_prod<vector_type> (project (mr, range (i, size1), range (0, i)), urr): operation.hpp:260-269
    (zero-initialised result), 204-209 and the kernels 124-152 (row-major) and 154-181 (column-major);
    a dense range is visited completely.  urr is column i of [um], rows 0 .. i-1. *)
Definition axpy_elem (lm um : mat F) (i r : nat) (v : vec F) (c : nat) : res (vec F) :=
  let* a := mrd chk lm (i + r) c in
  let* x := mrd chk um c i in
  let* t := vrd chk v r in
  vwr chk v r (fadd O t (fmul O a x)).
Definition axpy_row (lm um : mat F) (i : nat) (v : vec F) (r : nat) : res (vec F) :=
  foldM (axpy_elem lm um i r) (upto 0 i) v.
Definition axpy_elem' (lm um : mat F) (i c : nat) (v : vec F) (r : nat) : res (vec F) :=
  axpy_elem lm um i r v c.
Definition axpy_col (lm um : mat F) (i : nat) (v : vec F) (c : nat) : res (vec F) :=
  foldM (axpy_elem' lm um i c) (upto 0 (mn1 lm - i)) v.
Definition axpy_below (lm um : mat F) (i : nat) : res (vec F) :=
  let z := Vec (mn1 lm - i) (fun _ => f0 O) in
  match o with
  | RowMajor => foldM (axpy_row lm um i) (upto 0 (mn1 lm - i)) z
  | ColMajor => foldM (axpy_col lm um i) (upto 0 i) z
  end.

(** project (v, range (i, size1)).assign (project (column (m, i), range (i, size1)) - axpy_prod (...)):
    194-196, 231-233. *)
Definition resid_elem (i : nat) (m : mat F) (y : vec F) (v : vec F) (k : nat) : res (vec F) :=
  let* a := mrd chk m (i + k) i in
  let* b := vrd chk y k in
  vwr chk v (i + k) (fsub O a b).
Definition resid (i : nat) (m : mat F) (y v : vec F) : res (vec F) :=
  foldM (resid_elem i m y) (upto 0 (mn1 m - i)) v.

(** index_norm_inf (project (v, range (i, size1))): 197, 234. *)
Definition tail_exp (v : vec F) (i : nat) : vexp F :=
  VExp (vn v - i) (fun k => vat v (i + k)) (fun _ => true).

(** project (row (m, p), range (a, b)).swap (project (row (m, i), range (a, b))): 203, 211, 240, 248. *)
Definition row_swap_range (m : mat F) (p i a b : nat) : res (mat F) :=
  foldM (swap_elem chk p i) (upto a b) m.

(** project (column (mr, i), range (i + 1, size1)).assign (project (v, range (i + 1, size1)) / v (i)):
    207-208, 244-245. *)
Definition mult_elem (i : nat) (v : vec F) (mr : mat F) (r : nat) : res (mat F) :=
  let* x := vrd chk v r in
  let* d := vrd chk v i in
  mwr chk mr r i (fdiv O x d).
Definition put_mults (i : nat) (v : vec F) (mr : mat F) : res (mat F) :=
  foldM (mult_elem i v) (upto (i + 1) (mn1 mr)) mr.

(** Lines 197-215 (234-252): choice of the pivot, exchange, multipliers; state (m, pm, lm, v, singular),
    where lm is the matrix holding the multipliers (mr, or lr). *)
Definition pivot_part (i : nat) (m : mat F) (pm : vec nat) (lm : mat F) (v : vec F) (sing : nat)
  : res (mat F * vec nat * mat F * vec F * nat) :=
  let p := i + v_index_norm_inf NO w (tail_exp v i) in
  check chk (p <? mn1 m) external_logic ;;
  let* d := vrd chk v p in
  if negb (feqb O d (f0 O)) then
    let* s1 :=
      (if negb (p =? i) then
         let* pm1 := vwr chk pm i p in
         let* v1 := vswap chk v p i in
         let* m1 := row_swap_range m p i (i + 1) (mn2 m) in
         Ok (m1, pm1, v1)
       else
         (let* q := (if chk then vrd chk pm i else Ok p) in
          check chk (q =? p) external_logic ;;
          Ok (m, pm, v))) in
    let '(m1, pm1, v1) := s1 in
    let* lm1 := put_mults i v1 lm in
    let* lm2 := (if negb (p =? i) then row_swap_range lm1 p i 0 i else Ok lm1) in
    Ok (m1, pm1, lm2, v1, sing)
  else if sing =? 0 then Ok (m, pm, lm, v, i + 1)
  else Ok (m, pm, lm, v, sing).

(** One step of the default version: 190-217. *)
Definition axpy_lu_step (s : mat F * vec nat * mat F * vec F * nat) (i : nat)
  : res (mat F * vec nat * mat F * vec F * nat) :=
  let '(m, pm, mr, v, sing) := s in
  let* u := solve O chk sck (lead_block mr i) (lead_column m i) TUnitLower in
  let* mr1 := put_lead i u mr in
  let* y := axpy_below mr1 mr1 i in
  let* v1 := resid i m y v in
  let* s1 := pivot_part i m pm mr1 v1 sing in
  let '(m2, pm2, mr2, v2, sing2) := s1 in
  let* d := vrd chk v2 i in
  let* mr3 := mwr chk mr2 i i d in
  Ok (m2, pm2, mr3, v2, sing2).
(** axpy_lu_factorize (m, pm), default version; [junk] are the uninitialised elements of
    vector_type v (size1). *)
Definition axpy_lu_factorize (junk : nat -> F) (m : mat F) (pm : vec nat) : res (mat F * vec nat * nat) :=
  let* s := foldM axpy_lu_step (upto 0 (Nat.min (mn1 m) (mn2 m)))
              (m, pm, Mat (mn1 m) (mn2 m) (fun _ _ => f0 O), Vec (mn1 m) junk, 0) in
  let '(_, pm1, mr, _, sing) := s in Ok (mr, pm1, sing).

(** The version under BOOST_UBLAS_LU_WITH_INPLACE_SOLVE: 220-253.  inplace_solve (lrr, urr,
    unit_lower_tag ()) runs on the copy of the column in ur; state (m, pm, lr, ur, v, singular). *)
Definition axpy_lu_step2 (s : mat F * vec nat * mat F * mat F * vec F * nat) (i : nat)
  : res (mat F * vec nat * mat F * mat F * vec F * nat) :=
  let '(m, pm, lr, ur, v, sing) := s in
  let* ur1 := put_lead i (lead_column m i) ur in
  let* u := inplace_solve O chk sck (lead_block lr i) (lead_column ur1 i) TUnitLower in
  let* ur2 := put_lead i u ur1 in
  let* y := axpy_below lr ur2 i in
  let* v1 := resid i m y v in
  let* s1 := pivot_part i m pm lr v1 sing in
  let '(m2, pm2, lr2, v2, sing2) := s1 in
  let* d := vrd chk v2 i in
  let* ur3 := mwr chk ur2 i i d in
  Ok (m2, pm2, lr2, ur3, v2, sing2).
(** m.assign (triangular_adaptor<strict_lower> (lr) + triangular_adaptor<upper> (ur)): 254-255. *)
Definition axpy_lu_factorize2 (junk : nat -> F) (m : mat F) (pm : vec nat) : res (mat F * vec nat * nat) :=
  let* s := foldM axpy_lu_step2 (upto 0 (Nat.min (mn1 m) (mn2 m)))
              (m, pm, Mat (mn1 m) (mn2 m) (fun i j => if i =? j then f1 O else f0 O),
               Mat (mn1 m) (mn2 m) (fun _ _ => f0 O), Vec (mn1 m) junk, 0) in
  let '(_, pm1, lr, ur, _, sing) := s in
  Ok (Mat (mn1 m) (mn2 m)
        (fun i j => fadd O (if j <? i then mat_at lr i j else f0 O) (if i <=? j then mat_at ur i j else f0 O)),
      pm1, sing).
(** The preprocessor switch: [inplace] is BOOST_UBLAS_LU_WITH_INPLACE_SOLVE. *)
Definition axpy_lu (inplace : bool) := if inplace then axpy_lu_factorize2 else axpy_lu_factorize.
End Axpy.
