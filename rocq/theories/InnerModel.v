(** InnerModel.v -- model of the inner-product kernels: vector_inner_prod, matrix_vector_prod1,
    matrix_vector_prod2, matrix_matrix_prod (/repo/include/boost/numeric/ublas/functional.hpp:693-1300)
    and the dispatch to them (vector_expression.hpp:1641-1717, matrix_expression.hpp:4014-4190,
    4422-4600, 4828-5060).  The BOOST_UBLAS_USE_SIMD / HAVE_BINDINGS branches are not modelled.

    A row (column) of a matrix expression, as visited by the iterator2 (iterator1) range of one of
    its rows (columns), is a [src] like a vector. *)
From Verif Require Import Base AssignModel.
Open Scope nat_scope.

(** iterator_restrict_traits: traits.hpp:528-564 *)
Definition restrict (a b : icat) : icat :=
  match a, b with
  | ISparse, _ | _, ISparse => ISparse
  | IDense, IDense => IDense
  | _, _ => IPacked
  end.

Section Kernels.
Context {T : Type} (O : vops T).
Variable chk : bool.

(** t += x * y *)
Definition mac (t x y : T) : T := vadd O t (vmul O x y).

(** apply (e1, e2) by indices: functional.hpp:733-748, 881-896, 1032-1047, 1205-1220.  An index outside
    the smaller operand is undefined behaviour. *)
Definition at_idx (e : src T) (i : nat) : res T :=
  if i <? s_n e then Ok (s_at e i) else if chk then Throw bad_index else UB.
Definition idx_step (e1 e2 : src T) (t : T) (i : nat) : res T :=
  let* x := at_idx e1 i in
  let* y := at_idx e2 i in
  Ok (mac t x y).
Definition ip_index (e1 e2 : src T) : res T :=
  let* size := same_size chk (s_n e1) (s_n e2) in
  foldM (idx_step e1 e2) (seq 0 size) (v0 O).

(** while (-- size >= 0) t += *it1 * *it2, ++ it1, ++ it2 *)
Fixpoint ip_run (e1 e2 : src T) (n : nat) (it1 it2 : list nat) (t : T) : res T :=
  match n with
  | 0 => Ok t
  | S n => match it1, it2 with
           | i :: it1, j :: it2 => ip_run e1 e2 n it1 it2 (mac t (s_at e1 i) (s_at e2 j))
           | _, _ => UB
           end
  end.
(** Dense case: 750-761, 898-909, 1049-1060, 1222-1233 *)
Definition ip_dense (e1 e2 : src T) : res T :=
  let* size := same_size chk (s_n e1) (s_n e2) in
  ip_run e1 e2 size (s_its e1) (s_its e2) (v0 O).

(** Packed case: 763-791, 911-938, 1062-1089, 1235-1262 *)
Definition ip_packed (e1 e2 : src T) : res T :=
  let it1 := s_its e1 in
  let it2 := s_its e2 in
  let it1_size := Z.of_nat (length it1) in
  let it2_size := Z.of_nat (length it2) in
  let diff := if ((0 <? it1_size) && (0 <? it2_size))%Z then zdiff it2 it1 else 0%Z in
  let '(it1, it1_size, it2, it2_size) :=
    if (negb (diff =? 0))%Z then
      let size := Z.min diff it1_size in
      let '(it1, it1_size, diff) :=
        if (0 <? size)%Z then (skipn (Z.to_nat size) it1, (it1_size - size)%Z, (diff - size)%Z)
        else (it1, it1_size, diff) in
      let size := Z.min (- diff) it2_size in
      let '(it2, it2_size) :=
        if (0 <? size)%Z then (skipn (Z.to_nat size) it2, (it2_size - size)%Z) else (it2, it2_size) in
      (it1, it1_size, it2, it2_size)
    else (it1, it1_size, it2, it2_size) in
  ip_run e1 e2 (Z.to_nat (Z.min it1_size it2_size)) it1 it2 (v0 O).

(** Sparse case: 793-817, 940-971, 1091-1122, 1264-1296 *)
Fixpoint ip_merge (fuel : nat) (c1 c2 : icat) (e1 e2 : src T) (it1 it2 : list nat) (t : T) : res T :=
  match it1, it2 with
  | i :: it1', j :: it2' =>
      match fuel with
      | 0 => UB
      | S fuel =>
          if i =? j then ip_merge fuel c1 c2 e1 e2 it1' it2' (mac t (s_at e1 i) (s_at e2 j))
          else if i <? j then ip_merge fuel c1 c2 e1 e2 (increment c1 it1 (j - i)) it2 t
          else ip_merge fuel c1 c2 e1 e2 it1 (increment c2 it2 (i - j)) t
      end
  | _, _ => Ok t
  end.
Definition ip_sparse (e1 e2 : src T) : res T :=
  ip_merge (length (s_its e1) + length (s_its e2)) (s_cat e1) (s_cat e2) e1 e2 (s_its e1) (s_its e2) (v0 O).

(** Sparse times random access: 973-984 (and 1136-1147): run over the sparse operand, index the other;
    random access times sparse: 986-997 (and 1124-1135). *)
Definition ip_sparse_packed (e1 e2 : src T) : res T :=
  foldM (fun t i => let* y := at_idx e2 i in Ok (mac t (s_at e1 i) y)) (s_its e1) (v0 O).
Definition ip_packed_sparse (e1 e2 : src T) : res T :=
  foldM (fun t j => let* x := at_idx e1 j in Ok (mac t x (s_at e2 j))) (s_its e2) (v0 O).

(** vector_scalar_binary::evaluate: vector_expression.hpp:1682-1714.  [iterating]: the choice made by
    BOOST_UBLAS_USE_INDEXING / USE_ITERATING / ITERATOR_THRESHOLD. *)
Definition inner_prod (iterating : bool) (e1 e2 : src T) : res T :=
  check chk (s_n e1 =? s_n e2) external_logic ;;
  match restrict (s_cat e1) (s_cat e2) with
  | IDense => if iterating then ip_dense e1 e2 else ip_index e1 e2
  | IPacked => ip_packed e1 e2
  | ISparse => ip_sparse e1 e2
  end.

(** Element of prod (A, x) or prod (x, A) read through an iterator:
    matrix_vector_binary1::const_iterator::dereference, matrix_expression.hpp:4135-4196 (4541-4602 for
    binary2) with the second dispatcher of the functors (functional.hpp:999-1006, 1149-1156).  e1 is
    row i of A and e2 is x (or e1 is x and e2 is column j of A). *)
Definition mv_deref (iterating : bool) (e1 e2 : src T) : res T :=
  match restrict (s_cat e1) (s_cat e2) with
  | IDense => if iterating then ip_dense e1 e2 else ip_index e1 e2
  | IPacked => ip_packed e1 e2
  | ISparse => match s_cat e1, s_cat e2 with
               | ISparse, ISparse => ip_sparse e1 e2
               | ISparse, _ => ip_sparse_packed e1 e2
               | _, _ => ip_packed_sparse e1 e2
               end
  end.
(** Element of prod (A, B): matrix_matrix_binary iterators, matrix_expression.hpp:4993-5055. *)
Definition mm_deref (iterating : bool) (e1 e2 : src T) : res T :=
  match restrict (s_cat e1) (s_cat e2) with
  | IDense => if iterating then ip_dense e1 e2 else ip_index e1 e2
  | IPacked => ip_packed e1 e2
  | ISparse => ip_sparse e1 e2
  end.
(** operator () (i) of the product expressions: matrix_expression.hpp:4066, 4472, 4885. *)
Definition prod_at (e1 e2 : src T) : res T := ip_index e1 e2.
End Kernels.
