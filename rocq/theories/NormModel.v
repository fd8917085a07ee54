(** NormModel.v -- model of the reductions of a vector or matrix to a scalar: sum, norm_1,
    norm_2, norm_2_square, norm_inf, index_norm_inf
    (/repo/include/boost/numeric/ublas/functional.hpp:331-683, 1310-1389 and
    vector_expression.hpp:1503-1639). *)
From Verif Require Import Base LinStore.
Open Scope nat_scope.

(** The operations of the value type F and of its real_type R used by the functors; type_abs is
    also norm_1, norm_2 and norm_inf of a scalar, for real (traits.hpp:205-219) and for complex
    value types (traits.hpp:315-335). *)
Record nops (F R : Type) := NOps {
  n_f0 : F; n_fadd : F -> F -> F;
  n_0 : R; n_1 : R; n_add : R -> R -> R; n_mul : R -> R -> R; n_div : R -> R -> R;
  n_lt : R -> R -> bool; n_eqb : R -> R -> bool;
  n_sqrt : R -> R; n_abs : F -> R }.
Arguments NOps {F R} _ _ _ _ _ _ _ _ _ _ _.
Arguments n_f0 {F R} _. Arguments n_fadd {F R} _ _ _. Arguments n_0 {F R} _. Arguments n_1 {F R} _.
Arguments n_add {F R} _ _ _. Arguments n_mul {F R} _ _ _. Arguments n_div {F R} _ _ _.
Arguments n_lt {F R} _ _ _. Arguments n_eqb {F R} _ _ _. Arguments n_sqrt {F R} _ _.
Arguments n_abs {F R} _ _.

(** A constant vector expression: size, elements, and the positions its iterators visit. *)
Record vexp (F : Type) := VExp { x_n : nat; x_at : nat -> F; x_vis : nat -> bool }.
Arguments VExp {F} _ _ _. Arguments x_n {F} _. Arguments x_at {F} _ _. Arguments x_vis {F} _ _.

(** Iterator categories of the expression: vector_scalar_unary::evaluate,
    vector_expression.hpp:1537-1565.  [ByIndex] is functor_type::apply (e_), [ByIter] the dense
    apply (size, it), [ByRange] apply (it, it_end) for packed and sparse iterators. *)
Inductive visit := ByIndex | ByIter | ByRange.

(** The indices of the elements the kernel meets, in order. *)
Definition visited {F} (w : visit) (e : vexp F) : list nat :=
  match w with
  | ByIndex | ByIter => upto 0 (x_n e)
  | ByRange => filter (x_vis e) (upto 0 (x_n e))
  end.

Section Kernels.
Context {F R : Type} (O : nops F R).

(** vector_sum: functional.hpp:338-372. *)
Definition sum_step (e : vexp F) (t : F) (i : nat) : F := n_fadd O t (x_at e i).
Definition v_sum (w : visit) (e : vexp F) : F := fold_left (sum_step e) (visited w e) (n_f0 O).

(** vector_norm_1: 382-424 (the indexing version calls type_abs, the others norm_1, which is
    type_abs). *)
Definition norm1_step (e : vexp F) (t : R) (i : nat) : R := n_add O t (n_abs O (x_at e i)).
Definition v_norm_1 (w : visit) (e : vexp F) : R := fold_left (norm1_step e) (visited w e) (n_0 O).

(** vector_norm_2_square: 525-568. *)
Definition sq_step (e : vexp F) (t : R) (i : nat) : R :=
  let u := n_abs O (x_at e i) in n_add O t (n_mul O u u).
Definition v_norm_2_square (w : visit) (e : vexp F) : R := fold_left (sq_step e) (visited w e) (n_0 O).

(** vector_norm_2, default build: 438-444, 467-474, 497-504. *)
Definition v_norm_2 (w : visit) (e : vexp F) : R := n_sqrt O (v_norm_2_square w e).

(** vector_norm_2 with BOOST_UBLAS_SCALED_NORM: 445-461 (indexing, zeros are skipped), 475-491 and
    505-521 (iterators, zeros are not skipped).  State: (scale, sum_squares).  A division by zero
    (NaN for floating point) is [UB]. *)
Definition rdiv (x y : R) : res R := if n_eqb O y (n_0 O) then UB else Ok (n_div O x y).
Definition scaled_step (skip_zero : bool) (e : vexp F) (s : R * R) (i : nat) : res (R * R) :=
  let '(scale, ss) := s in
  let u := n_abs O (x_at e i) in
  if skip_zero && n_eqb O u (n_0 O) then Ok (scale, ss)
  else if n_lt O scale u then
    let* v := rdiv scale u in
    Ok (u, n_add O (n_mul O (n_mul O ss v) v) (n_1 O))
  else
    let* v := rdiv u scale in
    Ok (scale, n_add O ss (n_mul O v v)).
Definition v_scaled (w : visit) (e : vexp F) : res (R * R) :=
  foldM (scaled_step (match w with ByIndex => true | _ => false end) e) (visited w e) (n_0 O, n_1 O).
Definition v_norm_2_scaled (w : visit) (e : vexp F) : res R :=
  let* s := v_scaled w e in Ok (n_mul O (fst s) (n_sqrt O (snd s))).

(** vector_norm_inf: 570-615; [u > t] is [t < u]. *)
Definition inf_step (e : vexp F) (t : R) (i : nat) : R :=
  let u := n_abs O (x_at e i) in if n_lt O t u then u else t.
Definition v_norm_inf (w : visit) (e : vexp F) : R := fold_left (inf_step e) (visited w e) (n_0 O).

(** vector_index_norm_inf: 626-682.  State: (i_norm_inf, t). *)
Definition index_step (e : vexp F) (s : nat * R) (i : nat) : nat * R :=
  let u := n_abs O (x_at e i) in if n_lt O (snd s) u then (i, u) else s.
Definition v_index_norm_inf (w : visit) (e : vexp F) : nat :=
  fst (fold_left (index_step e) (visited w e) (0, n_0 O)).

(** matrix_norm_1: 1316-1341; A is the element access, indexing only. *)
Definition m_colsum (n1 : nat) (A : nat -> nat -> F) (j : nat) : R :=
  fold_left (fun u i => n_add O u (n_abs O (A i j))) (upto 0 n1) (n_0 O).
Definition m_norm_1 (n1 n2 : nat) (A : nat -> nat -> F) : R :=
  fold_left (fun t j => let u := m_colsum n1 A j in if n_lt O t u then u else t) (upto 0 n2) (n_0 O).
(** matrix_norm_inf: 1367-1392. *)
Definition m_rowsum (n2 : nat) (A : nat -> nat -> F) (i : nat) : R :=
  fold_left (fun u j => n_add O u (n_abs O (A i j))) (upto 0 n2) (n_0 O).
Definition m_norm_inf (n1 n2 : nat) (A : nat -> nat -> F) : R :=
  fold_left (fun t i => let u := m_rowsum n2 A i in if n_lt O t u then u else t) (upto 0 n1) (n_0 O).
(** matrix_norm_frobenius: 1343-1365. *)
Definition m_norm_frobenius (n1 n2 : nat) (A : nat -> nat -> F) : R :=
  n_sqrt O (fold_left (fun t i => fold_left (fun t j => let u := n_abs O (A i j) in n_add O t (n_mul O u u))
                                   (upto 0 n2) t) (upto 0 n1) (n_0 O)).
End Kernels.
