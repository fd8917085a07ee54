(** TensorApi.v -- model of the public tensor functions: prod (ttv, ttm, ttt), inner_prod,
    outer_prod, trans, reshape, comparison and expression evaluation.
    Paths below are relative to /repo/include/boost/numeric/ublas/tensor/. *)
From Verif Require Import Base TensorModel.
Open Scope nat_scope.

(** ::operator!= of two extents objects: extents/extents_functions.hpp:197-206 (both of static rank:
    [if constexpr (m == n) return false]) and 216-222 (otherwise). *)
Inductive rank_kind := DynamicRank | StaticRank.
Fixpoint ext_eqb (e f : list nat) : bool :=
  match e, f with
  | [], [] => true
  | x :: e', y :: f' => (x =? y) && ext_eqb e' f'
  | _, _ => false
  end.
Definition ext_neq (k : rank_kind) (e f : list nat) : bool :=
  match k with
  | StaticRank => if length e =? length f then false else negb (ext_eqb e f)
  | DynamicRank => negb (ext_eqb e f)
  end.

Definition empty {V} (t : tensor V) : bool := match t_buf t with [] => true | _ => false end.

Section Api.
Context {V : Type} (O : tops V).

(** [v.at (i)] of std::vector / std::array. *)
Definition at_ (l : list nat) (i : nat) : res nat :=
  match nth_error l i with Some x => Ok x | None => Throw std_out_of_range end.
Definition put_at (l : list nat) (i : nat) (x : nat) : res (list nat) :=
  if i <? length l then Ok (upd i x l) else Throw std_out_of_range.
(** [v.at (t - 1)] with an unsigned t: t = 0 wraps to 2^64 - 1, which no vector reaches. *)
Definition at1 (l : list nat) (t : nat) : res nat :=
  match t with 0 => Throw std_out_of_range | S i => at_ l i end.
Definition put_at1 (l : list nat) (t : nat) (x : nat) : res (list nat) :=
  match t with 0 => Throw std_out_of_range | S i => put_at l i x end.

(** The loop that copies the extents except number m: function/tensor_times_vector.hpp:89-91. *)
Definition ttv_ext_step (m : nat) (na : list nat) (s : list nat * nat) (i : nat)
  : res (list nat * nat) :=
  if i =? m - 1 then Ok s
  else let* x := at_ na i in
       let* nc := wrn (fst s) (snd s) x in
       Ok (nc, S (snd s)).
Definition ttv_ext (m : nat) (na : list nat) : res (list nat) :=
  let p := length na in
  let* s := foldM (ttv_ext_step m na) (seq 0 p) (repeat 1 (Nat.max (p - 1) 2), 0) in
  Ok (fst s).

(** prod (a, b, m), tensor times vector: function/tensor_times_vector.hpp:63-108 (dynamic rank)
    and 139-185 (static rank).  [b] is the vector's elements. *)
Definition prod_ttv (L : tlayout) (a : tensor V) (b : list V) (m : nat) : res (tensor V) :=
  let p := length (t_ext a) in
  if m =? 0 then Throw std_length_error
  else if p <? m then Throw std_length_error
  else if empty a then Throw std_length_error
  else match b with
  | [] => Throw std_length_error
  | _ =>
    let* nb := make_extents [length b; 1] in
    let* wb := to_strides L nb in
    let* ncb := ttv_ext m (t_ext a) in
    let* nc := make_extents ncb in
    let* c := make_tensor L nc (tz O) in
    let* buf := ttv O m p (t_buf c) (t_ext c) (t_str c) (t_buf a) (t_ext a) (t_str a) b nb wb in
    Ok (Tensor (t_ext c) (t_str c) buf)
  end.

(** prod (a, b, m), tensor times matrix: function/tensor_times_matrix.hpp:58-103.  [bbuf] is the
    matrix's storage, in the tensor's layout; the asserts are not modelled. *)
Definition prod_ttm (L : tlayout) (a : tensor V) (size1 size2 : nat) (bbuf : list V) (m : nat)
  : res (tensor V) :=
  let p := length (t_ext a) in
  let na := t_ext a in
  let* nb := make_extents [size1; size2] in
  if m =? 0 then Throw std_length_error
  else if p <? m then Throw std_length_error
  else
    let* x := rdn na (m - 1) in
    if negb (x =? size2) then Throw std_invalid_argument
    else
      let* wb := to_strides L nb in
      let* ncb := wrn na (m - 1) size1 in
      let* nc := make_extents ncb in
      let* c := make_tensor L nc (tz O) in
      let* buf := ttm O m p (t_buf c) (t_ext c) (t_str c) (t_buf a) (t_ext a) (t_str a) bbuf nb wb in
      Ok (Tensor (t_ext c) (t_str c) buf).

(** [*std::remove (begin, end, p) = p]: the kept entries move to the front, the others keep what
    they held; if p does not occur the write is past the end. *)
Definition move_to_end (l : list nat) (p : nat) : res (list nat) :=
  let kept := filter (fun x => negb (x =? p)) l in
  let n := length kept in
  if n <? length l then Ok (kept ++ p :: skipn (S n) l) else UB.

(** prod (a, b, phia, phib), tensor times tensor: function/tensor_times_tensor.hpp:73-150 (one
    operand of dynamic rank) and 228-302 (both of static rank: std::array tuples, whose length is
    checked at compile time, and an array of result extents that starts as zeros, not ones). *)
Definition ttt_ext_check (na nb : list nat) (xy : nat * nat) : res unit :=
  let* x := at1 na (fst xy) in
  let* y := at1 nb (snd xy) in
  if x =? y then Ok tt else Throw std_runtime_error.
Fixpoint ttt_ext_checks (na nb : list nat) (l : list (nat * nat)) : res unit :=
  match l with [] => Ok tt | xy :: t => ttt_ext_check na nb xy ;; ttt_ext_checks na nb t end.
(** [for (i = 0; i < n; ++ i) nc[o + i] = na[phi[i] - 1]]. *)
Definition ttt_ext_fill (na phi : list nat) (o n : nat) (nc : list nat) : res (list nat) :=
  foldM (fun nc i => let* t := rdn phi i in let* x := rd1 na t in wrn nc (o + i) x) (seq 0 n) nc.
Definition prod_ttt (k : rank_kind) (L : tlayout) (a b : tensor V) (phia phib : list nat)
  : res (tensor V) :=
  let fill := match k with DynamicRank => 1 | StaticRank => 0 end in
  let pa := length (t_ext a) in
  let pb := length (t_ext b) in
  let q := length phia in
  if pa =? 0 then Throw std_runtime_error
  else if pb =? 0 then Throw std_runtime_error
  else if pa <? q then Throw std_runtime_error
  else if pb <? q then Throw std_runtime_error
  else if negb (q =? length phib) then Throw std_runtime_error
  else
    ttt_ext_checks (t_ext a) (t_ext b) (combine phia phib) ;;
    let r := pa - q in
    let s := pb - q in
    let* phia1 := foldM move_to_end phia (seq 1 pa) in
    let* nc1 := ttt_ext_fill (t_ext a) phia1 0 r (repeat fill (Nat.max (r + s) 2)) in
    let* phib1 := foldM move_to_end phib (seq 1 pb) in
    let* nc2 := ttt_ext_fill (t_ext b) phib1 r s nc1 in
    let* nc := make_extents nc2 in
    let* c := make_tensor L nc (tz O) in
    let* buf := ttt O pa pb q phia1 phib1 (t_buf c) (t_ext c) (t_str c)
                  (t_buf a) (t_ext a) (t_str a) (t_buf b) (t_ext b) (t_str b) in
    Ok (Tensor (t_ext c) (t_str c) buf).

(** Einstein notation: the index labels of an operand are numbers, 0 standing for [_].
    has_index: multi_index_utility.hpp:23-70; index_position: 186-229. *)
Definition has_index (x : nat) (l : list nat) : bool := existsb (fun y => x =? y) l.
Fixpoint index_position (x : nat) (l : list nat) : nat :=
  match l with [] => 0 | y :: l' => if x =? y then 0 else S (index_position x l') end.
(** index_position_pairs: multi_index_utility.hpp:240-312, as (left, right) one-based positions
    (operators_arithmetic.hpp:496-497 adds one). *)
Fixpoint index_pairs (r : nat) (la lb : list nat) : list (nat * nat) :=
  match la with
  | [] => []
  | x :: la' =>
      if has_index x lb && negb (x =? 0)
      then (r + 1, index_position x lb + 1) :: index_pairs (r + 1) la' lb
      else index_pairs (r + 1) la' lb
  end.
(** operator* of two indexed tensors: operators_arithmetic.hpp:458-505: without a common label it
    is the element-wise product expression, for identical label tuples that are all common the
    inner product, otherwise prod. *)
Inductive ein := EElementwise | EScalar (v : V) | ETensor (t : tensor V).

(** inner_prod: function/inner_prod.hpp:41-64. *)
Definition inner_prod (k : rank_kind) (a b : tensor V) : res V :=
  if negb (length (t_ext a) =? length (t_ext b)) then Throw std_length_error
  else if empty a || empty b then Throw std_length_error
  else if ext_neq k (t_ext a) (t_ext b) then Throw std_length_error
  else inner O (length (t_ext a)) (t_ext a) (t_buf a) (t_str a) (t_buf b) (t_str b) (tz O).

Definition einstein (k : rank_kind) (L : tlayout) (a b : tensor V) (la lb : list nat) : res ein :=
  let ps := index_pairs 0 la lb in
  if length ps =? 0 then Ok EElementwise
  else if (length ps =? length la) && ext_eqb la lb
  then rmap EScalar (inner_prod k a b)
  else rmap ETensor (prod_ttt k L a b (map fst ps) (map snd ps)).

(** outer_prod: function/outer_prod.hpp:70-103 (and 137-177 for static rank). *)
Definition outer_prod (L : tlayout) (a b : tensor V) : res (tensor V) :=
  if empty a || empty b then Throw std_runtime_error
  else
    let* nc := make_extents (t_ext a ++ t_ext b) in
    let* c := make_tensor L nc (tz O) in
    let* buf := outer O (t_buf c) (length (t_ext c)) (t_str c)
                  (t_buf a) (length (t_ext a)) (t_ext a) (t_str a)
                  (t_buf b) (length (t_ext b)) (t_ext b) (t_str b) in
    Ok (Tensor (t_ext c) (t_str c) buf).

(** trans (a, tau): function/trans.hpp:41-73, dynamic rank ([nc.resize (p)] zero-fills).  [f] is the
    identity; [z] is the value-initialised element. *)
Definition trans_ext_step (na tau : list nat) (nc : list nat) (i : nat) : res (list nat) :=
  let* t := at_ tau i in
  let* x := at_ na i in
  put_at1 nc t x.
Definition transp (L : tlayout) (a : tensor V) (tau : list nat) : res (tensor V) :=
  let p := length (t_ext a) in
  let* ncb := foldM (trans_ext_step (t_ext a) tau) (seq 0 p) (repeat 0 p) in
  let* nc := make_extents ncb in
  let* c := make_tensor L nc (tz O) in
  if empty a then Ok c
  else
    let* buf := trans (fun x => x) p (t_ext a) tau (t_buf c) (t_str c) (t_buf a) (t_str a) in
    Ok (Tensor (t_ext c) (t_str c) buf).

(** reshape (t, e, v): function/reshape.hpp:50-82. *)
Definition reshape (L : tlayout) (t : tensor V) (e : list nat) (v : V) : res (tensor V) :=
  if ext_eqb (t_ext t) e then Ok t
  else
    let to_size := product e in
    let from_size := product (t_ext t) in
    let* r := make_tensor L e (tz O) in
    let m := Nat.min to_size from_size in
    let* x := (if m <=? length (t_buf t) then Ok (firstn m (t_buf t)) else UB) in
    Ok (Tensor (t_ext r) (t_str r)
          (x ++ (if m <? to_size then repeat v (to_size - m) else []))).

(** detail::compare of two tensors: operators_comparison.hpp:33-60.  [pred] is equal_to or
    not_equal_to when [eqlike], a relational operator otherwise; [strict] is set for less and
    greater.  The loop counter is 32-bit. *)
Fixpoint compare_loop (pred : V -> V -> bool) (A B : list V) (n : nat) (i : nat) : res bool :=
  match n with
  | 0 => Ok true
  | S n' =>
      let* x := rdn A i in let* y := rdn B i in
      if pred x y then compare_loop pred A B n' (S i) else Ok false
  end.
Definition compare (k : rank_kind) (eqlike strict : bool) (pred : V -> V -> bool)
  (a b : tensor V) : res bool :=
  if ext_neq k (t_ext a) (t_ext b) then
    (if eqlike then Ok false else Throw std_runtime_error)
  else if strict && empty a then Ok false
  else if N.ltb (N.of_nat (length (t_buf a))) (2 ^ 32)%N
  then compare_loop pred (t_buf a) (t_buf b) (length (t_buf a)) 0
  else UB.                                  (* the 32-bit counter never reaches the size *)

(** operator== and operator!= of tensors: operators_comparison.hpp:102-117 (all-pass of equal_to,
    resp. of not_equal_to). *)
Definition tensor_eq (k : rank_kind) (eqb : V -> V -> bool) (a b : tensor V) : res bool :=
  compare k true false eqb a b.
Definition tensor_ne (k : rank_kind) (eqb : V -> V -> bool) (a b : tensor V) : res bool :=
  compare k true false (fun x y => negb (eqb x y)) a b.

(** ** Expressions: expression.hpp, expression_evaluation.hpp, operators_arithmetic.hpp.
    A leaf carries the C++ tensor type (a number) and the tensor; [TSelf] is the tensor being
    assigned.  Operands that are uBLAS matrices or vectors are not modelled. *)
Inductive texpr :=
  | TLeaf (ty : nat) (t : tensor V)
  | TSelf
  | TUn (f : V -> V) (e : texpr)
  | TBin (f : V -> V -> V) (e1 e2 : texpr).

(** The tensor type T of tensor_expression<T, D>: make_binary_tensor_expression takes the left
    one (expression.hpp:86-96).  [self] is the type of the assigned tensor. *)
Fixpoint ty_of (self : nat) (e : texpr) : nat :=
  match e with
  | TLeaf ty _ => ty
  | TSelf => self
  | TUn _ x => ty_of self x
  | TBin _ x _ => ty_of self x
  end.
(** has_tensor_types<T, E>: expression_evaluation.hpp:47-69. *)
Fixpoint has_ty (self T : nat) (e : texpr) : bool :=
  match e with
  | TLeaf ty _ => ty =? T
  | TSelf => self =? T
  | TUn _ x => (ty_of self x =? T) && has_ty self T x
  | TBin _ x y => (ty_of self x =? T) && (has_ty self T x || has_ty self T y)
  end.
(** all_extents_equal: expression_evaluation.hpp:167-245.  At a tensor both the operator!= test
    (void for static rank) and, by overload resolution, the operator== test of 167-172 are made;
    together they compare the extents. *)
Fixpoint all_ext_eq (self : nat) (se : list nat) (T : nat) (e : texpr) (ext : list nat) : bool :=
  match e with
  | TLeaf _ t => ext_eqb ext (t_ext t)
  | TSelf => ext_eqb ext se
  | TUn _ x => if has_ty self T x then all_ext_eq self se T x ext else true
  | TBin _ x y =>
      (if has_ty self T x then all_ext_eq self se T x ext else true) &&
      (if has_ty self T y then all_ext_eq self se T y ext else true)
  end.
(** retrieve_extents: expression_evaluation.hpp:79-157. *)
Definition leaf_of (self T : nat) (e : texpr) : bool :=
  match e with TLeaf ty _ => ty =? T | TSelf => self =? T | _ => false end.
Fixpoint retrieve (self : nat) (se : list nat) (T : nat) (e : texpr) : list nat :=
  match e with
  | TLeaf _ t => t_ext t
  | TSelf => se
  | TUn _ x => retrieve self se T x
  | TBin _ x y =>
      if leaf_of self T x then retrieve self se T x
      else if leaf_of self T y then retrieve self se T y
      else if has_ty self T x then retrieve self se T x
      else retrieve self se T y
  end.
(** operator+, -, *, / of two tensor expressions: operators_arithmetic.hpp:205-285: only operands of
    different tensor types are compared here, the left one against one extent of the right one. *)
Definition mk_bin (self : nat) (se : list nat) (f : V -> V -> V) (x y : texpr) : res texpr :=
  if ty_of self x =? ty_of self y then Ok (TBin f x y)
  else if all_ext_eq self se (ty_of self x) x (retrieve self se (ty_of self y) y)
       then Ok (TBin f x y) else Throw std_runtime_error.
(** expr (i): expression.hpp:78, 146: evaluation at one linear index; [B] is the current buffer of
    the assigned tensor. *)
Fixpoint eval_at (B : list V) (e : texpr) (i : nat) : res V :=
  match e with
  | TLeaf _ t => rdn (t_buf t) i
  | TSelf => rdn B i
  | TUn f x => let* v := eval_at B x i in Ok (f v)
  | TBin f x y => let* v := eval_at B x i in let* w := eval_at B y i in Ok (f v w)
  end.
(** eval (lhs, expr) and eval (lhs, expr, fn): expression_evaluation.hpp:262-324.  [fn old new] is
    the value stored ([new] for =, [old + new] for += and so on).  The loop is an OpenMP parallel
    for: [order] is the order in which the iterations take effect. *)
Definition eval_step (fn : V -> V -> V) (e : texpr) (B : list V) (i : nat) : res (list V) :=
  let* v := eval_at B e i in
  let* o := rdn B i in
  wrn B i (fn o v).
Definition eval (self : nat) (fn : V -> V -> V) (order : list nat) (lhs : tensor V) (e : texpr)
  : res (tensor V) :=
  if negb (all_ext_eq self (t_ext lhs) (ty_of self e) e (t_ext lhs)) then Throw std_runtime_error
  else if N.ltb (N.of_nat (length (t_buf lhs))) (2 ^ 32)%N
  then let* B := foldM (eval_step fn e) order (t_buf lhs) in
       Ok (Tensor (t_ext lhs) (t_str lhs) B)
  else UB.                                  (* the 32-bit counter never reaches the size *)
End Api.
