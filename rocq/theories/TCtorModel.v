(** TCtorModel.v -- making tensors: extents constructors, tensor constructors and conversions from matrices, vectors and
    other tensors, assignment of values and containers, ones / zeros.
    Files under /repo/include/boost/numeric/ublas/tensor/.  Extents are natural numbers, products wrap (TensorModel).
    std::array members without initialiser hold whatever [junk] says.
    Not modelled: the converting constructors of tensor_dynamic.hpp:157-163 and tensor_static_rank.hpp:138-145 call
    other.container (), which no tensor has, and do not compile when used. *)
From Verif Require Import Base LayoutModel PackedModel TensorModel.
Open Scope nat_scope.

(** ** extents *)
(** extents<> {l...}, extents<> (first, last): extents/extents_dynamic_size.hpp:53-103 *)
Definition ex_dyn (l : list nat) : res (list nat) := make_extents l.
(** extents<N> {l...}: extents/extents_static_size.hpp:66-80 *)
Definition ex_rank_list (N : nat) (l : list nat) : res (list nat) :=
  if negb (length l =? N) then Throw std_length_error
  else let base := l in if is_valid base then Ok base else Throw std_invalid_argument.
(** extents<N> (first, last): 82-95; _base is zero initialised (131) *)
Definition ex_rank_range (N : nat) (l : list nat) : res (list nat) :=
  if N <? length l then Throw std_out_of_range
  else let base := l ++ repeat 0 (N - length l) in if is_valid base then Ok base else Throw std_invalid_argument.

Section TCtor.
Context {V : Type}.
Variable zero : V.                       (* V{} *)
Variable junk : nat -> V.                (* uninitialised memory *)
Implicit Type t : tensor V.

(** layout of the matrix type: layout.hpp:17-22 (first_order = column_major, last_order = row_major) *)
Definition mlayout (L : tlayout) : layout := match L with FirstOrder => ColMajor | LastOrder => RowMajor end.

(** ** dynamic tensors: tensor/tensor_dynamic.hpp *)
(** tensor (is...): 94-101 *)
Definition td_ints (L : tlayout) (is : list nat) : res (tensor V) :=
  let* e := ex_dyn is in let* w := to_strides L e in Ok (Tensor e w (repeat zero (product e))).
(** tensor (m): 188-194 *)
Definition td_matrix (L : tlayout) (m : mat V) : res (tensor V) :=
  let* e := ex_dyn [N.to_nat (msize1 m); N.to_nat (msize2 m)] in
  let* w := to_strides L e in Ok (Tensor e w (mdata m)).
(** tensor (v): 197-203 *)
Definition td_vector (L : tlayout) (v : list V) : res (tensor V) :=
  let* e := ex_dyn [length v; 1] in
  let* w := to_strides L e in Ok (Tensor e w v).
(** operator = (value): 287-291, tensor_static_rank.hpp:280-284, tensor_static.hpp:265-269 *)
Definition tt_fill t (v : V) : tensor V := Tensor (t_ext t) (t_str t) (repeat v (length (t_buf t))).

(** ** tensors of static rank: tensor/tensor_static_rank.hpp *)
(** tensor (is...): 108-112 *)
Definition tr_ints (N : nat) (L : tlayout) (is : list nat) : res (tensor V) :=
  let* e := ex_rank_list N is in let* w := to_strides L e in Ok (Tensor e w (repeat zero (product e))).
(** tensor (e, a): 121-132 *)
Definition tr_from (L : tlayout) (e : list nat) (a : list V) : res (tensor V) :=
  let* w := to_strides L e in
  if length a =? product e then Ok (Tensor e w a) else Throw std_length_error.
(** tensor (m): 170-176; tensor (v): 179-185 *)
Definition tr_matrix (N : nat) (L : tlayout) (m : mat V) : res (tensor V) :=
  let* e := ex_rank_list N [N.to_nat (msize1 m); N.to_nat (msize2 m)] in
  let* w := to_strides L e in Ok (Tensor e w (mdata m)).
Definition tr_vector (N : nat) (L : tlayout) (v : list V) : res (tensor V) :=
  let* e := ex_rank_list N [length v; 1] in
  let* w := to_strides L e in Ok (Tensor e w v).
(** operator = (container): 269-278 *)
Definition tr_assign t (c : list V) : res (tensor V) :=
  if negb (length c =? length (t_buf t)) then Throw std_length_error else Ok (Tensor (t_ext t) (t_str t) c).

(** ** tensors of static extents: tensor/tensor_static.hpp *)
(** the object: _extents and _strides are static (419-421) *)
Definition ts_mk (L : tlayout) (e : list nat) (b : list V) : tensor V := Tensor e (to_strides_static L e) b.
(** tensor (): 98; the members are not initialised *)
Definition ts_default (L : tlayout) (e : list nat) : tensor V := ts_mk L e (map junk (seq 0 (product e))).
(** tensor (value): 107-111; tensor (array): 120-124, the length is part of the type *)
Definition ts_value (L : tlayout) (e : list nat) (v : V) : tensor V := tt_fill (ts_default L e) v.
Definition ts_array (L : tlayout) (e : list nat) (a : list V) : tensor V := ts_mk L e a.
(** std::copy (a.begin (), a.end (), this->begin ()): writing past the array is UB *)
Definition std_copy (a b : list V) : res (list V) :=
  if length a <=? length b then Ok (a ++ skipn (length a) b) else UB.
(** tensor (m): 167-174 *)
Definition ts_matrix (L : tlayout) (e : list nat) (m : mat V) : res (tensor V) :=
  let t := ts_default L e in
  let* e0 := rdn e 0 in let* e1 := rdn e 1 in
  if negb (N.to_nat (msize1 m) =? e0) || negb (N.to_nat (msize2 m) =? e1) then Throw std_invalid_argument
  else let* b := std_copy (mdata m) (t_buf t) in Ok (ts_mk L e b).
(** tensor (v): 177-185 *)
Definition ts_vector (L : tlayout) (e : list nat) (v : list V) : res (tensor V) :=
  let t := ts_default L e in
  let* e0 := rdn e 0 in let* e1 := rdn e 1 in
  if negb (length v =? e0) && negb (length v =? e1) then Throw std_invalid_argument
  else let* b := std_copy v (t_buf t) in Ok (ts_mk L e b).
(** tensor (other tensor): 131-145 ([_container {}] is zero; extents are compared by extents_functions.hpp:209-223) *)
Definition ts_tensor (L : tlayout) (e : list nat) (o : tensor V) : res (tensor V) :=
  if negb ((length e =? length (t_ext o)) && forallb (fun p => fst p =? snd p) (combine e (t_ext o))) then Throw std_invalid_argument
  else
    let* b := copy (length e) e (repeat zero (product e)) (to_strides_static L e) (t_buf o) (t_str o) in
    Ok (ts_mk L e b).
(** at (i1, i2, is...), operator () (is...): 279-284, 294-299: no check of any kind *)
Definition ts_at t (i : list nat) : res V := let* k := to_index (t_str t) i in rdn (t_buf t) k.

(** ** ones, zeros: function/init.hpp *)
(** init<V, L, n> () (e): 29-33; () (ns...): 36-41; init_static_rank: 57-75 (the same for extents<N>) *)
Definition ini_ext (L : tlayout) (one : V) (e : list nat) : res (tensor V) :=
  let p := product e in make_tensor_from L e (repeat one p).
Definition ini_ints (L : tlayout) (one : V) (ns : list nat) : res (tensor V) :=
  let p := fold_left wmul ns 1 in let* e := ex_dyn ns in make_tensor_from L e (repeat one p).
Definition ini_rank_ints (L : tlayout) (one : V) (ns : list nat) : res (tensor V) :=
  let p := fold_left wmul ns 1 in let* e := ex_rank_list (length ns) ns in tr_from L e (repeat one p).
(** init_static: 91-107; the value at position is: V (k * (is + 1) / (is + 1)) computed in size_t *)
Definition ini_static (L : tlayout) (conv : nat -> V) (k : nat) (e : list nat) : tensor V :=
  ts_array L e (map (fun x => conv (wmul k (wadd x 1) / wadd x 1)) (seq 0 (product e))).
End TCtor.
