(** CoVecModel.v -- coordinate_vector<T, IB, IA, TA>: vector_sparse.hpp:1493-2227, non-strict builds,
    unbounded_array storage, unbounded natural indices.  Iterators, serialization, set_filled and the
    expression-template constructors are not modelled.  The [mutable] members changed by const reads
    are part of the state, so reads return the new state too. *)
From Verif Require Import Base SparseLib CVecModel CoordModel.
Open Scope nat_scope.

Section CoVec.
Variable T : Type.
Variable tzero : T.
Variable tadd : T -> T -> T.                 (* += *)
Variable IB : nat.
Variables (junkI : nat -> nat) (junkV : nat -> T).
(** std::sort over the index_pair_array range (storage.hpp:1756-1925): any function; the theorems
    assume only what ISO C++ guarantees (a permutation, ordered by index; not stable) *)
Variable std_sort : list (nat * T) -> list (nat * T).

Record covec := CoVec { co_size : nat; co_cap : nat; co_filled : nat; co_sf : nat; co_sorted : bool;
                        co_idx : list nat; co_val : list T }.
(** restrict_capacity: 1608-1613 *)
Definition co_restrict (non_zeros : nat) : nat := Nat.max non_zeros 1.
(** storage_invariants: 2203-2211 *)
Definition co_inv (chk : bool) (v : covec) : res unit :=
  if chk then
    check chk (co_cap v =? length (co_idx v)) internal_logic ;;
    check chk (co_cap v =? length (co_val v)) internal_logic ;;
    check chk (co_filled v <=? co_cap v) internal_logic ;;
    check chk (co_sf v <=? co_filled v) internal_logic ;;
    check chk (Bool.eqb (co_sorted v) (co_sf v =? co_filled v)) internal_logic ;;
    if co_filled v =? 0 then Ok tt else
    let* k := rdn (co_idx v) (co_filled v - 1) in
    check chk (zero_based IB k <? co_size v) internal_logic
  else Ok tt.
(** constructor (size, non_zeros): 1533-1539 *)
Definition co_new (chk : bool) (size non_zeros : nat) : res covec :=
  let c := co_restrict non_zeros in
  let v := CoVec size c 0 0 true (map junkI (seq 0 c)) (map junkV (seq 0 c)) in
  co_inv chk v ;; Ok v.
(** sort: 1905-1937 *)
Definition co_sort (chk : bool) (v : covec) : res covec :=
  if negb (co_sorted v) && (0 <? co_filled v) then
    let* (f, idx, val) := coo_sort Nat.ltb Nat.eqb tadd std_sort (co_sf v) (co_filled v) (co_idx v) (co_val v) in
    let v' := CoVec (co_size v) (co_cap v) f f true idx val in
    co_inv chk v' ;; Ok v'
  else Ok v.
(** resize: 1616-1636 *)
Definition co_resize (chk : bool) (v : covec) (size : nat) (preserve : bool) : res covec :=
  let* v := (if preserve then co_sort chk v else Ok v) in
  let cap := co_restrict (co_cap v) in
  let* v' := (if preserve then
      let idx := arr_resize cap 0 (co_idx v) in
      let val := arr_resize cap tzero (co_val v) in
      let* f := cv_trim IB idx size (Nat.min cap (co_filled v)) in
      Ok (CoVec size cap f f (co_sorted v) idx val)
    else Ok (CoVec size cap 0 0 (co_sorted v) (arr_resize_raw cap junkI (co_idx v)) (arr_resize_raw cap junkV (co_val v)))) in
  co_inv chk v' ;; Ok v'.
(** reserve: 1639-1655 *)
Definition co_reserve (chk : bool) (v : covec) (non_zeros : nat) (preserve : bool) : res covec :=
  let* v := (if preserve then co_sort chk v else Ok v) in
  let cap := co_restrict non_zeros in
  let v' := (if preserve then
      let f := Nat.min cap (co_filled v) in
      CoVec (co_size v) cap f f (co_sorted v) (arr_resize cap 0 (co_idx v)) (arr_resize cap tzero (co_val v))
    else CoVec (co_size v) cap 0 0 (co_sorted v) (arr_resize_raw cap junkI (co_idx v)) (arr_resize_raw cap junkV (co_val v))) in
  co_inv chk v' ;; Ok v'.
Definition co_lb (v : covec) (i : nat) : res nat :=
  lower_bound (idx_less (co_idx v) (k_based IB i)) 0 (co_filled v).
(** position of the element with index i after sort (), if any *)
Definition co_hit (v : covec) (i : nat) : res (option nat) :=
  let* it := co_lb v i in
  if it =? co_filled v then Ok None else
  let* k := rdn (co_idx v) it in
  if negb (k =? k_based IB i) then Ok None else Ok (Some it).
(** find_element: 1658-1669 *)
Definition co_find (chk : bool) (v : covec) (i : nat) : res (covec * option nat) :=
  let* v := co_sort chk v in
  let* p := co_hit v i in Ok (v, p).
(** operator () const: 1673-1680 *)
Definition co_get (chk : bool) (v : covec) (i : nat) : res (covec * T) :=
  check chk (i <? co_size v) bad_index ;;
  let* v := co_sort chk v in
  let* p := co_hit v i in
  match p with
  | None => Ok (v, tzero)
  | Some it => let* x := rdn (co_val v) it in Ok (v, x)
  end.
(** append_element: 1712-1721 (the argument is not one of the vector's own elements) *)
Definition co_append (chk : bool) (v : covec) (i : nat) (x : T) : res covec :=
  let* v := (if co_cap v <=? co_filled v then co_reserve chk v (2 * co_filled v) true else Ok v) in
  check chk (co_filled v <? co_cap v) internal_logic ;;
  let* idx := wrn (co_idx v) (co_filled v) (k_based IB i) in
  let* val := wrn (co_val v) (co_filled v) x in
  let v' := CoVec (co_size v) (co_cap v) (co_filled v + 1) (co_sf v) false idx val in
  co_inv chk v' ;; Ok v'.
(** insert_element: 1723-1727; in checked builds the duplicate test sorts the vector first *)
Definition co_insert (chk : bool) (v : covec) (i : nat) (x : T) : res covec :=
  let* v := (if chk then
               let* (v, p) := co_find chk v i in
               check chk (match p with None => true | Some _ => false end) bad_index ;; Ok v
             else Ok v) in
  co_append chk v i x.
(** v (i) = x through ref (): 1681-1690.  After insert_element the reference is
    value_data_ [filled_ - 1] *)
Definition co_set (chk : bool) (v : covec) (i : nat) (x : T) : res covec :=
  check chk (i <? co_size v) bad_index ;;
  let* v := co_sort chk v in
  let* p := co_hit v i in
  let* (v, n) := (match p with
                  | None => let* v := co_insert chk v i tzero in Ok (v, co_filled v - 1)
                  | Some it => Ok (v, it)
                  end) in
  let* val := wrn (co_val v) n x in
  Ok (CoVec (co_size v) (co_cap v) (co_filled v) (co_sf v) (co_sorted v) (co_idx v) val).
(** erase_element: 1729-1741 *)
Definition co_erase (chk : bool) (v : covec) (i : nat) : res covec :=
  let* v := co_sort chk v in
  let* n := co_lb v i in
  let* hit := (if n <? co_filled v then let* k := rdn (co_idx v) n in Ok (k =? k_based IB i) else Ok false) in
  let* v' := (if hit then
      let* idx := copy_in (co_idx v) (S n) (co_filled v) n in
      let* val := copy_in (co_val v) (S n) (co_filled v) n in
      Ok (CoVec (co_size v) (co_cap v) (co_filled v - 1) (co_filled v - 1) (co_sorted v) idx val)
    else Ok v) in
  co_inv chk v' ;; Ok v'.
(** clear: 1745-1750 *)
Definition co_clear (chk : bool) (v : covec) : res covec :=
  let v' := CoVec (co_size v) (co_cap v) 0 0 true (co_idx v) (co_val v) in
  co_inv chk v' ;; Ok v'.
(** push_back: 1941-1952 *)
Definition co_push (chk : bool) (v : covec) (i : nat) (x : T) : res covec :=
  (if chk then
     if negb (co_sorted v) then Throw external_logic
     else if co_filled v =? 0 then Ok tt
     else let* k := rdn (co_idx v) (co_filled v - 1) in check chk (k <? k_based IB i) external_logic
   else Ok tt) ;;
  let* v := (if co_cap v <=? co_filled v then co_reserve chk v (2 * co_filled v) true else Ok v) in
  check chk (co_filled v <? co_cap v) internal_logic ;;
  let* idx := wrn (co_idx v) (co_filled v) (k_based IB i) in
  let* val := wrn (co_val v) (co_filled v) x in
  let v' := CoVec (co_size v) (co_cap v) (co_filled v + 1) (co_filled v + 1) (co_sorted v) idx val in
  co_inv chk v' ;; Ok v'.
(** pop_back: 1954-1961.  [sorted_ = sorted_filled_ = filled_] assigns filled_ to sorted_filled_ and
    then converts it to bool. *)
Definition co_pop (chk : bool) (v : covec) : res covec :=
  check chk (0 <? co_filled v) external_logic ;;
  if co_filled v =? 0 then UB else
  let f := co_filled v - 1 in
  let v' := CoVec (co_size v) (co_cap v) f f (negb (f =? 0)) (co_idx v) (co_val v) in
  co_inv chk v' ;; Ok v'.
End CoVec.
Arguments CoVec {T}. Arguments co_size {T}. Arguments co_cap {T}. Arguments co_filled {T}. Arguments co_sf {T}.
Arguments co_sorted {T}. Arguments co_idx {T}. Arguments co_val {T}. Arguments co_inv {T}. Arguments co_new {T}.
Arguments co_sort {T}. Arguments co_resize {T}. Arguments co_reserve {T}. Arguments co_lb {T}.
Arguments co_hit {T}. Arguments co_find {T}. Arguments co_get {T}. Arguments co_append {T}. Arguments co_insert {T}.
Arguments co_set {T}. Arguments co_erase {T}. Arguments co_clear {T}. Arguments co_push {T}. Arguments co_pop {T}.
