(** CVecModel.v -- compressed_vector<T, IB, IA, TA>: vector_sparse.hpp:838-1466, non-strict builds,
    with unbounded_array index and value storage.  Sizes and indices are unbounded naturals (no
    wrap-around of 2 * capacity_ or of the k-based index).  Iterators, serialization and the
    expression-template constructors are not modelled. *)
From Verif Require Import Base SparseLib.
Open Scope nat_scope.

(** unbounded_array::resize (n, init) (storage.hpp:206-212, resize_internal 142-203; behaviour proved
    in C08_unbounded_array_resize_preserve): keep the common prefix, fill the rest with init *)
Definition arr_resize {A} (n : nat) (init : A) (a : list A) : list A :=
  firstn n a ++ repeat init (n - length a).
(** unbounded_array::resize (n) for trivially constructible elements: same size is a no-op, otherwise
    a new block whose contents are whatever the allocator returned ([junk]) *)
Definition arr_resize_raw {A} (n : nat) (junk : nat -> A) (a : list A) : list A :=
  if n =? length a then a else map junk (seq 0 n).

(** std::less<size_type> on the k-th index against key *)
Definition idx_less (idx : list nat) (key k : nat) : res bool :=
  let* c := rdn idx k in Ok (c <? key).

Section CVec.
Variable T : Type.
Variable tzero : T.                          (* value_type () / zero_ *)
Variable IB : nat.                           (* index base *)
Variables (junkI : nat -> nat) (junkV : nat -> T).   (* contents of fresh uninitialised blocks *)

Record cvec := CVec { cv_size : nat; cv_cap : nat; cv_filled : nat; cv_idx : list nat; cv_val : list T }.

(** zero_based / k_based: 1454-1461 *)
Definition k_based (i : nat) : nat := i + IB.
Definition zero_based (k : nat) : nat := k - IB.
(** restrict_capacity: 946-951 *)
Definition cv_restrict (size non_zeros : nat) : nat := Nat.min (Nat.max non_zeros 1) size.
(** storage_invariants: 1439-1445 (an expression inside the macro is not evaluated when checks are
    off) *)
Definition cv_inv (chk : bool) (v : cvec) : res unit :=
  if chk then
    check chk (cv_cap v =? length (cv_idx v)) internal_logic ;;
    check chk (cv_cap v =? length (cv_val v)) internal_logic ;;
    check chk (cv_filled v <=? cv_cap v) internal_logic ;;
    if cv_filled v =? 0 then Ok tt else
    let* k := rdn (cv_idx v) (cv_filled v - 1) in
    check chk (zero_based k <? cv_size v) internal_logic
  else Ok tt.
(** constructor (size, non_zeros): 876-881 *)
Definition cv_new (chk : bool) (size non_zeros : nat) : res cvec :=
  let c := cv_restrict size non_zeros in
  let v := CVec size c 0 (map junkI (seq 0 c)) (map junkV (seq 0 c)) in
  cv_inv chk v ;; Ok v.
(** while ((filled_ > 0) && (zero_based (index_data_ [filled_ - 1]) >= size)) -- filled_: 960-962 *)
Fixpoint cv_trim (idx : list nat) (size filled : nat) : res nat :=
  match filled with
  | O => Ok O
  | S f => let* k := rdn idx f in
           if size <=? zero_based k then cv_trim idx size f else Ok filled
  end.
(** resize: 953-971 *)
Definition cv_resize (chk : bool) (v : cvec) (size : nat) (preserve : bool) : res cvec :=
  let cap := cv_restrict size (cv_cap v) in
  let* v' := (if preserve then
      let idx := arr_resize cap 0 (cv_idx v) in
      let val := arr_resize cap tzero (cv_val v) in
      let* f := cv_trim idx size (Nat.min cap (cv_filled v)) in
      Ok (CVec size cap f idx val)
    else Ok (CVec size cap 0 (arr_resize_raw cap junkI (cv_idx v)) (arr_resize_raw cap junkV (cv_val v)))) in
  cv_inv chk v' ;; Ok v'.
(** reserve: 974-988 *)
Definition cv_reserve (chk : bool) (v : cvec) (non_zeros : nat) (preserve : bool) : res cvec :=
  let cap := cv_restrict (cv_size v) non_zeros in
  let v' := (if preserve then
      CVec (cv_size v) cap (Nat.min cap (cv_filled v)) (arr_resize cap 0 (cv_idx v)) (arr_resize cap tzero (cv_val v))
    else CVec (cv_size v) cap 0 (arr_resize_raw cap junkI (cv_idx v)) (arr_resize_raw cap junkV (cv_val v))) in
  cv_inv chk v' ;; Ok v'.
Definition cv_lb (v : cvec) (i : nat) : res nat :=
  lower_bound (idx_less (cv_idx v) (k_based i)) 0 (cv_filled v).
(** find_element: 992-1001; None is the null pointer, Some n the address &value_data_ [n] *)
Definition cv_find (v : cvec) (i : nat) : res (option nat) :=
  let* it := cv_lb v i in
  if it =? cv_filled v then Ok None else
  let* k := rdn (cv_idx v) it in
  if negb (k =? k_based i) then Ok None else Ok (Some it).
(** operator () const: 1004-1011 *)
Definition cv_get (chk : bool) (v : cvec) (i : nat) : res T :=
  check chk (i <? cv_size v) bad_index ;;
  let* it := cv_lb v i in
  if it =? cv_filled v then Ok tzero else
  let* k := rdn (cv_idx v) it in
  if negb (k =? k_based i) then Ok tzero else rdn (cv_val v) it.
(** the argument t of insert_element is a const T &: either an object outside the vector, or the
    n-th cell of the vector's own value array (e.g. v.insert_element (i, v (j))) *)
Inductive targ := Ext (x : T) | Own (n : nat).
(** insert_element: 1042-1059; result: the vector and the position of the returned reference.  With an
    [Own] argument the read happens at [*itt = t], after the reallocation (dangling: UB) and after
    copy_backward. *)
Definition cv_insert (chk : bool) (v : cvec) (i : nat) (t : targ) : res (cvec * nat) :=
  (if chk then let* p := cv_find v i in check chk (match p with None => true | Some _ => false end) bad_index
   else Ok tt) ;;
  let full := cv_cap v <=? cv_filled v in
  let* v := (if full then cv_reserve chk v (2 * cv_cap v) true else Ok v) in
  let* n := cv_lb v i in
  (if chk then
     if (cv_filled v =? 0) || (cv_filled v =? n) then Ok tt
     else let* k := rdn (cv_idx v) n in check chk (negb (k =? k_based i)) internal_logic
   else Ok tt) ;;
  let filled := cv_filled v + 1 in
  let* idx := (let* b := copy_bwd (cv_idx v) n (filled - 1) filled in wrn b n (k_based i)) in
  let* val := copy_bwd (cv_val v) n (filled - 1) filled in
  let* x := (match t with Ext x => Ok x | Own p => if full then UB else rdn val p end) in
  let* val := wrn val n x in
  let v' := CVec (cv_size v) (cv_cap v) filled idx val in
  cv_inv chk v' ;; Ok (v', n).
(** v (i) = x through ref (): 1013-1030 *)
Definition cv_set (chk : bool) (v : cvec) (i : nat) (x : T) : res cvec :=
  check chk (i <? cv_size v) bad_index ;;
  let* it := cv_lb v i in
  let* miss := (if it =? cv_filled v then Ok true
                else let* k := rdn (cv_idx v) it in Ok (negb (k =? k_based i))) in
  let* (v, n) := (if miss then cv_insert chk v i (Ext tzero) else Ok (v, it)) in
  let* val := wrn (cv_val v) n x in
  Ok (CVec (cv_size v) (cv_cap v) (cv_filled v) (cv_idx v) val).
(** erase_element: 1061-1071 *)
Definition cv_erase (chk : bool) (v : cvec) (i : nat) : res cvec :=
  let* n := cv_lb v i in
  let* hit := (if n <? cv_filled v then let* k := rdn (cv_idx v) n in Ok (k =? k_based i) else Ok false) in
  let* v' := (if hit then
      let* idx := copy_in (cv_idx v) (S n) (cv_filled v) n in
      let* val := copy_in (cv_val v) (S n) (cv_filled v) n in
      Ok (CVec (cv_size v) (cv_cap v) (cv_filled v - 1) idx val)
    else Ok v) in
  cv_inv chk v' ;; Ok v'.
(** clear: 1075-1078 *)
Definition cv_clear (chk : bool) (v : cvec) : res cvec :=
  let v' := CVec (cv_size v) (cv_cap v) 0 (cv_idx v) (cv_val v) in
  cv_inv chk v' ;; Ok v'.
(** operator = (const compressed_vector &), different object: 1082-1092.  The array assignments
    (unbounded_array::operator=) copy all cells. *)
Definition cv_assign (chk : bool) (v a : cvec) : res cvec :=
  let v' := CVec (cv_size a) (cv_cap a) (cv_filled a) (cv_idx a) (cv_val a) in
  cv_inv chk v' ;; Ok v'.
(** push_back: 1187-1196 *)
Definition cv_push (chk : bool) (v : cvec) (i : nat) (x : T) : res cvec :=
  (if chk then
     if cv_filled v =? 0 then Ok tt
     else let* k := rdn (cv_idx v) (cv_filled v - 1) in check chk (k <? k_based i) external_logic
   else Ok tt) ;;
  let* v := (if cv_cap v <=? cv_filled v then cv_reserve chk v (2 * cv_cap v) true else Ok v) in
  check chk (cv_filled v <? cv_cap v) internal_logic ;;
  let* idx := wrn (cv_idx v) (cv_filled v) (k_based i) in
  let* val := wrn (cv_val v) (cv_filled v) x in
  let v' := CVec (cv_size v) (cv_cap v) (cv_filled v + 1) idx val in
  cv_inv chk v' ;; Ok v'.
(** pop_back: 1198-1202; filled_ is unsigned, -- on 0 wraps: in unchecked builds later accesses are
    out of bounds, modelled as UB *)
Definition cv_pop (chk : bool) (v : cvec) : res cvec :=
  check chk (0 <? cv_filled v) external_logic ;;
  if cv_filled v =? 0 then UB else
  let v' := CVec (cv_size v) (cv_cap v) (cv_filled v - 1) (cv_idx v) (cv_val v) in
  cv_inv chk v' ;; Ok v'.
End CVec.
Arguments CVec {T}. Arguments cv_size {T}. Arguments cv_cap {T}. Arguments cv_filled {T}.
Arguments cv_idx {T}. Arguments cv_val {T}. Arguments cv_inv {T}. Arguments cv_new {T}.
Arguments cv_resize {T}. Arguments cv_reserve {T}. Arguments cv_lb {T}. Arguments cv_find {T}.
Arguments cv_get {T}. Arguments Ext {T}. Arguments Own {T}. Arguments cv_insert {T}. Arguments cv_set {T}.
Arguments cv_erase {T}. Arguments cv_clear {T}. Arguments cv_assign {T}. Arguments cv_push {T}. Arguments cv_pop {T}.
