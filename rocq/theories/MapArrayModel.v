(** MapArrayModel.v -- map_array<I, T, ALLOC>: storage_sparse.hpp:211-540 (non-strict build).
    Keys and sizes are unbounded naturals; capacity_ is always the number of allocated cells, so it
    is modelled as the length of [ma_data].  Pointers/iterators are positions. *)
From Verif Require Import Base SparseLib.
Open Scope nat_scope.

Section MapArray.
Variable T : Type.
Variable tzero : T.                         (* mapped_type (0), value_type ().second *)

Record marr := MArr { ma_size : nat; ma_data : list (nat * T) }.
(** map_array (): 239-243 *)
Definition ma_new : marr := MArr 0 [].

(** resize (private): 264-283.  Growing reallocates to twice the size, copies size_ entries and
    fills the rest with value_type () *)
Definition ma_resize (chk : bool) (m : marr) (n : nat) : res marr :=
  check chk (ma_size m <=? length (ma_data m)) internal_logic ;;
  let* d :=
    (if length (ma_data m) <? n then
       check chk (negb (n * 2 =? 0)) internal_logic ;;
       let keep := Nat.min n (ma_size m) in
       if keep <=? length (ma_data m)       (* copy reads data_ [0, keep) *)
       then Ok (firstn keep (ma_data m) ++ repeat (0, tzero) (n * 2 - keep))
       else UB
     else Ok (ma_data m)) in
  check chk (n <=? length d) internal_logic ;;
  Ok (MArr n d).

(** reserve: 286-309; if capacity < size_ (unchecked build) the copy overruns the new block *)
Definition ma_reserve (chk : bool) (m : marr) (c : nat) : res marr :=
  check chk (ma_size m <=? length (ma_data m)) internal_logic ;;
  check chk (ma_size m <=? c) bad_size ;;
  if (ma_size m <=? c) && (ma_size m <=? length (ma_data m)) then
    Ok (MArr (ma_size m) (firstn (ma_size m) (ma_data m) ++ repeat (0, tzero) (c - ma_size m)))
  else UB.

(** less_pair on the cell at position k and (key, 0): storage_sparse.hpp:51-57 *)
Definition ma_less (m : marr) (key k : nat) : res bool :=
  let* c := rdn (ma_data m) k in Ok (fst c <? key).
(** lower_bound: 449-456 *)
Definition ma_lower_bound (m : marr) (key : nat) : res nat :=
  lower_bound (ma_less m key) 0 (ma_size m).
(** find: 434-447; the result is end () = size_ when absent *)
Definition ma_find (m : marr) (key : nat) : res nat :=
  let* it := ma_lower_bound m key in
  if it =? ma_size m then Ok (ma_size m) else
  let* c := rdn (ma_data m) it in
  if negb (fst c =? key) then Ok (ma_size m) else Ok it.
(** insert (p): 398-408 *)
Definition ma_insert (chk : bool) (m : marr) (key : nat) (v : T) : res (marr * nat * bool) :=
  let* it := ma_lower_bound m key in
  let* dup := (if it =? ma_size m then Ok false
               else let* c := rdn (ma_data m) it in Ok (fst c =? key)) in
  if dup then Ok (m, it, false) else
  let* m1 := ma_resize chk m (ma_size m + 1) in
  (* copy_backward (it, end () - 1, end ()); *it = p *)
  let* d := (let* b := copy_bwd (ma_data m1) it (ma_size m1 - 1) (ma_size m1) in wrn b it (key, v)) in
  Ok (MArr (ma_size m1) d, it, true).
(** operator [] (i) = v: 331-342 and the write through the returned reference *)
Definition ma_write (chk : bool) (m : marr) (key : nat) (v : T) : res marr :=
  let* it := ma_find m key in
  let* (m1, it) := (if it =? ma_size m
                    then let* (m', it', _) := ma_insert chk m key tzero in Ok (m', it')
                    else Ok (m, it)) in
  check chk (negb (it =? ma_size m1)) internal_logic ;;
  let* c := rdn (ma_data m1) it in
  let* d := wrn (ma_data m1) it (fst c, v) in
  Ok (MArr (ma_size m1) d).
(** find (i)->second, None for end () *)
Definition ma_lookup (m : marr) (key : nat) : res (option T) :=
  let* it := ma_find m key in
  if it =? ma_size m then Ok None else let* c := rdn (ma_data m) it in Ok (Some (snd c)).
(** push_back: 385-394 *)
Definition ma_push_back (chk : bool) (m : marr) (key : nat) (v : T) : res marr :=
  let* ok := (if ma_size m =? 0 then Ok true
              else let* c := rdn (ma_data m) (ma_size m - 1) in Ok (fst c <? key)) in
  if ok then
    let* m1 := ma_resize chk m (ma_size m + 1) in
    let* d := wrn (ma_data m1) (ma_size m1 - 1) (key, v) in
    Ok (MArr (ma_size m1) d)
  else Throw external_logic.
(** erase (it): 415-419 *)
Definition ma_erase_at (chk : bool) (m : marr) (it : nat) : res marr :=
  check chk (it <? ma_size m) bad_index ;;
  let* d := copy_in (ma_data m) (it + 1) (ma_size m) it in
  ma_resize chk (MArr (ma_size m) d) (ma_size m - 1).
(** erase (it1, it2): 421-426 *)
Definition ma_erase_range (chk : bool) (m : marr) (it1 it2 : nat) : res marr :=
  if it1 =? it2 then Ok m else
  check chk ((it1 <? it2) && (it2 <=? ma_size m)) bad_index ;;
  let* d := copy_in (ma_data m) it2 (ma_size m) it1 in
  ma_resize chk (MArr (ma_size m) d) (ma_size m - (it2 - it1)).
(** clear: 428-430 *)
Definition ma_clear (chk : bool) (m : marr) : res marr := ma_resize chk m 0.
(** operator =: 346-352 (a different object) *)
Definition ma_assign (chk : bool) (m a : marr) : res marr :=
  let* m1 := ma_resize chk m (ma_size a) in
  if (ma_size a <=? length (ma_data a)) && (ma_size a <=? length (ma_data m1)) then
    Ok (MArr (ma_size m1) (firstn (ma_size a) (ma_data a) ++ skipn (ma_size a) (ma_data m1)))
  else UB.
(** copy constructor: 244-255.  uninitialized_copy (data_, data_ + capacity_, c.data_) reads the
    newly allocated cells [fresh] and writes them into the SOURCE's storage.  Result: (copy, source
    afterwards).  (capacity_ is set to c.size_.) *)
Definition ma_copy (fresh : nat -> nat * T) (c : marr) : res (marr * marr) :=
  let n := ma_size c in
  let mine := map fresh (seq 0 n) in
  if n <=? length (ma_data c) then
    Ok (MArr n mine, MArr n (mine ++ skipn n (ma_data c)))
  else UB.
End MapArray.
Arguments MArr {T}. Arguments ma_size {T}. Arguments ma_data {T}. Arguments ma_new {T}.
Arguments ma_resize {T}. Arguments ma_reserve {T}. Arguments ma_less {T}. Arguments ma_lower_bound {T}.
Arguments ma_find {T}. Arguments ma_insert {T}. Arguments ma_write {T}. Arguments ma_lookup {T}.
Arguments ma_push_back {T}. Arguments ma_erase_at {T}. Arguments ma_erase_range {T}.
Arguments ma_clear {T}. Arguments ma_assign {T}. Arguments ma_copy {T}.
