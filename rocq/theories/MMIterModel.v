(** MMIterModel.v -- iterators of mapped_matrix<T, L, map_array>: matrix_sparse.hpp:560-675 (find1, find2; both
    overloads of each are the same code), 678-844 (const_iterator1), 863-1000 (iterator1), 1011-1177
    (const_iterator2), 1196-1333 (iterator2).  iterator1 and iterator2 are the same code with i and j
    exchanged: one definition here, parametrised by the direction w the iterator moves in.
    The subiterator it_ is a position in the sorted map_array.
    Simplification: the container identity check of operator == is not modelled. *)
From Verif Require Import Base LayoutModel SparseLib MapArrayModel MappedModel.
From Verif Require Export CMIterModel.
Open Scope N_scope.

(** position with index x in direction w and o in the other one *)
Definition npos (w : axis) (x o : N) : N * N := match w with Ax1 => (x, o) | Ax2 => (o, x) end.
(** rank_ (true: 1), the index along w and the other one (i_, j_), it_ - data ().begin () *)
Record mit := Mit { mi_rank : bool; mi_x : N; mi_o : N; mi_it : nat }.

Section MMIter.
Variable T : Type.
Variable tzero : T.
Variable chk : bool.
Variable l : layout.
Definition mmsize (w : axis) (m : mmat T) : N := match w with Ax1 => mm_size1 m | Ax2 => mm_size2 m end.

(** data ().lower_bound (layout_type::address (i, size1_, j, size2_)): 562, 578 *)
Definition mi_lb (m : mmat T) (w : axis) (x o : N) : res nat :=
  let* a := address chk l (fst (npos w x o)) (mm_size1 m) (snd (npos w x o)) (mm_size2 m) in
  ma_lower_bound (mm_data m) (N.to_nat a).
(** layout_type::index_i (key, ...) for Ax1, index_j for Ax2: 567-568 *)
Definition mi_key (m : mmat T) (a : axis) (it : nat) : res N :=
  let* k := key_at (mm_data m) it in
  Ok (match a with Ax1 => index_i l (N.of_nat k) (mm_size1 m) (mm_size2 m)
                 | Ax2 => index_j l (N.of_nat k) (mm_size1 m) (mm_size2 m) end).
(** the while loop of find1 / find2: 566-579, 624-637.  Result: the index along w, it, and the last value of
    index2 (index1 for find2).  Running out of fuel means that it does not end. *)
Fixpoint mi_loop (fuel : nat) (m : mmat T) (w : axis) (o : N) (fwd : bool) (x : N) (it : nat) (io : N) : res (N * nat * N) :=
  if Nat.eqb it (ma_size (mm_data m)) then Ok (x, it, io) else
  match fuel with
  | O => UB
  | S fuel' =>
      let* kx := mi_key m w it in
      let* ko := mi_key m (other w) it in
      if fwd then
        if ((x <=? kx) && (ko =? o)) || (mmsize w m <=? x) then Ok (x, it, ko) else
        let* it' := mi_lb m w (addw x 1) o in
        mi_loop fuel' m w o fwd (addw x 1) it' ko
      else
        if ((kx <=? x) && (ko =? o)) || (x =? 0) then Ok (x, it, ko) else
        let* it' := mi_lb m w (subw x 1) o in
        mi_loop fuel' m w o fwd (subw x 1) it' ko
  end.
(** find1 (rank, i, j, direction): 561-587; find2: 619-645 *)
Definition mi_find (m : mmat T) (w : axis) (rank : bool) (x o : N) (fwd : bool) : res mit :=
  let* it := mi_lb m w x o in
  if rank then
    let* (xi, io) := mi_loop (S (S (N.to_nat (mmsize w m)))) m w o fwd x it wmax in
    if negb (io =? o) then Ok (Mit false (if fwd then mmsize w m else 0) o (snd xi))
    else Ok (Mit true (fst xi) o (snd xi))
  else Ok (Mit false x o it).

(** operator ==: 829-837 *)
Definition mi_eq (a b : mit) : bool :=
  if mi_rank a || mi_rank b then Nat.eqb (mi_it a) (mi_it b) else (mi_x a =? mi_x b) && (mi_o a =? mi_o b).
(** index1 () of iterator1, index2 () of iterator2: 795-804, 1138-1147 *)
Definition mi_index (m : mmat T) (w : axis) (it : mit) : res N :=
  (if chk then
     let* e := mi_find m w false (mmsize w m) (mi_o it) true in
     check chk (negb (mi_eq it e)) bad_index
   else Ok tt) ;;
  if mi_rank it then
    let* x := mi_key m w (mi_it it) in
    check chk (x <? mmsize w m) bad_index ;;
    Ok x
  else Ok (mi_x it).
(** index2 () of iterator1, index1 () of iterator2: 806-814, 1128-1136 *)
Definition mi_index_o (m : mmat T) (w : axis) (it : mit) : res N :=
  if mi_rank it then
    let* x := mi_key m (other w) (mi_it it) in
    check chk (x <? mmsize (other w) m) bad_index ;;
    Ok x
  else Ok (mi_o it).
(** the checks of operator *: 723-724 *)
Definition mi_valid (m : mmat T) (w : axis) (it : mit) : res unit :=
  if chk then
    let* x := mi_index m w it in
    let* o := mi_index_o m w it in
    check chk (x <? mmsize w m) bad_index ;;
    check chk (o <? mmsize (other w) m) bad_index
  else Ok tt.
(** operator * of the const iterators: 722-730 *)
Definition mi_deref (m : mmat T) (w : axis) (it : mit) : res T :=
  mi_valid m w it ;;
  if mi_rank it then let* c := rdn (ma_data (mm_data m)) (mi_it it) in Ok (snd c)
  else mm_get tzero chk l m (fst (npos w (mi_x it) (mi_o it))) (snd (npos w (mi_x it) (mi_o it))).
(** operator ++: 704-710 *)
Definition mi_inc (m : mmat T) (w : axis) (it : mit) : res mit :=
  if mi_rank it && fast l w then Ok (Mit true (mi_x it) (mi_o it) (mi_it it + 1)) else
  let* x := mi_index m w it in
  mi_find m w (mi_rank it) (addw x 1) (mi_o it) true.
(** operator --: 712-718 *)
Definition mi_dec (m : mmat T) (w : axis) (it : mit) : res mit :=
  if mi_rank it && fast l w then
    if Nat.eqb (mi_it it) 0 then UB else Ok (Mit true (mi_x it) (mi_o it) (mi_it it - 1))
  else
    let* x := mi_index m w it in
    mi_find m w (mi_rank it) (subw x 1) (mi_o it) false.

(** for (it = first; it != last; ++ it) visit (it.index1 (), it.index2 (), *it) *)
Definition mi_visit (m : mmat T) (w : axis) (it : mit) : res ((N * N) * T) :=
  let* x := mi_index m w it in
  let* o := mi_index_o m w it in
  let* v := mi_deref m w it in
  Ok (npos w x o, v).
Fixpoint mi_walk (fuel : nat) (m : mmat T) (w : axis) (it last : mit) : res (list ((N * N) * T)) :=
  if mi_eq it last then Ok [] else
  match fuel with
  | O => UB
  | S fuel' =>
      let* e := mi_visit m w it in
      let* it' := mi_inc m w it in
      let* t := mi_walk fuel' m w it' last in
      Ok (e :: t)
  end.
(** it.begin () and it.end () of an outer iterator in direction [other w] at index o: 737-755, 1070-1088 *)
Definition mi_begin (m : mmat T) (w : axis) (o : N) : res mit := mi_find m w true 0 o true.
Definition mi_end (m : mmat T) (w : axis) (o : N) : res mit := mi_find m w true (mmsize w m) o true.
Definition mi_inner (m : mmat T) (w : axis) (o : N) : res (list ((N * N) * T)) :=
  let* b := mi_begin m w o in
  let* e := mi_end m w o in
  mi_walk (N.to_nat (mmsize w m)) m w b e.
(** begin1 () / end1 (): 847-857; begin2 () / end2 (): 1180-1190; the usual pair of nested loops
    for (it1 = begin1 (); it1 != end1 (); ++ it1) for (it2 = it1.begin (); it2 != it1.end (); ++ it2) *)
Fixpoint mi_outer (fuel : nat) (m : mmat T) (w : axis) (it last : mit) : res (list ((N * N) * T)) :=
  if mi_eq it last then Ok [] else
  match fuel with
  | O => UB
  | S fuel' =>
      let* o := mi_index m w it in
      let* h := mi_inner m (other w) o in
      let* it' := mi_inc m w it in
      let* t := mi_outer fuel' m w it' last in
      Ok (h ++ t)
  end.
Definition mi_traverse (m : mmat T) (w : axis) : res (list ((N * N) * T)) :=
  let* b := mi_find m w false 0 0 true in
  let* e := mi_find m w false (mmsize w m) 0 true in
  mi_outer (N.to_nat (mmsize w m)) m w b e.

(** Reverse iteration inside a line: for (it = rbegin (); it != rend (); ++ it), reverse_iterator_base1/2
    (detail/iterator.hpp:417-700): * and the indices are those of the base iterator moved back by one. *)
Fixpoint mi_rwalk (fuel : nat) (m : mmat T) (w : axis) (it first : mit) : res (list ((N * N) * T)) :=
  if mi_eq it first then Ok [] else
  match fuel with
  | O => UB
  | S fuel' =>
      let* it' := mi_dec m w it in
      let* e := mi_visit m w it' in
      let* t := mi_rwalk fuel' m w it' first in
      Ok (e :: t)
  end.
Definition mi_rinner (m : mmat T) (w : axis) (o : N) : res (list ((N * N) * T)) :=
  let* b := mi_begin m w o in
  let* e := mi_end m w o in
  mi_rwalk (N.to_nat (mmsize w m)) m w e b.
(** rbegin1 () .. rend1 () with the forward inner loops it1.begin () .. it1.end () of the reverse iterator
    (detail/iterator.hpp:500-511: those of the base moved back by one) *)
Fixpoint mi_router (fuel : nat) (m : mmat T) (w : axis) (it first : mit) : res (list ((N * N) * T)) :=
  if mi_eq it first then Ok [] else
  match fuel with
  | O => UB
  | S fuel' =>
      let* it' := mi_dec m w it in
      let* o := mi_index m w it' in
      let* h := mi_inner m (other w) o in
      let* t := mi_router fuel' m w it' first in
      Ok (h ++ t)
  end.
Definition mi_rtraverse (m : mmat T) (w : axis) : res (list ((N * N) * T)) :=
  let* b := mi_find m w false 0 0 true in
  let* e := mi_find m w false (mmsize w m) 0 true in
  mi_router (N.to_nat (mmsize w m)) m w e b.

(** *it = x through a mutable iterator: 904-912; rank 0 goes through at_element: 541-548 *)
Definition mi_store (m : mmat T) (w : axis) (it : mit) (x : T) : res (mmat T) :=
  mi_valid m w it ;;
  let* p := (if mi_rank it then Ok (mi_it it) else
               let* e := mm_key chk l m (fst (npos w (mi_x it) (mi_o it))) (snd (npos w (mi_x it) (mi_o it))) in
               let* p := ma_find (mm_data m) e in
               check chk (negb (Nat.eqb p (ma_size (mm_data m)))) bad_index ;;
               Ok p) in
  let* d := put_at (mm_data m) p x in Ok (MMat (mm_size1 m) (mm_size2 m) d).
End MMIter.
Arguments mmsize {T}. Arguments mi_lb {T}. Arguments mi_key {T}. Arguments mi_loop {T}. Arguments mi_find {T}. Arguments mi_index {T}.
Arguments mi_index_o {T}. Arguments mi_valid {T}. Arguments mi_deref {T}. Arguments mi_inc {T}. Arguments mi_dec {T}. Arguments mi_visit {T}.
Arguments mi_walk {T}. Arguments mi_begin {T}. Arguments mi_end {T}. Arguments mi_inner {T}. Arguments mi_outer {T}. Arguments mi_traverse {T}.
Arguments mi_rwalk {T}. Arguments mi_rinner {T}. Arguments mi_router {T}. Arguments mi_rtraverse {T}. Arguments mi_store {T}.
