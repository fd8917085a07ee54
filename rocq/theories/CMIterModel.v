(** CMIterModel.v -- iterators of compressed_matrix: matrix_sparse.hpp:3301-3459 (find1, find2, both
    overloads of each are the same code), 3462-3632 (const_iterator1), 3653-3796 (iterator1), 3807-3977
    (const_iterator2), 3998-4141 (iterator2).  iterator1 and iterator2 are the same code with i and j
    exchanged; they are one definition here, parametrised by the direction w the iterator moves in.
    Simplifications: unbounded natural indices (as in CMatModel); the container identity checks of operator ==
    are not modelled; -- at index 0 wraps around in C++, it is UB here. *)
From Verif Require Import Base LayoutModel SparseLib CVecModel CMatModel.
Open Scope nat_scope.

(** The direction an iterator moves in: iterator1 changes i, iterator2 changes j. *)
Inductive axis := Ax1 | Ax2.
Definition other (w : axis) : axis := match w with Ax1 => Ax2 | Ax2 => Ax1 end.
(** position with index x in direction w and o in the other one *)
Definition pos (w : axis) (x o : nat) : nat * nat := match w with Ax1 => (x, o) | Ax2 => (o, x) end.
(** layout_type::fast_i () for iterator1, fast_j () for iterator2: functional.hpp:1459-1466 (row major),
    1637-1644 (column major) *)
Definition fast (l : layout) (w : axis) : bool :=
  match l, w with RowMajor, Ax2 | ColMajor, Ax1 => true | _, _ => false end.

(** rank_ (true: 1), the index along w and the other one (i_, j_), itv_ - index1_data_.begin (),
    it_ - index2_data_.begin () *)
Record cit := Cit { ci_rank : bool; ci_x : nat; ci_o : nat; ci_itv : nat; ci_it : nat }.

Section CMIter.
Variable T : Type.
Variable tzero : T.
Variable IB : nat.
Variable l : layout.
Definition axsize (w : axis) (m : cmat T) : nat := match w with Ax1 => cm_s1 m | Ax2 => cm_s2 m end.

(** find1 (rank, i, j, direction): 3301-3339; find2: 3381-3419.  The for (;;) loop: running out of fuel
    means it does not end. *)
Fixpoint ci_loop (fuel : nat) (m : cmat T) (w : axis) (rank : bool) (x o : nat) (fwd : bool) : res cit :=
  match fuel with
  | 0 => UB
  | S fuel' =>
      let address1 := majM l (fst (pos w x o)) (snd (pos w x o)) in
      let address2 := minm l (fst (pos w x o)) (snd (pos w x o)) in
      let itv := Nat.min (cm_f1 m - 1) address1 in
      if cm_f1 m <=? address1 + 1 then Ok (Cit rank x o itv (cm_f2 m)) else
      let* b := rdn (cm_i1 m) itv in
      let* e := rdn (cm_i1 m) (itv + 1) in
      let it_begin := zero_based IB b in
      let it_end := zero_based IB e in
      let* it := lower_bound (idx_less (cm_i2 m) (k_based IB address2)) it_begin it_end in
      if negb rank then Ok (Cit rank x o itv it) else
      let* hit := (if it =? it_end then Ok false else let* k := rdn (cm_i2 m) it in Ok (zero_based IB k =? address2)) in
      if hit then Ok (Cit rank x o itv it) else
      if fwd then
        if fast l w then
          if it =? it_end then Ok (Cit rank x o itv it) else
          let* k := rdn (cm_i2 m) it in ci_loop fuel' m w rank (zero_based IB k) o fwd
        else
          if axsize w m <=? x then Ok (Cit rank x o itv it) else ci_loop fuel' m w rank (x + 1) o fwd
      else
        if fast l w then
          if it =? it_begin then Ok (Cit rank x o itv it) else
          let* k := rdn (cm_i2 m) (it - 1) in ci_loop fuel' m w rank (zero_based IB k) o fwd
        else
          if x =? 0 then Ok (Cit rank x o itv it) else ci_loop fuel' m w rank (x - 1) o fwd
  end.
Definition ci_find (m : cmat T) (w : axis) (rank : bool) (x o : nat) (fwd : bool) : res cit :=
  ci_loop (axsize w m + 2) m w rank x o fwd.

(** operator ==: 3618-3626 *)
Definition ci_eq (a b : cit) : bool :=
  if ci_rank a || ci_rank b then ci_it a =? ci_it b else (ci_x a =? ci_x b) && (ci_o a =? ci_o b).

(** layout_type::index_M (itv_ - begin, zero_based ( *it_)) for index1, index_m for index2: 3588-3589, 3597-3598 *)
Definition ci_raw (m : cmat T) (a : axis) (it : cit) : res nat :=
  let* k := rdn (cm_i2 m) (ci_it it) in
  Ok (match a with Ax1 => majM l (ci_itv it) (zero_based IB k) | Ax2 => minm l (ci_itv it) (zero_based IB k) end).
(** index1 () of iterator1, index2 () of iterator2: 3585-3593, 3939-3947 *)
Definition ci_index (chk : bool) (m : cmat T) (w : axis) (it : cit) : res nat :=
  (if chk then
     let* e := ci_find m w false (axsize w m) (ci_o it) true in
     check chk (negb (ci_eq it e)) bad_index
   else Ok tt) ;;
  if ci_rank it then
    let* x := ci_raw m w it in
    check chk (x <? axsize w m) bad_index ;;
    Ok x
  else Ok (ci_x it).
(** index2 () of iterator1, index1 () of iterator2: 3595-3602, 3930-3937 *)
Definition ci_index_o (chk : bool) (m : cmat T) (w : axis) (it : cit) : res nat :=
  if ci_rank it then
    let* x := ci_raw m (other w) it in
    check chk (x <? axsize (other w) m) bad_index ;;
    Ok x
  else Ok (ci_o it).
(** operator * of the const iterators: 3512-3520 *)
Definition ci_deref (chk : bool) (m : cmat T) (w : axis) (it : cit) : res T :=
  (if chk then
     let* x := ci_index chk m w it in
     let* o := ci_index_o chk m w it in
     check chk (x <? axsize w m) bad_index ;;
     check chk (o <? axsize (other w) m) bad_index
   else Ok tt) ;;
  if ci_rank it then rdn (cm_v m) (ci_it it)
  else cm_get tzero IB l m (fst (pos w (ci_x it) (ci_o it))) (snd (pos w (ci_x it) (ci_o it))).
(** operator ++: 3488-3497 *)
Definition ci_inc (chk : bool) (m : cmat T) (w : axis) (it : cit) : res cit :=
  if ci_rank it && fast l w then Ok (Cit true (ci_x it) (ci_o it) (ci_itv it) (ci_it it + 1)) else
  let* x := ci_index chk m w it in
  if ci_rank it then ci_find m w true (x + 1) (ci_o it) true
  else Ok (Cit false (x + 1) (ci_o it) (ci_itv it) (ci_it it)).
(** operator --: 3499-3508 *)
Definition ci_dec (m : cmat T) (w : axis) (it : cit) : res cit :=
  if ci_rank it && fast l w then
    if ci_it it =? 0 then UB else Ok (Cit true (ci_x it) (ci_o it) (ci_itv it) (ci_it it - 1))
  else
    if ci_x it =? 0 then UB else
    if ci_rank it then ci_find m w true (ci_x it - 1) (ci_o it) false
    else Ok (Cit false (ci_x it - 1) (ci_o it) (ci_itv it) (ci_it it)).

(** for (it = first; it != last; ++ it) visit (it.index1 (), it.index2 (), *it) *)
Definition ci_visit (chk : bool) (m : cmat T) (w : axis) (it : cit) : res ((nat * nat) * T) :=
  let* x := ci_index chk m w it in
  let* o := ci_index_o chk m w it in
  let* v := ci_deref chk m w it in
  Ok (pos w x o, v).
Fixpoint ci_walk (fuel : nat) (chk : bool) (m : cmat T) (w : axis) (it last : cit) : res (list ((nat * nat) * T)) :=
  if ci_eq it last then Ok [] else
  match fuel with
  | 0 => UB
  | S fuel' =>
      let* e := ci_visit chk m w it in
      let* it' := ci_inc chk m w it in
      let* t := ci_walk fuel' chk m w it' last in
      Ok (e :: t)
  end.
(** it.begin () and it.end () of an outer iterator in direction [other w] at index o: 3527-3545, 3872-3890 *)
Definition ci_begin (m : cmat T) (w : axis) (o : nat) : res cit := ci_find m w true 0 o true.
Definition ci_end (m : cmat T) (w : axis) (o : nat) : res cit := ci_find m w true (axsize w m) o true.
Definition ci_inner (chk : bool) (m : cmat T) (w : axis) (o : nat) : res (list ((nat * nat) * T)) :=
  let* b := ci_begin m w o in
  let* e := ci_end m w o in
  ci_walk (axsize w m) chk m w b e.
(** begin1 () / end1 (): 3637-3650; begin2 () / end2 (); the usual pair of nested loops
    for (it1 = begin1 (); it1 != end1 (); ++ it1) for (it2 = it1.begin (); it2 != it1.end (); ++ it2) *)
Fixpoint ci_outer (fuel : nat) (chk : bool) (m : cmat T) (w : axis) (it last : cit) : res (list ((nat * nat) * T)) :=
  if ci_eq it last then Ok [] else
  match fuel with
  | 0 => UB
  | S fuel' =>
      let* o := ci_index chk m w it in
      let* h := ci_inner chk m (other w) o in
      let* it' := ci_inc chk m w it in
      let* t := ci_outer fuel' chk m w it' last in
      Ok (h ++ t)
  end.
Definition ci_traverse (chk : bool) (m : cmat T) (w : axis) : res (list ((nat * nat) * T)) :=
  let* b := ci_find m w false 0 0 true in
  let* e := ci_find m w false (axsize w m) 0 true in
  ci_outer (axsize w m) chk m w b e.

(** Reverse iteration inside a line: for (it = rbegin (); it != rend (); ++ it), reverse_iterator_base
    (iterator.hpp): * and the indices are those of the base iterator moved back by one. *)
Fixpoint ci_rwalk (fuel : nat) (chk : bool) (m : cmat T) (w : axis) (it first : cit) : res (list ((nat * nat) * T)) :=
  if ci_eq it first then Ok [] else
  match fuel with
  | 0 => UB
  | S fuel' =>
      let* it' := ci_dec m w it in
      let* e := ci_visit chk m w it' in
      let* t := ci_rwalk fuel' chk m w it' first in
      Ok (e :: t)
  end.
Definition ci_rinner (chk : bool) (m : cmat T) (w : axis) (o : nat) : res (list ((nat * nat) * T)) :=
  let* b := ci_begin m w o in
  let* e := ci_end m w o in
  ci_rwalk (axsize w m) chk m w e b.

(** *it = x through a mutable iterator of rank 1 (what the inner loops yield): 3700-3708; rank 0
    (at_element) is not modelled *)
Definition ci_store (chk : bool) (m : cmat T) (w : axis) (it : cit) (x : T) : res (cmat T) :=
  (if chk then
     let* i := ci_index chk m w it in
     let* o := ci_index_o chk m w it in
     check chk (i <? axsize w m) bad_index ;;
     check chk (o <? axsize (other w) m) bad_index
   else Ok tt) ;;
  if ci_rank it then
    let* v := wrn (cm_v m) (ci_it it) x in
    Ok (CMat (cm_s1 m) (cm_s2 m) (cm_cap m) (cm_f1 m) (cm_f2 m) (cm_i1 m) (cm_i2 m) v)
  else UB.
End CMIter.
Arguments axsize {T}. Arguments ci_loop {T}. Arguments ci_find {T}. Arguments ci_raw {T}. Arguments ci_index {T}. Arguments ci_index_o {T}.
Arguments ci_deref {T}. Arguments ci_inc {T}. Arguments ci_dec {T}. Arguments ci_visit {T}. Arguments ci_walk {T}. Arguments ci_begin {T}.
Arguments ci_end {T}. Arguments ci_inner {T}. Arguments ci_outer {T}. Arguments ci_traverse {T}. Arguments ci_rwalk {T}.
Arguments ci_rinner {T}. Arguments ci_store {T}.
