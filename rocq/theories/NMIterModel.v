(** NMIterModel.v -- iterators of mapped_vector_of_mapped_vector: matrix_sparse.hpp:1738-1785 and 1787-1834 (find1, both
    overloads are the same code), 1836-1883 and 1885-1932 (find2), 1935-2130 (const_iterator1), 2149-2315 (iterator1),
    2326-2521 (const_iterator2), 2540-2706 (iterator2), 2132-2147, 2317-2324, 2523-2538, 2708-2715 (begin1 .. end2).
    iterator1 and iterator2 are the same code with i and j exchanged: one definition here, parametrised by the direction w
    the iterator moves in.  itv_ is a position in data (), it_ a position in data () and one in the inner map there.
    Simplifications: the container identity checks of operator == are not modelled; iterators into different inner maps
    compare unequal (they are node pointers); an index decremented below 0 wraps around in C++, it is UB here. *)
From Verif Require Import Base LayoutModel SparseLib CMatModel NMapModel.
From Verif Require Export CMIterModel.
Open Scope nat_scope.

(** rank_ (true: 1), the index along w and the other one (i_, j_), itv_, it_ *)
Record nit := Nit { ni_rank : bool; ni_x : nat; ni_o : nat; ni_itv : nat; ni_it : nat * nat }.
(** operator ==: 2113-2122 *)
Definition ni_eq (a b : nit) : bool :=
  if ni_rank a || ni_rank b then (fst (ni_it a) =? fst (ni_it b)) && (snd (ni_it a) =? snd (ni_it b))
  else (ni_x a =? ni_x b) && (ni_o a =? ni_o b).

Section NMIter.
Variable T : Type.
Variable tzero : T.
Variable l : layout.
Variable chk : bool.
Definition nm_size (w : axis) (m : nmat T) : nat := match w with Ax1 => nm_s1 m | Ax2 => nm_s2 m end.

(** the for (;;) loop of find1 / find2: 1740-1785, 1838-1883; running out of fuel means it does not end *)
Fixpoint ni_loop (fuel : nat) (m : nmat T) (w : axis) (rank : bool) (x o : nat) (fwd : bool) : res nit :=
  match fuel with
  | 0 => UB
  | S fuel' =>
      let d := nm_data m in
      let itv := sm_lb (majM l (fst (pos w x o)) (snd (pos w x o))) d in
      if itv =? length d then
        if itv =? 0 then UB else
        let* c := rdn d (itv - 1) in Ok (Nit rank x o itv (itv - 1, length (snd c)))
      else
      let* c := rdn d itv in
      let key := minm l (fst (pos w x o)) (snd (pos w x o)) in
      let it := sm_lb key (snd c) in
      let it_end := length (snd c) in
      let ret := Ok (Nit rank x o itv (itv, it)) in
      if negb rank then
        let M := fst c in
        let* mn := (if it =? it_end then Ok (minm l (nm_s1 m) (nm_s2 m)) else let* e := rdn (snd c) it in Ok (fst e)) in
        Ok (Nit rank (match w with Ax1 => majM l M mn | Ax2 => minm l M mn end) o itv (itv, it))
      else
      let* hit := (if it =? it_end then Ok false else let* e := rdn (snd c) it in Ok (fst e =? key)) in
      if hit then ret else
      if fwd then
        if fast l w then
          if it =? it_end then ret else
          let* e := rdn (snd c) it in ni_loop fuel' m w rank (fst e) o fwd
        else
          if nm_size w m <=? x then ret else ni_loop fuel' m w rank (x + 1) o fwd
      else
        if fast l w then
          if it =? 0 then ret else
          let* e := rdn (snd c) (it - 1) in ni_loop fuel' m w rank (fst e) o fwd
        else
          if x =? 0 then ret else ni_loop fuel' m w rank (x - 1) o fwd
  end.
(** find1 (rank, i, j, direction), find2: 1739, 1837 *)
Definition ni_find (m : nmat T) (w : axis) (rank : bool) (x o : nat) (fwd : bool) : res nit :=
  check chk (match nm_data m with [] => false | _ => true end) internal_logic ;;
  ni_loop (nm_size w m + 2) m w rank x o fwd.
(** end1 (), end2 (): 2141-2143, 2532-2534 *)
Definition ni_last (m : nmat T) (w : axis) : res nit := ni_find m w false (nm_size w m) 0 true.
Definition ni_first (m : nmat T) (w : axis) : res nit := ni_find m w false 0 0 true.

(** the element it_ points to; the end of a map must not be dereferenced *)
Definition ni_elem (m : nmat T) (it : nit) : res (nat * T) :=
  let* c := rdn (nm_data m) (fst (ni_it it)) in rdn (snd c) (snd (ni_it it)).
(** layout_type::index_M (itv_->first, it_->first) for index1, index_m for index2: 2084-2085, 2093-2094 *)
Definition ni_raw (m : nmat T) (a : axis) (it : nit) : res nat :=
  let* cv := rdn (nm_data m) (ni_itv it) in
  let* e := ni_elem m it in
  Ok (match a with Ax1 => majM l (fst cv) (fst e) | Ax2 => minm l (fst cv) (fst e) end).
(** index1 () of iterator1, index2 () of iterator2: 2080-2089, 2480-2489 *)
Definition ni_index (m : nmat T) (w : axis) (it : nit) : res nat :=
  (if chk then let* e := ni_find m w false (nm_size w m) (ni_o it) true in check chk (negb (ni_eq it e)) bad_index else Ok tt) ;;
  if ni_rank it then
    let* x := ni_raw m w it in
    check chk (x <? nm_size w m) bad_index ;; Ok x
  else Ok (ni_x it).
(** index2 () of iterator1, index1 () of iterator2: 2090-2098, 2471-2479 *)
Definition ni_index_o (m : nmat T) (w : axis) (it : nit) : res nat :=
  if ni_rank it then
    let* x := ni_raw m (other w) it in
    check chk (x <? nm_size (other w) m) bad_index ;; Ok x
  else Ok (ni_o it).
(** the checks of operator *: 2009-2010, 2400-2401; index1 () comes first for both iterators *)
Definition ni_guard (m : nmat T) (w : axis) (it : nit) : res unit :=
  if chk then
    match w with
    | Ax1 => let* x := ni_index m w it in
             check chk (x <? nm_size w m) bad_index ;;
             let* o := ni_index_o m w it in
             check chk (o <? nm_size (other w) m) bad_index
    | Ax2 => let* o := ni_index_o m w it in
             check chk (o <? nm_size (other w) m) bad_index ;;
             let* x := ni_index m w it in
             check chk (x <? nm_size w m) bad_index
    end
  else Ok tt.
(** operator * of the const iterators: 2007-2016, 2398-2407 *)
Definition ni_deref (m : nmat T) (w : axis) (it : nit) : res T :=
  ni_guard m w it ;;
  if ni_rank it then let* e := ni_elem m it in Ok (snd e)
  else nm_get tzero l chk m (fst (pos w (ni_x it) (ni_o it))) (snd (pos w (ni_x it) (ni_o it))).
(** *it = v through iterator1 / iterator2: 2218-2227, 2609-2618; at_element: 1713-1725 (end () is dereferenced in unchecked
    builds) *)
Definition ni_store (m : nmat T) (w : axis) (it : nit) (v : T) : res (nmat T) :=
  ni_guard m w it ;;
  let* rq := (if ni_rank it then Ok (ni_it it) else
              let* p := nm_find l chk m (fst (pos w (ni_x it) (ni_o it))) (snd (pos w (ni_x it) (ni_o it))) in
              match p with None => if chk then Throw bad_index else UB | Some rq => Ok rq end) in
  nm_put m rq v.
(** operator ++: 1960-1981, 2171-2192, 2351-2372, 2562-2583 *)
Definition ni_inc (m : nmat T) (w : axis) (it : nit) : res nit :=
  if ni_rank it && fast l w then
    let* _ := ni_elem m it in
    Ok (Nit true (ni_x it) (ni_o it) (ni_itv it) (fst (ni_it it), snd (ni_it it) + 1))
  else if negb (ni_rank it) then
    let* _ := rdn (nm_data m) (ni_itv it) in
    let* c := rdn (nm_data m) (ni_itv it + 1) in
    Ok (Nit false (fst c) (ni_o it) (ni_itv it + 1) (ni_it it))
  else
    let* x := ni_index m w it in
    let* _ := rdn (nm_data m) (ni_itv it) in
    let itv := ni_itv it + 1 in
    let* e := ni_last m w in
    if itv =? ni_itv e then ni_find m w true (x + 1) (ni_o it) true else
    let* c := rdn (nm_data m) itv in
    let it' := Nit true (x + 1) (ni_o it) itv (itv, 0) in
    let* again := (match snd c with [] => Ok true | _ => let* o := ni_index_o m w it' in Ok (negb (o =? ni_o it)) end) in
    if again then ni_find m w true (x + 1) (ni_o it) true else Ok it'.
(** operator --: 1982-2004, 2193-2215, 2373-2395, 2584-2606 *)
Definition ni_dec (m : nmat T) (w : axis) (it : nit) : res nit :=
  if ni_rank it && fast l w then
    if snd (ni_it it) =? 0 then UB else Ok (Nit true (ni_x it) (ni_o it) (ni_itv it) (fst (ni_it it), snd (ni_it it) - 1))
  else if negb (ni_rank it) then
    if ni_itv it =? 0 then UB else
    let* c := rdn (nm_data m) (ni_itv it - 1) in
    Ok (Nit false (fst c) (ni_o it) (ni_itv it - 1) (ni_it it))
  else
    let* x := ni_index m w it in
    if x =? 0 then UB else
    if ni_itv it =? 0 then UB else
    let itv := ni_itv it - 1 in
    let* e := ni_last m w in
    if itv =? ni_itv e then ni_find m w true (x - 1) (ni_o it) false else
    let* c := rdn (nm_data m) itv in
    let it' := Nit true (x - 1) (ni_o it) itv (itv, 0) in
    let* again := (match snd c with [] => Ok true | _ => let* o := ni_index_o m w it' in Ok (negb (o =? ni_o it)) end) in
    if again then ni_find m w true (x - 1) (ni_o it) false else Ok it'.

(** visit (it.index1 (), it.index2 (), *it) *)
Definition ni_visit (m : nmat T) (w : axis) (it : nit) : res ((nat * nat) * T) :=
  let* x := ni_index m w it in
  let* o := ni_index_o m w it in
  let* v := ni_deref m w it in
  Ok (pos w x o, v).
(** for (it = first; it != last; ++ it) visit it *)
Fixpoint ni_walk (fuel : nat) (m : nmat T) (w : axis) (it last : nit) : res (list ((nat * nat) * T)) :=
  if ni_eq it last then Ok [] else
  match fuel with
  | 0 => UB
  | S fuel' =>
      let* e := ni_visit m w it in
      let* it' := ni_inc m w it in
      let* t := ni_walk fuel' m w it' last in
      Ok (e :: t)
  end.
(** .. between find1 (1, 0, j) and find1 (1, size1, j) (find2 (1, i, 0) and find2 (1, i, size2)), as matrix_column and
    matrix_row iterate: matrix_proxy.hpp *)
Definition ni_line (m : nmat T) (w : axis) (o : nat) : res (list ((nat * nat) * T)) :=
  let* b := ni_find m w true 0 o true in
  let* e := ni_find m w true (nm_size w m) o true in
  ni_walk (nm_size w m) m w b e.
(** it.begin (), it.end () of an outer iterator in direction [other w]: 2023-2026, 2038-2041, 2414-2417, 2429-2432, and the loop
    between them *)
Definition ni_inner (m : nmat T) (w : axis) (out : nit) : res (list ((nat * nat) * T)) :=
  let* o := ni_index m (other w) out in
  let* b := ni_find m w true 0 o true in
  let* o := ni_index m (other w) out in
  let* e := ni_find m w true (nm_size w m) o true in
  ni_walk (nm_size w m) m w b e.
(** the nested loops over begin1 () .. end1 (), begin2 () .. end2 (); [fuel] bounds the number of outer steps *)
Fixpoint ni_outer (fuel : nat) (m : nmat T) (w : axis) (it last : nit) : res (list ((nat * nat) * T)) :=
  if ni_eq it last then Ok [] else
  match fuel with
  | 0 => UB
  | S fuel' =>
      let* h := ni_inner m (other w) it in
      let* it' := ni_inc m w it in
      let* t := ni_outer fuel' m w it' last in
      Ok (h ++ t)
  end.
Definition ni_traverse (m : nmat T) (w : axis) : res (list ((nat * nat) * T)) :=
  let* b := ni_first m w in
  let* e := ni_last m w in
  ni_outer (length (nm_data m)) m w b e.

(** the nested loops with the body *it = g (it.index1 (), it.index2 (), *it), through the mutable iterators *)
Fixpoint ni_awalk (g : nat -> nat -> T -> T) (fuel : nat) (m : nmat T) (w : axis) (it last : nit) : res (nmat T) :=
  if ni_eq it last then Ok m else
  match fuel with
  | 0 => UB
  | S fuel' =>
      let* e := ni_visit m w it in
      let* m := ni_store m w it (g (fst (fst e)) (snd (fst e)) (snd e)) in
      let* it' := ni_inc m w it in
      ni_awalk g fuel' m w it' last
  end.
Fixpoint ni_aouter (g : nat -> nat -> T -> T) (fuel : nat) (m : nmat T) (w : axis) (it last : nit) : res (nmat T) :=
  if ni_eq it last then Ok m else
  match fuel with
  | 0 => UB
  | S fuel' =>
      let* o := ni_index m w it in
      let* b := ni_find m (other w) true 0 o true in
      let* o := ni_index m w it in
      let* e := ni_find m (other w) true (nm_size (other w) m) o true in
      let* m := ni_awalk g (nm_size (other w) m) m (other w) b e in
      let* it' := ni_inc m w it in
      ni_aouter g fuel' m w it' last
  end.
Definition ni_assign (g : nat -> nat -> T -> T) (m : nmat T) (w : axis) : res (nmat T) :=
  let* b := ni_first m w in
  let* e := ni_last m w in
  ni_aouter g (length (nm_data m)) m w b e.

(** reverse loops, reverse_iterator_base1/2 (detail/iterator.hpp): operator * and the indices are those of the base iterator
    moved back by one *)
Fixpoint ni_rwalk (fuel : nat) (m : nmat T) (w : axis) (it first : nit) : res (list ((nat * nat) * T)) :=
  if ni_eq it first then Ok [] else
  match fuel with
  | 0 => UB
  | S fuel' =>
      let* it' := ni_dec m w it in
      let* e := ni_visit m w it' in
      let* t := ni_rwalk fuel' m w it' first in
      Ok (e :: t)
  end.
Definition ni_rline (m : nmat T) (w : axis) (o : nat) : res (list ((nat * nat) * T)) :=
  let* b := ni_find m w true 0 o true in
  let* e := ni_find m w true (nm_size w m) o true in
  ni_rwalk (nm_size w m) m w e b.
(** rbegin1 () .. rend1 () outside, it.rbegin () .. it.rend () inside *)
Fixpoint ni_router (fuel : nat) (m : nmat T) (w : axis) (it first : nit) : res (list ((nat * nat) * T)) :=
  if ni_eq it first then Ok [] else
  match fuel with
  | 0 => UB
  | S fuel' =>
      let* it' := ni_dec m w it in
      let* o := ni_index m w it' in
      let* h := ni_rline m (other w) o in
      let* t := ni_router fuel' m w it' first in
      Ok (h ++ t)
  end.
Definition ni_rtraverse (m : nmat T) (w : axis) : res (list ((nat * nat) * T)) :=
  let* b := ni_first m w in
  let* e := ni_last m w in
  ni_router (length (nm_data m)) m w e b.
End NMIter.
Arguments nm_size {T}. Arguments ni_loop {T}. Arguments ni_find {T}. Arguments ni_last {T}. Arguments ni_first {T}. Arguments ni_elem {T}. Arguments ni_raw {T}.
Arguments ni_index {T}. Arguments ni_index_o {T}. Arguments ni_guard {T}. Arguments ni_deref {T}. Arguments ni_store {T}. Arguments ni_inc {T}. Arguments ni_dec {T}.
Arguments ni_visit {T}. Arguments ni_walk {T}. Arguments ni_line {T}. Arguments ni_inner {T}. Arguments ni_outer {T}. Arguments ni_traverse {T}. Arguments ni_awalk {T}.
Arguments ni_aouter {T}. Arguments ni_assign {T}. Arguments ni_rwalk {T}. Arguments ni_rline {T}. Arguments ni_router {T}. Arguments ni_rtraverse {T}.
