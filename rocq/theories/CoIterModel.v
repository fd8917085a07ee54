(** CoIterModel.v -- iterators of coordinate_matrix: matrix_sparse.hpp:4801-4840 and 4842-4881 (find1, both overloads are the
    same code), 4883-4922 and 4924-4963 (find2), 4966-5138 (const_iterator1), 5157-5300 (iterator1), 5311-5483
    (const_iterator2), 5502-5645 (iterator2), 5140-5155, 5302-5309, 5485-5500, 5647-5654 (begin1 .. end2).  iterator1 and
    iterator2 are the same code with i and j exchanged, except where noted; they are one definition here, parametrised by the
    direction w the iterator moves in.  Every find sorts the matrix first, so the matrix is threaded through all functions.
    Simplifications: unbounded natural indices (as in CoMatModel); the container identity checks of operator == are not
    modelled; an index decremented below 0 wraps around in C++, it is UB here.  itv_ and it_ are offsets into index1_data_
    and index2_data_, which are one array of pairs (CoMatModel). *)
From Verif Require Import Base LayoutModel SparseLib CVecModel CoordModel CMatModel CoMatModel CMIterModel.
Open Scope nat_scope.

Section CoIter.
Variable T : Type.
Variable tzero : T.
Variable tadd : T -> T -> T.
Variable IB : nat.
Variable std_sort : list ((nat * nat) * T) -> list ((nat * nat) * T).
Variable l : layout.
Variable chk : bool.
Definition oi_size (w : axis) (m : comat T) : nat := match w with Ax1 => ca_s1 m | Ax2 => ca_s2 m end.

(** the for (;;) loop of find1 / find2: 4803-4839, 4885-4921; running out of fuel means it does not end.  The backward test
    along the storage direction compares it with index2_data_.begin () + zero_based ( *itv): 4830, 4912. *)
Fixpoint oi_loop (fuel : nat) (m : comat T) (w : axis) (rank : bool) (x o : nat) (fwd : bool) : res cit :=
  match fuel with
  | 0 => UB
  | S fuel' =>
      let key := ca_key IB l (fst (pos w x o)) (snd (pos w x o)) in
      let* (_, it_end, it) := ca_range m key in
      let ret := Ok (Cit rank x o it it) in
      if negb rank then ret else
      let* hit := (if it =? it_end then Ok false else
                   let* c := rdn (ca_idx m) it in
                   Ok (zero_based IB (snd c) =? minm l (fst (pos w x o)) (snd (pos w x o)))) in
      if hit then ret else
      if fwd then
        if fast l w then
          if it =? it_end then ret else
          let* c := rdn (ca_idx m) it in oi_loop fuel' m w rank (zero_based IB (snd c)) o fwd
        else
          if oi_size w m <=? x then ret else oi_loop fuel' m w rank (x + 1) o fwd
      else
        if fast l w then
          let* c := rdn (ca_idx m) it in
          if it =? zero_based IB (fst c) then ret else
          if it =? 0 then UB else
          let* c := rdn (ca_idx m) (it - 1) in oi_loop fuel' m w rank (zero_based IB (snd c)) o fwd
        else
          if x =? 0 then ret else oi_loop fuel' m w rank (x - 1) o fwd
  end.
(** find1 (rank, i, j, direction), find2: 4801-4840, 4883-4922 *)
Definition oi_find (m : comat T) (w : axis) (rank : bool) (x o : nat) (fwd : bool) : res (comat T * cit) :=
  let* m := ca_sort tadd std_sort chk m in
  let* it := oi_loop (oi_size w m + 2) m w rank x o fwd in
  Ok (m, it).

(** layout_type::index_M (zero_based ( *itv_), zero_based ( *it_)) for index1, index_m for index2: 5092-5093, 5101-5102 *)
Definition oi_raw (m : comat T) (a : axis) (it : cit) : res nat :=
  let* cv := rdn (ca_idx m) (ci_itv it) in
  let* c := rdn (ca_idx m) (ci_it it) in
  Ok (match a with
      | Ax1 => majM l (zero_based IB (fst cv)) (zero_based IB (snd c))
      | Ax2 => minm l (zero_based IB (fst cv)) (zero_based IB (snd c))
      end).
(** index1 () of iterator1, index2 () of iterator2: 5089-5097, 5443-5451.  operator == (CMIterModel.ci_eq): 5122-5130 *)
Definition oi_index (m : comat T) (w : axis) (it : cit) : res (comat T * nat) :=
  let* m := (if chk then
               let* (m, e) := oi_find m w false (oi_size w m) (ci_o it) true in
               check chk (negb (ci_eq it e)) bad_index ;; Ok m
             else Ok m) in
  if ci_rank it then
    let* x := oi_raw m w it in
    check chk (x <? oi_size w m) bad_index ;;
    Ok (m, x)
  else Ok (m, ci_x it).
(** index2 () of iterator1, index1 () of iterator2: 5099-5106, 5434-5441 *)
Definition oi_index_o (m : comat T) (w : axis) (it : cit) : res nat :=
  if ci_rank it then
    let* x := oi_raw m (other w) it in
    check chk (x <? oi_size (other w) m) bad_index ;;
    Ok x
  else Ok (ci_o it).
(** the checks of operator *: 5017-5018, 5362-5363; index1 () comes first for both iterators *)
Definition oi_guard (m : comat T) (w : axis) (it : cit) : res (comat T) :=
  if chk then
    match w with
    | Ax1 => let* (m, x) := oi_index m w it in
             check chk (x <? oi_size w m) bad_index ;;
             let* o := oi_index_o m w it in
             check chk (o <? oi_size (other w) m) bad_index ;; Ok m
    | Ax2 => let* o := oi_index_o m w it in
             check chk (o <? oi_size (other w) m) bad_index ;;
             let* (m, x) := oi_index m w it in
             check chk (x <? oi_size w m) bad_index ;; Ok m
    end
  else Ok m.
(** operator * of the const iterators: 5016-5024, 5361-5369 *)
Definition oi_deref (m : comat T) (w : axis) (it : cit) : res (comat T * T) :=
  let* m := oi_guard m w it in
  if ci_rank it then let* v := rdn (ca_val m) (ci_it it) in Ok (m, v)
  else ca_get tzero tadd IB std_sort l chk m (fst (pos w (ci_x it) (ci_o it))) (snd (pos w (ci_x it) (ci_o it))).
(** *it = v through iterator1 / iterator2: 5204-5212, 5549-5557; at_element: 4782-4787 (the null pointer is dereferenced in
    unchecked builds) *)
Definition oi_store (m : comat T) (w : axis) (it : cit) (v : T) : res (comat T) :=
  let* m := oi_guard m w it in
  let* (m, n) := (if ci_rank it then Ok (m, ci_it it) else
                  let* (m, p) := ca_find tadd IB std_sort l chk m (fst (pos w (ci_x it) (ci_o it))) (snd (pos w (ci_x it) (ci_o it))) in
                  check chk (match p with None => false | Some _ => true end) bad_index ;;
                  match p with None => UB | Some n => Ok (m, n) end) in
  let* val := wrn (ca_val m) n v in
  Ok (CoMat (ca_s1 m) (ca_s2 m) (ca_cap m) (ca_filled m) (ca_sf m) (ca_sorted m) (ca_idx m) val).
(** operator ++: 4992-5001, 5180-5189, 5337-5346, 5525-5534 *)
Definition oi_inc (m : comat T) (w : axis) (it : cit) : res (comat T * cit) :=
  if ci_rank it && fast l w then Ok (m, Cit true (ci_x it) (ci_o it) (ci_itv it) (ci_it it + 1)) else
  let* (m, x) := oi_index m w it in
  if ci_rank it then oi_find m w true (x + 1) (ci_o it) true
  else Ok (m, Cit false (x + 1) (ci_o it) (ci_itv it) (ci_it it)).
(** operator --: 5003-5012, 5191-5200, 5348-5357, 5536-5545.  The mutable iterator2 (mut = true, w = Ax2) does not subtract
    1: 5540. *)
Definition oi_dec (mut : bool) (m : comat T) (w : axis) (it : cit) : res (comat T * cit) :=
  if ci_rank it && fast l w then
    if ci_it it =? 0 then UB else Ok (m, Cit true (ci_x it) (ci_o it) (ci_itv it) (ci_it it - 1))
  else
    let* (m, x) := oi_index m w it in
    let* x := (if mut && match w with Ax1 => false | Ax2 => true end then Ok x else if x =? 0 then UB else Ok (x - 1)) in
    if ci_rank it then oi_find m w true x (ci_o it) false
    else Ok (m, Cit false x (ci_o it) (ci_itv it) (ci_it it)).

(** visit (it.index1 (), it.index2 (), *it) *)
Definition oi_visit (m : comat T) (w : axis) (it : cit) : res (comat T * ((nat * nat) * T)) :=
  let* (m, x) := oi_index m w it in
  let* o := oi_index_o m w it in
  let* (m, v) := oi_deref m w it in
  Ok (m, (pos w x o, v)).
(** for (it = first; it != last; ++ it) visit it *)
Fixpoint oi_walk (fuel : nat) (m : comat T) (w : axis) (it last : cit) : res (comat T * list ((nat * nat) * T)) :=
  if ci_eq it last then Ok (m, []) else
  match fuel with
  | 0 => UB
  | S fuel' =>
      let* (m, e) := oi_visit m w it in
      let* (m, it') := oi_inc m w it in
      let* (m, t) := oi_walk fuel' m w it' last in
      Ok (m, e :: t)
  end.
(** it.begin () and it.end () of an outer iterator [out] in direction [other w]: 5031-5034, 5046-5049, 5376-5379, 5391-5394 *)
Definition oi_begin (m : comat T) (w : axis) (out : cit) : res (comat T * cit) :=
  let* (m, o) := oi_index m (other w) out in oi_find m w true 0 o true.
Definition oi_end (m : comat T) (w : axis) (out : cit) : res (comat T * cit) :=
  let* (m, o) := oi_index m (other w) out in oi_find m w true (oi_size w m) o true.
Definition oi_inner (m : comat T) (w : axis) (out : cit) : res (comat T * list ((nat * nat) * T)) :=
  let* (m, b) := oi_begin m w out in
  let* (m, e) := oi_end m w out in
  oi_walk (oi_size w m) m w b e.
(** the nested loops over begin1 () .. end1 (): 5141-5151, begin2 () .. end2 (): 5486-5496 *)
Definition oi_first (m : comat T) (w : axis) : res (comat T * cit) := oi_find m w false 0 0 true.
Definition oi_last (m : comat T) (w : axis) : res (comat T * cit) := oi_find m w false (oi_size w m) 0 true.
Fixpoint oi_outer (fuel : nat) (m : comat T) (w : axis) (it last : cit) : res (comat T * list ((nat * nat) * T)) :=
  if ci_eq it last then Ok (m, []) else
  match fuel with
  | 0 => UB
  | S fuel' =>
      let* (m, h) := oi_inner m (other w) it in
      let* (m, it') := oi_inc m w it in
      let* (m, t) := oi_outer fuel' m w it' last in
      Ok (m, h ++ t)
  end.
Definition oi_traverse (m : comat T) (w : axis) : res (comat T * list ((nat * nat) * T)) :=
  let* (m, b) := oi_first m w in
  let* (m, e) := oi_last m w in
  oi_outer (oi_size w m) m w b e.

(** the same loops with the body *it = g (it.index1 (), it.index2 (), *it), through the mutable iterators *)
Fixpoint oi_awalk (g : nat -> nat -> T -> T) (fuel : nat) (m : comat T) (w : axis) (it last : cit) : res (comat T) :=
  if ci_eq it last then Ok m else
  match fuel with
  | 0 => UB
  | S fuel' =>
      let* (m, e) := oi_visit m w it in
      let* m := oi_store m w it (g (fst (fst e)) (snd (fst e)) (snd e)) in
      let* (m, it') := oi_inc m w it in
      oi_awalk g fuel' m w it' last
  end.
Fixpoint oi_aouter (g : nat -> nat -> T -> T) (fuel : nat) (m : comat T) (w : axis) (it last : cit) : res (comat T) :=
  if ci_eq it last then Ok m else
  match fuel with
  | 0 => UB
  | S fuel' =>
      let* (m, b) := oi_begin m (other w) it in
      let* (m, e) := oi_end m (other w) it in
      let* m := oi_awalk g (oi_size (other w) m) m (other w) b e in
      let* (m, it') := oi_inc m w it in
      oi_aouter g fuel' m w it' last
  end.
Definition oi_assign (g : nat -> nat -> T -> T) (m : comat T) (w : axis) : res (comat T) :=
  let* (m, b) := oi_first m w in
  let* (m, e) := oi_last m w in
  oi_aouter g (oi_size w m) m w b e.

(** Reverse loops: for (it = rbegin (); it != rend (); ++ it), reverse_iterator_base1/2 (iterator.hpp): * and the indices are
    those of the base iterator moved back by one.  [mut]: mutable iterators. *)
Fixpoint oi_rwalk (mut : bool) (fuel : nat) (m : comat T) (w : axis) (it first : cit) : res (comat T * list ((nat * nat) * T)) :=
  if ci_eq it first then Ok (m, []) else
  match fuel with
  | 0 => UB
  | S fuel' =>
      let* (m, it') := oi_dec mut m w it in
      let* (m, e) := oi_visit m w it' in
      let* (m, t) := oi_rwalk mut fuel' m w it' first in
      Ok (m, e :: t)
  end.
Definition oi_rinner (mut : bool) (m : comat T) (w : axis) (out : cit) : res (comat T * list ((nat * nat) * T)) :=
  let* (m, b) := oi_begin m w out in
  let* (m, e) := oi_end m w out in
  oi_rwalk mut (oi_size w m) m w e b.
(** reversed outer loop rbegin1 () .. rend1 () (rbegin2 () .. rend2 ()), forward inner loop *)
Fixpoint oi_router (mut : bool) (fuel : nat) (m : comat T) (w : axis) (it first : cit) : res (comat T * list ((nat * nat) * T)) :=
  if ci_eq it first then Ok (m, []) else
  match fuel with
  | 0 => UB
  | S fuel' =>
      let* (m, it') := oi_dec mut m w it in
      let* (m, h) := oi_inner m (other w) it' in
      let* (m, t) := oi_router mut fuel' m w it' first in
      Ok (m, h ++ t)
  end.
Definition oi_rtraverse (mut : bool) (fuel : nat) (m : comat T) (w : axis) : res (comat T * list ((nat * nat) * T)) :=
  let* (m, b) := oi_first m w in
  let* (m, e) := oi_last m w in
  oi_router mut fuel m w e b.
End CoIter.
Arguments oi_size {T}. Arguments oi_loop {T}. Arguments oi_find {T}. Arguments oi_raw {T}. Arguments oi_index {T}. Arguments oi_index_o {T}.
Arguments oi_guard {T}. Arguments oi_deref {T}. Arguments oi_store {T}. Arguments oi_inc {T}. Arguments oi_dec {T}. Arguments oi_visit {T}.
Arguments oi_walk {T}. Arguments oi_begin {T}. Arguments oi_end {T}. Arguments oi_inner {T}. Arguments oi_first {T}. Arguments oi_last {T}.
Arguments oi_outer {T}. Arguments oi_traverse {T}. Arguments oi_awalk {T}. Arguments oi_aouter {T}. Arguments oi_assign {T}.
Arguments oi_rwalk {T}. Arguments oi_rinner {T}. Arguments oi_router {T}. Arguments oi_rtraverse {T}.
