(** VVIterModel.v -- iterators of generalized_vector_of_vector<T, L, vector<V> >: vector_of_vector.hpp:353-505 (find1,
    find2, const and mutable: the same code), 508-690 (const_iterator1), 713-869 (iterator1), 880-1061 (const_iterator2),
    1084-1240 (iterator2), 692-711, 871-878, 1063-1082, 1242-1249 (begin1, end1, begin2, end2), 1252-1303 (reverse).
    iterator1 and iterator2 are the same code with i and j exchanged; they are one definition here, parametrised by the
    direction w the iterator moves in.  The lines are sparse vectors with the iterators of SVIterModel.v; using the lines
    of a matrix with coordinate_vector lines sorts them, so every operation returns the matrix too.
    Simplifications: unbounded natural indices; the same-matrix check of operator == is not modelled (all iterators used
    together belong to one matrix); a value computed twice, in a check and then in the return statement, is computed once;
    -- at index 0 wraps around in C++, it is UB here. *)
From Verif Require Import Base LayoutModel SparseLib CMatModel CMIterModel SVIterModel VVModel.
Open Scope nat_scope.

(** rank_ (true: 1), the index along w and the other one (i_, j_), itv_ - data ().begin (), and it_: the line it belongs
    to and its position in it *)
Record vit := Vit { vi_rank : bool; vi_x : nat; vi_o : nat; vi_v : nat; vi_l : nat; vi_p : nat }.

Section VVIter.
Context {S T : Type}.
Variable o : ivec S T.     (* the lines as elements of the matrix *)
Variable t : sviter S T.   (* and their iterators *)
Variable tzero : T.
Variable chk : bool.
Variable l : layout.
Definition vsize (w : axis) (m : @vvec S) : nat := match w with Ax1 => vv_s1 m | Ax2 => vv_s2 m end.

(** ( *itv).f () for the line itv points to; dereferencing an iterator of the outer vector checks its range
    (vector.hpp:588-591) *)
Definition line_do {A} (f : S -> res (S * A)) (m : vvec) (r : nat) : res (vvec * A) :=
  let* s := row_at chk (vv_data m) r in
  let* (s, a) := f s in
  let* d := wrn (vv_data m) r s in
  Ok (VV (vv_s1 m) (vv_s2 m) d, a).
Definition line_find (k : nat) := line_do (fun s => si_find t s k).
Definition line_begin := line_do (si_begin t).
Definition line_end := line_do (si_end t).
(** it_.index (), *it_ *)
Definition line_index (p : nat) := line_do (fun s => si_index t chk s p).
Definition line_deref (p : nat) := line_do (fun s => si_deref t chk s p).
(** it_ == it.it_ (vector_sparse.hpp:663-666, 1291-1294, 2053-2056): checked builds insist on iterators of one vector;
    otherwise the subiterators are compared, and those of elements of different vectors differ *)
Definition sub_eq (r1 p1 r2 p2 : nat) : res bool :=
  check chk (r1 =? r2) external_logic ;; Ok ((r1 =? r2) && (p1 =? p2)).
(** itv_.index () (vector.hpp:605-608) *)
Definition out_index (m : @vvec S) (v : nat) : res nat := check chk (v <? length (vv_data m)) bad_index ;; Ok v.

(** find1 (rank, i, j, direction): 355-391, 393-429; find2: 431-467, 469-505.  The for (;;) loop: running out of fuel means
    it does not end.  data ().find (r) is begin () + r (vector.hpp:496-510). *)
Fixpoint vi_loop (fuel : nat) (m : vvec) (w : axis) (rank : bool) (x oo : nat) (fwd : bool) : res (vvec * vit) :=
  match fuel with
  | 0 => UB
  | Datatypes.S fuel' =>
      let r := majM l (fst (pos w x oo)) (snd (pos w x oo)) in
      let k := minm l (fst (pos w x oo)) (snd (pos w x oo)) in
      if length (vv_data m) <? r then UB else
      if r =? length (vv_data m) then
        let* (m, e) := line_end m (r - 1) in Ok (m, Vit rank x oo r (r - 1) e)
      else
      let* (m, p) := line_find k m r in
      let* (m, e) := line_end m r in
      if negb rank then Ok (m, Vit rank x oo r r p) else
      let* (m, hit) := (if p =? e then Ok (m, false) else let* (m, k') := line_index p m r in Ok (m, k' =? k)) in
      if hit then Ok (m, Vit rank x oo r r p) else
      if fwd then
        if fast l w then
          if p =? e then Ok (m, Vit rank x oo r r p) else
          let* (m, k') := line_index p m r in vi_loop fuel' m w rank k' oo fwd
        else
          if vsize w m <=? x then Ok (m, Vit rank x oo r r p) else vi_loop fuel' m w rank (x + 1) oo fwd
      else
        if fast l w then
          let* (m, b) := line_begin m r in
          if p =? b then Ok (m, Vit rank x oo r r p) else
          let* p := si_dec p in
          let* (m, k') := line_index p m r in vi_loop fuel' m w rank k' oo fwd
        else
          if x =? 0 then Ok (m, Vit rank x oo r r p) else vi_loop fuel' m w rank (x - 1) oo fwd
  end.
Definition vi_find (m : vvec) (w : axis) (rank : bool) (x oo : nat) (fwd : bool) : res (vvec * vit) :=
  vi_loop (vsize w m + 2) m w rank x oo fwd.

(** operator ==: 677-686, 850-859, 1048-1057, 1221-1230 *)
Definition vi_eq (a b : vit) : res bool :=
  if vi_rank a || vi_rank b then sub_eq (vi_l a) (vi_p a) (vi_l b) (vi_p b)
  else Ok ((vi_x a =? vi_x b) && (vi_o a =? vi_o b)).

(** index1 () (a = Ax1) and index2 () (a = Ax2) of an iterator in direction w: 643-662, 816-835, 1014-1033, 1187-1206.
    Both compare with find_w (0, size, other index) first.  Both indices of the subiterators are evaluated, one is used. *)
Definition vi_index (a : axis) (m : vvec) (w : axis) (it : vit) : res (vvec * nat) :=
  let* m := (if chk then
      let* (m, e) := vi_find m w false (vsize w m) (vi_o it) true in
      let* b := vi_eq it e in check chk (negb b) bad_index ;; Ok m
    else Ok m) in
  if vi_rank it then
    let* v := out_index m (vi_v it) in
    let* (m, k) := line_index (vi_p it) m (vi_l it) in
    let x := match a with Ax1 => majM l v k | Ax2 => minm l v k end in
    check chk (x <? vsize a m) bad_index ;; Ok (m, x)
  else Ok (m, match a, w with Ax1, Ax1 | Ax2, Ax2 => vi_x it | _, _ => vi_o it end).

(** *it for the const iterators: 569-577, 941-949; at rank 1 also for the mutable ones (771-779, 1142-1150), which at rank 0
    refer to the element m (i_, j_) itself (at_element), creating it if need be *)
Definition vi_look (m : vvec) (w : axis) (it : vit) : res vvec :=
  if chk then
    let* (m, i) := vi_index Ax1 m w it in check chk (i <? vv_s1 m) bad_index ;;
    let* (m, j) := vi_index Ax2 m w it in check chk (j <? vv_s2 m) bad_index ;; Ok m
  else Ok m.
Definition vi_deref (m : vvec) (w : axis) (it : vit) : res (vvec * T) :=
  let* m := vi_look m w it in
  if vi_rank it then line_deref (vi_p it) m (vi_l it)
  else vv_get o tzero chk l m (fst (pos w (vi_x it) (vi_o it))) (snd (pos w (vi_x it) (vi_o it))).
(** *it = x for the mutable iterators *)
Definition vi_store (m : vvec) (w : axis) (it : vit) (x : T) : res vvec :=
  let* m := vi_look m w it in
  if vi_rank it then
    let* (m, _) := line_do (fun s => let* s := si_store t chk s (vi_p it) x in Ok (s, tt)) m (vi_l it) in Ok m
  else vv_set o chk l m (fst (pos w (vi_x it) (vi_o it))) (snd (pos w (vi_x it) (vi_o it))) x.

(** operator ++ (fwd) and --: 534-566, 736-768, 906-938, 1107-1139 *)
Definition vi_step (fwd : bool) (m : vvec) (w : axis) (it : vit) : res (vvec * vit) :=
  let next n := if fwd then Ok (n + 1) else si_dec n in
  if vi_rank it && fast l w then
    let* p := next (vi_p it) in Ok (m, Vit true (vi_x it) (vi_o it) (vi_v it) (vi_l it) p)
  else
    let* (m, i) := vi_index w m w it in
    let* x := next i in
    if negb (vi_rank it) then Ok (m, Vit false x (vi_o it) (vi_v it) (vi_l it) (vi_p it)) else
    let* v := next (vi_v it) in
    let* (m, e) := vi_find m w false (vsize w m) 0 true in
    if v =? vi_v e then vi_find m w true x (vi_o it) fwd else
    let* (m, p) := line_begin m v in
    let* (m, pe) := line_end m v in
    let it := Vit true x (vi_o it) v v p in
    if p =? pe then vi_find m w true x (vi_o it) fwd else
    let* (m, k) := vi_index (other w) m w it in
    if k =? vi_o it then Ok (m, it) else vi_find m w true x (vi_o it) fwd.

(** ** loops a user writes; fuel bounds the number of rounds, running out of it is UB *)
Definition vi_visit (m : vvec) (w : axis) (it : vit) : res (vvec * ((nat * nat) * T)) :=
  let* (m, i) := vi_index Ax1 m w it in
  let* (m, j) := vi_index Ax2 m w it in
  let* (m, v) := vi_deref m w it in
  Ok (m, ((i, j), v)).
(** begin1 () and end1 (), begin2 () and end2 () *)
Definition vi_obegin (m : vvec) (w : axis) : res (vvec * vit) := vi_find m w false 0 0 true.
Definition vi_oend (m : vvec) (w : axis) : res (vvec * vit) := vi_find m w false (vsize w m) 0 true.
(** it.begin () and it.end () of an iterator it in direction w: iterators in the other direction:
    585-603, 787-798, 957-975, 1158-1169 *)
Definition vi_begin (m : vvec) (w : axis) (it : vit) : res (vvec * vit) :=
  let* (m, i) := vi_index w m w it in vi_find m (other w) true 0 i true.
Definition vi_end (m : vvec) (w : axis) (it : vit) : res (vvec * vit) :=
  let* (m, i) := vi_index w m w it in vi_find m (other w) true (vsize (other w) m) i true.

(** for (it2 = it1.begin (); it2 != it1.end (); ++ it2) record (it2.index1 (), it2.index2 (), *it2), it1 in direction w *)
Fixpoint vi_walk (fuel : nat) (m : vvec) (w : axis) (it1 it2 : vit) : res (vvec * list ((nat * nat) * T)) :=
  match fuel with
  | 0 => UB
  | Datatypes.S fuel' =>
      let* (m, e) := vi_end m w it1 in
      let* b := vi_eq it2 e in
      if b then Ok (m, []) else
      let* (m, x) := vi_visit m (other w) it2 in
      let* (m, it2) := vi_step true m (other w) it2 in
      let* (m, xs) := vi_walk fuel' m w it1 it2 in Ok (m, x :: xs)
  end.
Definition vi_inner (m : vvec) (w : axis) (it1 : vit) : res (vvec * list ((nat * nat) * T)) :=
  let* (m, it2) := vi_begin m w it1 in vi_walk (vsize (other w) m + 1) m w it1 it2.
(** the same with it1.rbegin (), it1.rend (): 616-640, 803-812, 987-1011 and so on; * and the indices of a reverse iterator are those of
    its base moved back by one (detail/iterator.hpp:491-499, std::reverse_iterator) *)
Fixpoint vi_rwalk (fuel : nat) (m : vvec) (w : axis) (it1 it2 : vit) : res (vvec * list ((nat * nat) * T)) :=
  match fuel with
  | 0 => UB
  | Datatypes.S fuel' =>
      let* (m, e) := vi_begin m w it1 in
      let* b := vi_eq it2 e in
      if b then Ok (m, []) else
      let* (m, q) := vi_step false m (other w) it2 in
      let* (m, x) := vi_visit m (other w) q in
      let* (m, it2) := vi_step false m (other w) it2 in
      let* (m, xs) := vi_rwalk fuel' m w it1 it2 in Ok (m, x :: xs)
  end.
Definition vi_rinner (m : vvec) (w : axis) (it1 : vit) : res (vvec * list ((nat * nat) * T)) :=
  let* (m, it2) := vi_end m w it1 in vi_rwalk (vsize (other w) m + 1) m w it1 it2.
(** for (it1 = m.begin1 (); it1 != m.end1 (); ++ it1) (w = Ax1; begin2 () and end2 () for w = Ax2) around an inner loop *)
Fixpoint vi_outer {A} (inner : vvec -> axis -> vit -> res (vvec * list A)) (fuel : nat) (m : vvec) (w : axis) (it1 : vit) : res (vvec * list A) :=
  match fuel with
  | 0 => UB
  | Datatypes.S fuel' =>
      let* (m, e) := vi_oend m w in
      let* b := vi_eq it1 e in
      if b then Ok (m, []) else
      let* (m, xs) := inner m w it1 in
      let* (m, it1) := vi_step true m w it1 in
      let* (m, ys) := vi_outer inner fuel' m w it1 in Ok (m, xs ++ ys)
  end.
Definition vi_over {A} (inner : vvec -> axis -> vit -> res (vvec * list A)) (m : vvec) (w : axis) : res (vvec * list A) :=
  let* (m, it1) := vi_obegin m w in vi_outer inner (vsize w m + 1) m w it1.
Definition vi_traverse := vi_over vi_inner.
(** inner loop in the reverse direction *)
Definition vi_rtraverse := vi_over vi_rinner.
(** for (rit = m.rbegin1 (); rit != m.rend1 (); ++ rit) around an inner loop over rit's line: rit.begin () is the base moved
    back by one, then begin () (detail/iterator.hpp:502-510) *)
Fixpoint vi_router {A} (inner : vvec -> axis -> vit -> res (vvec * list A)) (fuel : nat) (m : vvec) (w : axis) (it1 : vit) : res (vvec * list A) :=
  match fuel with
  | 0 => UB
  | Datatypes.S fuel' =>
      let* (m, e) := vi_obegin m w in
      let* b := vi_eq it1 e in
      if b then Ok (m, []) else
      let* (m, q) := vi_step false m w it1 in
      let* (m, xs) := inner m w q in
      let* (m, it1) := vi_step false m w it1 in
      let* (m, ys) := vi_router inner fuel' m w it1 in Ok (m, xs ++ ys)
  end.
Definition vi_rover {A} (inner : vvec -> axis -> vit -> res (vvec * list A)) (m : vvec) (w : axis) : res (vvec * list A) :=
  let* (m, it1) := vi_oend m w in vi_router inner (vsize w m + 1) m w it1.
(** both loops reversed *)
Definition vi_reverse := vi_rover vi_rinner.
(** for (it2 = it1.begin (); it2 != it1.end (); ++ it2) *it2 = g (it2.index1 (), it2.index2 (), *it2) *)
Fixpoint vi_mapw (g : nat -> nat -> T -> T) (fuel : nat) (m : vvec) (w : axis) (it1 it2 : vit) : res vvec :=
  match fuel with
  | 0 => UB
  | Datatypes.S fuel' =>
      let* (m, e) := vi_end m w it1 in
      let* b := vi_eq it2 e in
      if b then Ok m else
      let* (m, ((i, j), x)) := vi_visit m (other w) it2 in
      let* m := vi_store m (other w) it2 (g i j x) in
      let* (m, it2) := vi_step true m (other w) it2 in
      vi_mapw g fuel' m w it1 it2
  end.
Definition vi_mapinner (g : nat -> nat -> T -> T) (m : vvec) (w : axis) (it1 : vit) : res (vvec * list unit) :=
  let* (m, it2) := vi_begin m w it1 in let* m := vi_mapw g (vsize (other w) m + 1) m w it1 it2 in Ok (m, []).
Definition vi_map (g : nat -> nat -> T -> T) (m : vvec) (w : axis) : res vvec :=
  let* (m, _) := vi_over (vi_mapinner g) m w in Ok m.
End VVIter.
