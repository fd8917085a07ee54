(** DMIterModel.v -- iterators of the dense matrix<T, L>.
    Sources (under /repo/include/boost/numeric/ublas/): matrix.hpp 442-1160, functional.hpp
    1436-1520 (row major), 1614-1700 (column major), detail/iterator.hpp 417-640 (reverse iterators).
    An iterator1 / iterator2 holds a pointer it_ into the storage array; the model keeps
    it_ - data ().begin () as an unbounded integer.  Simplification: forming a pointer outside the
    array is not itself an error (find1 (0, size1, j) does it in the real code too), only accessing
    through it is.  iterator1 and const_iterator1 (2) have the same body and share one model. *)
From Verif Require Import Base LayoutModel PackedModel.
Open Scope Z_scope.

(** D1: iterator1, moves along the rows (first index); D2: iterator2, moves along the second index *)
Inductive dir := D1 | D2.
Definition flip (w : dir) : dir := match w with D1 => D2 | D2 => D1 end.

(** conversions between difference_type (64 bit signed) and size_type (64 bit unsigned) *)
Definition to_size (k : Z) : N := Z.to_N (k mod Z.of_N W).
Definition to_diff (n : N) : Z := if (n <? W / 2)%N then Z.of_N n else Z.of_N n - Z.of_N W.

(** increment_i / increment_j (it, n, size_i, size_j): functional.hpp:1469-1479 and 1493-1503 (row),
    1647-1657 and 1671-1681 (column).  n * size_j is computed in size_type and added to a pointer,
    which wraps to the same address as the integer sum. *)
Definition increment_i (l : layout) (it n : Z) (si sj : N) : Z :=
  match l with RowMajor => it + n * Z.of_N sj | ColMajor => it + n end.
Definition increment_j (l : layout) (it n : Z) (si sj : N) : Z :=
  match l with RowMajor => it + n | ColMajor => it + n * Z.of_N si end.
(** decrement_i / decrement_j: functional.hpp:1481-1491 and 1505-1515 (row), 1659-1669, 1683-1693. *)
Definition decrement_i (l : layout) (it n : Z) (si sj : N) : Z :=
  match l with RowMajor => it - n * Z.of_N sj | ColMajor => it - n end.
Definition decrement_j (l : layout) (it n : Z) (si sj : N) : Z :=
  match l with RowMajor => it - n | ColMajor => it - n * Z.of_N si end.
(** distance_i, distance_j: functional.hpp:1437-1446 (row), 1615-1624 (column).
    k / size_j divides a difference_type by a size_type: k is converted to size_type first, and the
    quotient back to difference_type. *)
Definition distance_i (l : layout) (k : Z) (si sj : N) : Z :=
  match l with
  | RowMajor => if (sj =? 0)%N then 0 else to_diff (to_size k / sj)%N
  | ColMajor => k
  end.
Definition distance_j (l : layout) (k : Z) (si sj : N) : Z :=
  match l with
  | RowMajor => k
  | ColMajor => if (si =? 0)%N then 0 else to_diff (to_size k / si)%N
  end.

Section DMIter.
Context {T : Type}.
Variables (chk : bool) (l : layout).
Implicit Type m : mat T.

(** find1 (rank, i, j), find2 (rank, i, j): matrix.hpp:452-487. *)
Definition dm_find m (i j : N) : res Z :=
  let* a := address chk l i (msize1 m) j (msize2 m) in Ok (Z.of_N a).
(** += n, -= n: matrix.hpp:520-529 (iterator1), 843-852 (iterator2); ++ and -- (510-519, 833-842)
    are the same layout functions without n, that is with n = 1. *)
Definition dm_add m (w : dir) (it n : Z) : Z :=
  match w with D1 => increment_i l it n (msize1 m) (msize2 m) | D2 => increment_j l it n (msize1 m) (msize2 m) end.
Definition dm_sub m (w : dir) (it n : Z) : Z :=
  match w with D1 => decrement_i l it n (msize1 m) (msize2 m) | D2 => decrement_j l it n (msize1 m) (msize2 m) end.
Definition dm_inc m (w : dir) (it : Z) : Z := dm_add m w it 1.
Definition dm_dec m (w : dir) (it : Z) : Z := dm_sub m w it 1.
(** operator - (it): matrix.hpp:530-533, 853-856. *)
Definition dm_diff m (w : dir) (a b : Z) : Z :=
  match w with D1 => distance_i l (a - b) (msize1 m) (msize2 m) | D2 => distance_j l (a - b) (msize1 m) (msize2 m) end.
(** index1 (), index2 (): matrix.hpp:609-618, 932-941 (begin1 () is the start of the storage). *)
Definition dm_index1 m (it : Z) : N := index_i l (to_size it) (msize1 m) (msize2 m).
Definition dm_index2 m (it : Z) : N := index_j l (to_size it) (msize1 m) (msize2 m).
(** operator ==, operator <: matrix.hpp:629-638, 952-961: the pointers are compared. *)
Definition dm_eq (a b : Z) : bool := a =? b.
Definition dm_lt (a b : Z) : bool := a <? b.
(** operator * read: matrix.hpp:536-541, 859-864. *)
Definition dm_get m (it : Z) : res T :=
  check chk (dm_index1 m it <? msize1 m)%N bad_index ;;
  check chk (dm_index2 m it <? msize2 m)%N bad_index ;;
  if it <? 0 then UB else rd (mdata m) (Z.to_N it).
(** operator * of a mutable iterator, assigned through: matrix.hpp:714-719, 1037-1042. *)
Definition dm_put m (it : Z) (v : T) : res (mat T) :=
  check chk (dm_index1 m it <? msize1 m)%N bad_index ;;
  check chk (dm_index2 m it <? msize2 m)%N bad_index ;;
  if it <? 0 then UB else let* d := wr (mdata m) (Z.to_N it) v in Ok (Mat (msize1 m) (msize2 m) d).
(** begin1, end1: matrix.hpp:647-658, 797-804; begin2, end2: 970-981, 1120-1127. *)
Definition dm_begin m (w : dir) : res Z := dm_find m 0 0.
Definition dm_end m (w : dir) : res Z :=
  match w with D1 => dm_find m (msize1 m) 0 | D2 => dm_find m 0 (msize2 m) end.
(** begin (), end () of an iterator: the dual iterator over the line it points at:
    matrix.hpp:547-574 (find2 (1, index1 (), 0) ...), 870-897 (find1 (1, 0, index2 ()) ...). *)
Definition dm_dual_begin m (w : dir) (it : Z) : res Z :=
  match w with D1 => dm_find m (dm_index1 m it) 0 | D2 => dm_find m 0 (dm_index2 m it) end.
Definition dm_dual_end m (w : dir) (it : Z) : res Z :=
  match w with D1 => dm_find m (dm_index1 m it) (msize2 m) | D2 => dm_find m (msize1 m) (dm_index2 m it) end.

(** for (; it != e; step it) body: UB when [fuel] steps do not reach e. *)
Fixpoint dm_for {S : Type} (fuel : nat) (step : Z -> Z) (it e : Z) (body : Z -> S -> res S) (s : S) : res S :=
  if dm_eq it e then Ok s else
  match fuel with
  | O => UB
  | Datatypes.S fuel => let* s1 := body it s in dm_for fuel step (step it) e body s1
  end.
Definition dm_fuel m (w : dir) : nat := N.to_nat (match w with D1 => msize1 m | D2 => msize2 m end).

(** for (it1 = begin1 (); it1 != end1 (); ++ it1) for (it2 = it1.begin (); it2 != it1.end (); ++ it2)
    body (it2)   (w = D1; columns outside for w = D2).  Only the sizes of m are used here. *)
Definition dm_nested {S : Type} m (w : dir) (body : Z -> S -> res S) (s : S) : res S :=
  let* b := dm_begin m w in let* e := dm_end m w in
  dm_for (dm_fuel m w) (dm_inc m w) b e (fun it s =>
    let* b2 := dm_dual_begin m w it in let* e2 := dm_dual_end m w it in
    dm_for (dm_fuel m (flip w)) (dm_inc m (flip w)) b2 e2 body s) s.
(** The same with reverse iterators (rbegin1 () .. rend1 (), rit.rbegin () .. rit.rend ()):
    reverse_iterator_base1/2 (detail/iterator.hpp:417-640) hold a base iterator, ++ decrements it,
    and *, index1, index2, begin, end work on a decremented copy. *)
Definition dm_rnested {S : Type} m (w : dir) (body : Z -> S -> res S) (s : S) : res S :=
  let* b := dm_begin m w in let* e := dm_end m w in
  dm_for (dm_fuel m w) (dm_dec m w) e b (fun it s =>
    let* b2 := dm_dual_begin m w (dm_dec m w it) in let* e2 := dm_dual_end m w (dm_dec m w it) in
    dm_for (dm_fuel m (flip w)) (dm_dec m (flip w)) e2 b2 (fun it2 => body (dm_dec m (flip w) it2)) s) s.

(** loop body: record (it.index1 (), it.index2 (), element) *)
Definition dm_note m (it : Z) (s : list (N * N * T)) : res (list (N * N * T)) :=
  let* v := dm_get m it in Ok (s ++ [((dm_index1 m it, dm_index2 m it), v)]).
Definition dm_visit m (w : dir) : res (list (N * N * T)) := dm_nested m w (dm_note m) [].
Definition dm_rvisit m (w : dir) : res (list (N * N * T)) := dm_rnested m w (dm_note m) [].
(** loop body: assign g (it.index1 (), it.index2 ()) through the iterator *)
Definition dm_write (g : N -> N -> T) (it : Z) m : res (mat T) :=
  dm_put m it (g (dm_index1 m it) (dm_index2 m it)).
Definition dm_fill m (w : dir) (g : N -> N -> T) : res (mat T) := dm_nested m w (dm_write g) m.
End DMIter.
