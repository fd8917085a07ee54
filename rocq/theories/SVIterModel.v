(** SVIterModel.v -- iterators of mapped_vector, compressed_vector and coordinate_vector
    (vector_sparse.hpp:590-791, 1218-1419, 1978-2181) and the reverse iterators made from them
    (detail/iterator.hpp:322-397).  An iterator is the position of its subiterator [it_] in the index
    (or map_array) storage; the constructors, assignment and the same-container check of operator ==
    (all iterators used together belong to one vector) are not modelled.  const_iterator and iterator
    differ only in the type of the reference returned by operator *.  Sizes and indices are unbounded. *)
From Verif Require Import Base SparseLib MapArrayModel MappedModel CVecModel CoordModel CoVecModel.
Open Scope nat_scope.

(** what the iterator classes use of their vector: size (), find (i), begin (), end (), the index stored
    at the subiterator, the value at it, and assignment to that value.  find/begin/end return the vector
    too: for coordinate_vector they sort it first (its storage members are mutable). *)
Record sviter (S T : Type) := SVIter {
  si_size : S -> nat;
  si_find : S -> nat -> res (S * nat);
  si_begin : S -> res (S * nat);
  si_end : S -> res (S * nat);
  si_key : S -> nat -> res nat;
  si_val : S -> nat -> res T;
  si_put : S -> nat -> T -> res S }.
Arguments SVIter {S T}. Arguments si_size {S T}. Arguments si_find {S T}. Arguments si_begin {S T}. Arguments si_end {S T}.
Arguments si_key {S T}. Arguments si_val {S T}. Arguments si_put {S T}.

(** ** the three vectors *)
Section Inst.
Context {T : Type}.
Variable chk : bool.
(** mapped_vector: find 596-602 (lower_bound of the storage), begin/end 672-687 and 755-762 (the ends of
    the storage), the map's value_type is (index, value) *)
Definition mv_iter : sviter (mvec T) T :=
  SVIter (fun v => mv_size v)
    (fun v i => let* p := ma_lower_bound (mv_data v) i in Ok (v, p))
    (fun v => Ok (v, 0))
    (fun v => Ok (v, ma_size (mv_data v)))
    (fun v p => key_at (mv_data v) p)
    (fun v p => let* c := rdn (ma_data (mv_data v)) p in Ok (snd c))
    (fun v p x => let* d := put_at (mv_data v) p x in Ok (MVec (mv_size v) d)).
Variable IB : nat.
(** compressed_vector: find 1224-1230 (lower_bound over the filled_ first indices), begin/end 1300-1315 and
    1383-1390 (find (0), find (size_)), index zero_based of the stored one 1274-1279, value
    value_data_ [it_ - index_data_.begin ()] 1267-1271 *)
Definition cv_iter : sviter (cvec T) T :=
  let find v i := let* p := cv_lb IB v i in Ok (v, p) in
  SVIter (fun v => cv_size v) find
    (fun v => find v 0)
    (fun v => find v (cv_size v))
    (fun v p => let* k := rdn (cv_idx v) p in Ok (zero_based IB k))
    (fun v p => rdn (cv_val v) p)
    (fun v p x => let* val := wrn (cv_val v) p x in Ok (CVec (cv_size v) (cv_cap v) (cv_filled v) (cv_idx v) val)).
Variables (tadd : T -> T -> T) (std_sort : list (nat * T) -> list (nat * T)).
(** coordinate_vector: find 1984-1992 (sort (), then lower_bound), begin/end 2062-2077 and 2145-2152 (find (0),
    find (size_)); index and value as for compressed_vector 2029-2041 *)
Definition co_iter : sviter (covec T) T :=
  let find v i := let* v := co_sort tadd IB std_sort chk v in let* p := co_lb IB v i in Ok (v, p) in
  SVIter (fun v => co_size v) find
    (fun v => find v 0)
    (fun v => find v (co_size v))
    (fun v p => let* k := rdn (co_idx v) p in Ok (zero_based IB k))
    (fun v p => rdn (co_val v) p)
    (fun v p x => let* val := wrn (co_val v) p x in
                  Ok (CoVec (co_size v) (co_cap v) (co_filled v) (co_sf v) (co_sorted v) (co_idx v) val)).
End Inst.

(** ** the iterator operations: const_iterator 605-670, 1233-1298, 1995-2060; iterator 689-753, 1317-1381, 2079-2143 *)
Section Iter.
Context {S T : Type}.
Variable o : sviter S T.
Variable chk : bool.
(** operator ++ and --: 627-636, 1255-1264, 2017-2026 *)
Definition si_inc (p : nat) : nat := p + 1.
Definition si_dec (p : nat) : res nat := match p with O => UB | Datatypes.S q => Ok q end.
(** index (): 646-651, 1274-1279, 2036-2041; in checked builds it compares with end () first *)
Definition si_index (s : S) (p : nat) : res (S * nat) :=
  let* s := (if chk then
               let* (s, e) := si_end o s in
               check chk (negb (p =? e)) bad_index ;;
               let* k := si_key o s p in check chk (k <? si_size o s) bad_index ;; Ok s
             else Ok s) in
  let* k := si_key o s p in Ok (s, k).
(** operator *: 639-643, 1267-1271, 2029-2033 *)
Definition si_look (s : S) (p : nat) : res S :=
  if chk then let* (s, k) := si_index s p in check chk (k <? si_size o s) bad_index ;; Ok s else Ok s.
Definition si_deref (s : S) (p : nat) : res (S * T) :=
  let* s := si_look s p in let* x := si_val o s p in Ok (s, x).
(** [*it = x] for the mutable iterator *)
Definition si_store (s : S) (p : nat) (x : T) : res S :=
  let* s := si_look s p in si_put o s p x.

(** ** loops a user writes; fuel bounds the number of rounds, running out of it is UB *)
(** for (it = first; it != last; ++ it) record (it.index (), *it), last evaluated each round *)
Fixpoint si_walk (last : S -> res (S * nat)) (fuel : nat) (s : S) (p : nat) : res (S * list (nat * T)) :=
  match fuel with
  | O => UB
  | Datatypes.S f =>
      let* (s, e) := last s in
      if p =? e then Ok (s, []) else
      let* (s, k) := si_index s p in
      let* (s, x) := si_deref s p in
      let* (s, l) := si_walk last f s (si_inc p) in Ok (s, (k, x) :: l)
  end.
Definition si_loop (fuel : nat) (s : S) : res (S * list (nat * T)) :=
  let* (s, p) := si_begin o s in si_walk (si_end o) fuel s p.
(** for (it = v.find (a); it != v.find (b); ++ it) *)
Definition si_between (a b fuel : nat) (s : S) : res (S * list (nat * T)) :=
  let* (s, p) := si_find o s a in si_walk (fun s => si_find o s b) fuel s p.
(** for (rit = v.rbegin (); rit != v.rend (); ++ rit) record (rit.index (), *rit): rbegin () holds end (),
    rend () begin () (768-791, 1396-1419, 2158-2181); *rit and rit.index () use a copy of the base moved
    back by one (std::reverse_iterator, detail/iterator.hpp:393-397), ++ rit moves the base back (340-343) *)
Fixpoint si_rwalk (fuel : nat) (s : S) (p : nat) : res (S * list (nat * T)) :=
  match fuel with
  | O => UB
  | Datatypes.S f =>
      let* (s, e) := si_begin o s in
      if p =? e then Ok (s, []) else
      let* q := si_dec p in
      let* (s, k) := si_index s q in
      let* (s, x) := si_deref s q in
      let* p := si_dec p in
      let* (s, l) := si_rwalk f s p in Ok (s, (k, x) :: l)
  end.
Definition si_rloop (fuel : nat) (s : S) : res (S * list (nat * T)) :=
  let* (s, p) := si_end o s in si_rwalk fuel s p.
(** for (it = v.begin (); it != v.end (); ++ it) *it = g (it.index (), *it) *)
Fixpoint si_mapw (g : nat -> T -> T) (fuel : nat) (s : S) (p : nat) : res S :=
  match fuel with
  | O => UB
  | Datatypes.S f =>
      let* (s, e) := si_end o s in
      if p =? e then Ok s else
      let* (s, k) := si_index s p in
      let* (s, x) := si_deref s p in
      let* s := si_store s p (g k x) in
      si_mapw g f s (si_inc p)
  end.
Definition si_maploop (g : nat -> T -> T) (fuel : nat) (s : S) : res S :=
  let* (s, p) := si_begin o s in si_mapw g fuel s p.
End Iter.
