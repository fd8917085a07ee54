(** NMapModel.v -- mapped_vector_of_mapped_vector<T, L, map_std<size_t, map_std<size_t, T>>>, non-strict builds:
    matrix_sparse.hpp:1421-1707.  map_std is std::map: modelled by what ISO C++ says of it, a list of (key, value) with
    strictly increasing keys; an iterator is a position in the list, end () its length.
    Simplifications: unbounded natural indices; nnz () and nnz_capacity () (1491-1504) do not compile (data_ is not a
    function) and are left out; construction and assignment from expressions (1474-1480, 1625-1671) go through matrix_assign
    (C46); serialization is left out. *)
From Verif Require Import Base LayoutModel SparseLib CMatModel.
Open Scope nat_scope.

(** std::map::lower_bound, as a position *)
Fixpoint sm_lb {A} (k : nat) (d : list (nat * A)) : nat :=
  match d with [] => 0 | (a, _) :: t => if a <? k then S (sm_lb k t) else 0 end.
(** std::map::find; None is end () *)
Definition sm_find {A} (k : nat) (d : list (nat * A)) : option nat :=
  match nth_error d (sm_lb k d) with Some (a, _) => if a =? k then Some (sm_lb k d) else None | None => None end.
(** std::map::insert: the map, the position, whether it was inserted *)
Definition sm_insert {A} (k : nat) (v : A) (d : list (nat * A)) : list (nat * A) * nat * bool :=
  match sm_find k d with
  | Some r => (d, r, false)
  | None => (firstn (sm_lb k d) d ++ (k, v) :: skipn (sm_lb k d) d, sm_lb k d, true)
  end.
(** std::map::erase (iterator) *)
Definition sm_erase {A} (r : nat) (d : list (nat * A)) : list (nat * A) := firstn r d ++ skipn (S r) d.
(** assignment to it->second *)
Definition sm_put {A} (r : nat) (v : A) (d : list (nat * A)) : res (list (nat * A)) :=
  let* c := rdn d r in wrn d r (fst c, v).

Section NM.
Variable T : Type.
Variable tzero : T.
Variable l : layout.
Variable chk : bool.
Record nmat := NMat { nm_s1 : nat; nm_s2 : nat; nm_data : list (nat * list (nat * T)) }.
Definition nm_M (m : nmat) : nat := majM l (nm_s1 m) (nm_s2 m).
(** mapped_vector_of_mapped_vector (size1, size2): 1457-1468; data_ [size_M] = an empty map *)
Definition nm_new (s1 s2 : nat) : nmat := NMat s1 s2 [(majM l s1 s2, [])].
(** resize: 1517-1525 *)
Definition nm_resize (m : nmat) (s1 s2 : nat) (preserve : bool) : res nmat :=
  check chk (negb preserve) internal_logic ;;
  Ok (NMat s1 s2 [(majM l s1 s2, [])]).
(** find_element: 1528-1545: the positions in data () and in the inner map, or the null pointer *)
Definition nm_find (m : nmat) (i j : nat) : res (option (nat * nat)) :=
  match sm_find (majM l i j) (nm_data m) with
  | None => Ok None
  | Some r =>
      let* c := rdn (nm_data m) r in
      check chk (fst c =? majM l i j) internal_logic ;;
      match sm_find (minm l i j) (snd c) with
      | None => Ok None
      | Some q =>
          let* e := rdn (snd c) q in
          check chk (fst e =? minm l i j) internal_logic ;;
          Ok (Some (r, q))
      end
  end.
(** operator () const: 1548-1561 *)
Definition nm_get (m : nmat) (i j : nat) : res T :=
  match sm_find (majM l i j) (nm_data m) with
  | None => Ok tzero
  | Some r =>
      let* c := rdn (nm_data m) r in
      check chk (fst c =? majM l i j) internal_logic ;;
      match sm_find (minm l i j) (snd c) with
      | None => Ok tzero
      | Some q =>
          check chk (fst c =? majM l i j) internal_logic ;;
          let* e := rdn (snd c) q in Ok (snd e)
      end
  end.
(** operator () of a non-const matrix: 1562-1574: data () [element1], then insert of zero; the positions of the element *)
Definition nm_ref (m : nmat) (i j : nat) : res (nmat * (nat * nat)) :=
  let '(d, r, _) := sm_insert (majM l i j) [] (nm_data m) in
  let* c := rdn d r in
  let '(ln, q, _) := sm_insert (minm l i j) tzero (snd c) in
  let* d := sm_put r ln d in
  let* e := rdn ln q in
  check chk (fst e =? minm l i j) internal_logic ;;
  Ok (NMat (nm_s1 m) (nm_s2 m) d, (r, q)).
(** writing to the element at the positions rq *)
Definition nm_put (m : nmat) (rq : nat * nat) (x : T) : res nmat :=
  let* c := rdn (nm_data m) (fst rq) in
  let* ln := sm_put (snd rq) x (snd c) in
  let* d := sm_put (fst rq) ln (nm_data m) in
  Ok (NMat (nm_s1 m) (nm_s2 m) d).
(** m (i, j) = x and x = m (i, j), m not const *)
Definition nm_set (m : nmat) (i j : nat) (x : T) : res nmat := let* (m, rq) := nm_ref m i j in nm_put m rq x.
Definition nm_read (m : nmat) (i j : nat) : res (nmat * T) :=
  let* (m, rq) := nm_ref m i j in
  let* c := rdn (nm_data m) (fst rq) in
  let* e := rdn (snd c) (snd rq) in Ok (m, snd e).
(** insert_element: 1577-1589 *)
Definition nm_insert (m : nmat) (i j : nat) (x : T) : res nmat :=
  (if chk then let* p := nm_find m i j in check chk (match p with None => true | Some _ => false end) bad_index else Ok tt) ;;
  let '(d, r, _) := sm_insert (majM l i j) [] (nm_data m) in
  let* c := rdn d r in
  let '(ln, q, fresh) := sm_insert (minm l i j) x (snd c) in
  let* e := rdn ln q in
  check chk (fst e =? minm l i j) internal_logic ;;
  let* ln := (if fresh then Ok ln else sm_put q x ln) in
  let* d := sm_put r ln d in
  Ok (NMat (nm_s1 m) (nm_s2 m) d).
(** erase_element: 1590-1599; the line stays in data () *)
Definition nm_erase (m : nmat) (i j : nat) : res nmat :=
  match sm_find (majM l i j) (nm_data m) with
  | None => Ok m
  | Some r =>
      let* c := rdn (nm_data m) r in
      match sm_find (minm l i j) (snd c) with
      | None => Ok m
      | Some q => let* d := sm_put r (sm_erase q (snd c)) (nm_data m) in Ok (NMat (nm_s1 m) (nm_s2 m) d)
      end
  end.
(** clear: 1602-1606 *)
Definition nm_clear (m : nmat) : nmat := NMat (nm_s1 m) (nm_s2 m) [(nm_M m, [])].
(** copy constructor, operator =: 1469-1472, 1609-1617 *)
Definition nm_assign (m a : nmat) : nmat := NMat (nm_s1 a) (nm_s2 a) (nm_data a).
(** swap: 1692-1699 *)
Definition nm_swap (m a : nmat) : nmat * nmat := (NMat (nm_s1 a) (nm_s2 a) (nm_data a), NMat (nm_s1 m) (nm_s2 m) (nm_data m)).
End NM.
Arguments NMat {T}. Arguments nm_s1 {T}. Arguments nm_s2 {T}. Arguments nm_data {T}. Arguments nm_M {T}. Arguments nm_new {T}. Arguments nm_resize {T}.
Arguments nm_find {T}. Arguments nm_get {T}. Arguments nm_ref {T}. Arguments nm_put {T}. Arguments nm_set {T}. Arguments nm_read {T}. Arguments nm_insert {T}.
Arguments nm_erase {T}. Arguments nm_clear {T}. Arguments nm_assign {T}. Arguments nm_swap {T}.
