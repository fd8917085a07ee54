(** CoordModel.v -- the lazy sort shared by coordinate_vector (vector_sparse.hpp:1862-1938) and
    coordinate_matrix (matrix_sparse.hpp:4658-4740), non-strict builds.  Keys: K = size_type for the
    vector, K = (index1, index2) pairs for the matrix (whose two index arrays are always read, written
    and rotated together, so they are modelled as one array of pairs).  [ltk] is the comparison the
    code spells out, [keqb] the equality test of the summation loop. *)
From Verif Require Import Base SparseLib.
Open Scope nat_scope.

Section Merge.
Variables (K T : Type).
Variable ltk : K -> K -> bool.
Variable keqb : K -> K -> bool.
Variable tadd : T -> T -> T.                 (* += *)
(** std::sort over the index_pair_array / index_triple_array range (storage.hpp:1756-2080): any
    function; the theorems assume only what ISO C++ guarantees (a permutation, ordered by key; not
    stable) *)
Variable std_sort : list (K * T) -> list (K * T).
(** coordinate_vector::lower_bound (beg, end, target): 1862-1872 (matrix 4659-4671).  [fuel] >= end - beg suffices (the
    interval shrinks in each step); running out of fuel is reported as UB. *)
Fixpoint co_lower_bound (fuel : nat) (idx : list K) (b e target : nat) : res nat :=
  if e <=? b then Ok b else
  match fuel with
  | O => UB
  | S fuel =>
      let mid := (b + e) / 2 in
      let* x := rdn idx mid in
      let* y := rdn idx target in
      if ltk x y then co_lower_bound fuel idx (mid + 1) e target else co_lower_bound fuel idx b mid target
  end.
(** std::rotate (a + f, a + m, a + l): ISO C++ semantics; outside the array it is UB *)
Definition rotate {A} (a : list A) (f m l : nat) : res (list A) :=
  if (f <=? m) && (m <=? l) && (l <=? length a) then
    Ok (firstn f a ++ firstn (l - m) (skipn m a) ++ firstn (m - f) (skipn f a) ++ skipn l a)
  else UB.
(** std::swap (a [i], a [j]) *)
Definition swap_cells {A} (a : list A) (i j : nat) : res (list A) :=
  let* x := rdn a i in let* y := rdn a j in
  let* b := wrn a i y in wrn b j x.
(** inplace_merge (beg, mid, end): 1876-1902 (matrix 4675-4704) *)
Fixpoint inplace_merge (fuel : nat) (idx : list K) (val : list T) (b m e : nat) : res (list K * list T) :=
  let len_lef := m - b in
  let len_rig := e - m in
  if (len_lef =? 1) && (len_rig =? 1) then
    let* x := rdn idx m in
    let* y := rdn idx b in
    if ltk x y then
      let* idx := swap_cells idx b m in
      let* val := swap_cells val b m in Ok (idx, val)
    else Ok (idx, val)
  else if (0 <? len_lef) && (0 <? len_rig) then
    match fuel with
    | O => UB
    | S fuel =>
        let* (lef_mid, rig_mid) :=
          (if len_rig <=? len_lef then
             let lef_mid := (b + m) / 2 in
             let* rig_mid := co_lower_bound (e - m) idx m e lef_mid in Ok (lef_mid, rig_mid)
           else
             let rig_mid := (m + e) / 2 in
             let* lef_mid := co_lower_bound (m - b) idx b m rig_mid in Ok (lef_mid, rig_mid)) in
        let* idx := rotate idx lef_mid m rig_mid in
        let* val := rotate val lef_mid m rig_mid in
        let new_mid := lef_mid + rig_mid - m in
        let* (idx, val) := inplace_merge fuel idx val b lef_mid new_mid in
        inplace_merge fuel idx val new_mid rig_mid e
    end
  else Ok (idx, val).
(** body of the duplicate-summing loop, iteration i = k + 1: 1919-1930 (matrix 4722-4735); state (filled, idx, val) *)
Definition sum_body (k : nat) (s : nat * list K * list T) : res (nat * list K * list T) :=
  let '(filled, idx, val) := s in
  let i := k + 1 in
  let* x := rdn idx filled in
  let* y := rdn idx i in
  if negb (keqb x y) then
    let filled := filled + 1 in
    if negb (filled =? i) then
      let* y := rdn idx i in let* idx := wrn idx filled y in
      let* w := rdn val i in let* val := wrn val filled w in
      Ok (filled, idx, val)
    else Ok (filled, idx, val)
  else
    let* a := rdn val filled in
    let* w := rdn val i in
    let* val := wrn val filled (tadd a w) in
    Ok (filled, idx, val).
(** the sorting part of sort (): 1907-1931 (matrix 4708-4736), without
    BOOST_UBLAS_COO_ALWAYS_DO_FULL_SORT; [sf] = sorted_filled_.  Result: (new filled_, idx, val) *)
Definition coo_sort (sf filled : nat) (idx : list K) (val : list T) : res (nat * list K * list T) :=
  if (sf <=? filled) && (filled <=? length idx) && (filled <=? length val) then
    let tail := combine (firstn (filled - sf) (skipn sf idx)) (firstn (filled - sf) (skipn sf val)) in
    let tail := std_sort tail in
    let idx := firstn sf idx ++ map fst tail ++ skipn filled idx in
    let val := firstn sf val ++ map snd tail ++ skipn filled val in
    let* (idx, val) := inplace_merge filled idx val 0 sf filled in
    let* (f, idx, val) := iterM (filled - 1) sum_body (0, idx, val) in
    Ok (f + 1, idx, val)
  else UB.
End Merge.
Arguments co_lower_bound {K}. Arguments inplace_merge {K T}. Arguments sum_body {K T}. Arguments coo_sort {K T}.

