(** MAssignModel.v -- model of /repo/include/boost/numeric/ublas/detail/matrix_assign.hpp: the
    assignment, scalar assignment and swap kernels for dense, packed and sparse matrices in both
    orientations, and the tables that select them.

    As in AssignModel.v an iterator is the list of the indices it still has to visit: the outer
    iterator1 of a matrix visits a list of rows and it1.begin () .. it1.end () visits a list of
    columns of that row.  The column major kernels (149-252, 284-310, 329-346, 389-409, 430-449,
    546-577, 596-614, 800-964, 1006-1045, 1202-1355, 1429-1454, 1480-1504, 1629-1754) are the row
    major ones with the two indices exchanged: they are modelled by running the row major kernel on
    the transposed target and source ([g_tr], [e_tr]).
    Not modelled: blocks under BOOST_UBLAS_TYPE_CHECK, the Duff device variants. *)
From Verif Require Import Base AssignModel.
Open Scope nat_scope.

(** row_major_tag, column_major_tag, unknown_orientation_tag: fwd.hpp:120-123 *)
Inductive orient := ORow | OCol | OUnknown.

(** A constant matrix expression: sizes, e () (i, j), the rows visited by begin1 () .. end1 () and, for
    each of them, the columns visited by it1.begin () .. it1.end (); the same for begin2 () .. end2 ();
    the categories of const_iterator1 and const_iterator2; the orientation category. *)
Record mexp (T : Type) := MExp {
  e_1 : nat; e_2 : nat; e_at : nat -> nat -> T;
  e_rows : list nat; e_row : nat -> list nat;
  e_cols : list nat; e_col : nat -> list nat;
  e_c1 : icat; e_c2 : icat; e_or : orient }.
Arguments MExp {T} _ _ _ _ _ _ _ _ _ _. Arguments e_1 {T} _. Arguments e_2 {T} _. Arguments e_at {T} _ _ _.
Arguments e_rows {T} _. Arguments e_row {T} _ _. Arguments e_cols {T} _. Arguments e_col {T} _ _.
Arguments e_c1 {T} _. Arguments e_c2 {T} _. Arguments e_or {T} _.

(** A matrix or matrix proxy that can be assigned to: sizes, which positions are stored (visited by
    iterators), the values at all positions, the storage and orientation categories, and the rows
    (columns) the outer iterators visit when a given set of positions is stored: a compressed_matrix
    visits every row up to the last used one, a mapped_matrix only rows with elements, a dense or
    packed matrix all rows. *)
Record mtg (T : Type) := MTg {
  g_1 : nat; g_2 : nat; g_st : nat -> nat -> bool; g_at : nat -> nat -> T; g_sc : scat; g_or : orient;
  g_out1 : (nat -> nat -> bool) -> list nat; g_out2 : (nat -> nat -> bool) -> list nat }.
Arguments MTg {T} _ _ _ _ _ _ _ _. Arguments g_1 {T} _. Arguments g_2 {T} _. Arguments g_st {T} _ _ _.
Arguments g_at {T} _ _ _. Arguments g_sc {T} _. Arguments g_or {T} _. Arguments g_out1 {T} _ _. Arguments g_out2 {T} _ _.

Definition flip {A} (f : nat -> nat -> A) : nat -> nat -> A := fun i j => f j i.
Definition e_tr {T} (e : mexp T) : mexp T :=
  MExp (e_2 e) (e_1 e) (flip (e_at e)) (e_cols e) (e_col e) (e_rows e) (e_row e) (e_c2 e) (e_c1 e) (e_or e).
Definition g_tr {T} (m : mtg T) : mtg T :=
  MTg (g_2 m) (g_1 m) (flip (g_st m)) (flip (g_at m)) (g_sc m) (g_or m)
      (fun st => g_out2 m (flip st)) (fun st => g_out1 m (flip st)).

(** Row i of an expression as a range of iterator2. *)
Definition e_line {T} (e : mexp T) (i : nat) : src T := Src (e_2 e) (e_row e i) (e_at e i) (e_c2 e).
(** Row i of a target as a range of iterator2; begin1 () .. end1 (). *)
Definition g_line {T} (m : mtg T) (i : nat) : tgt T :=
  Tgt (g_2 m) (filter (g_st m i) (seq 0 (g_2 m))) (g_at m i) (g_sc m).
Definition g_outer {T} (m : mtg T) : list nat := g_out1 m (g_st m).
(** Values written through iterators of row i. *)
Definition g_put {T} (m : mtg T) (i : nat) (v : tgt T) : mtg T :=
  MTg (g_1 m) (g_2 m) (g_st m) (fun a b => if a =? i then t_at v b else g_at m a b) (g_sc m) (g_or m)
      (g_out1 m) (g_out2 m).
(** A target read as an expression. *)
Definition as_mexp {T} (m : mtg T) : mexp T :=
  MExp (g_1 m) (g_2 m) (g_at m)
       (g_out1 m (g_st m)) (fun i => filter (g_st m i) (seq 0 (g_2 m)))
       (g_out2 m (g_st m)) (fun j => filter (fun i => g_st m i j) (seq 0 (g_1 m)))
       (icat_of (g_sc m)) (icat_of (g_sc m)) (g_or m).

Section Kernels.
Context {T : Type} (O : vops T).
Variable chk : bool.

Definition with_line (k : tgt T -> res (tgt T)) (m : mtg T) (i : nat) : res (mtg T) :=
  let* v := k (g_line m i) in Ok (g_put m i v).

Definition upd2 {A} (f : nat -> nat -> A) (i j : nat) (x : A) : nat -> nat -> A :=
  fun a b => if (a =? i) && (b =? j) then x else f a b.
(** m (i, j) as a reference: dense containers any position inside, packed ones only stored positions
    (bad_index, e.g. triangular.hpp:152-163, banded.hpp:257-275), sparse ones insert a zero on demand. *)
Definition m_touch (m : mtg T) (i j : nat) : res (mtg T) :=
  if g_st m i j then Ok m
  else match icat_of (g_sc m) with
       | ISparse =>
           if (i <? g_1 m) && (j <? g_2 m)
           then Ok (MTg (g_1 m) (g_2 m) (upd2 (g_st m) i j true) (upd2 (g_at m) i j (v0 O)) (g_sc m) (g_or m)
                        (g_out1 m) (g_out2 m))
           else if chk then Throw bad_index else UB
       | IPacked => Throw bad_index
       | IDense => if chk then Throw bad_index else UB
       end.
Definition m_set (m : mtg T) (i j : nat) (x : T) : mtg T :=
  MTg (g_1 m) (g_2 m) (g_st m) (upd2 (g_at m) i j x) (g_sc m) (g_or m) (g_out1 m) (g_out2 m).
(** F::apply (m (i, j), y) *)
Definition m_apply (f : afun) (m : mtg T) (i j : nat) (y : T) : res (mtg T) :=
  let* m1 := m_touch m i j in Ok (m_set m1 i j (fapply O f (g_at m1 i j) y)).
(** m.clear (): dense and packed containers fill with zero, sparse ones drop every element. *)
Definition m_clear (m : mtg T) : mtg T :=
  match icat_of (g_sc m) with
  | ISparse => MTg (g_1 m) (g_2 m) (fun _ _ => false) (fun _ _ => v0 O) (g_sc m) (g_or m) (g_out1 m) (g_out2 m)
  | _ => MTg (g_1 m) (g_2 m) (g_st m) (fun a b => if g_st m a b then v0 O else g_at m a b) (g_sc m) (g_or m)
             (g_out1 m) (g_out2 m)
  end.
(** m.insert_element (i, j, t): for sparse containers the position must be free. *)
Definition m_insert (m : mtg T) (i j : nat) (x : T) : res (mtg T) :=
  match icat_of (g_sc m) with
  | ISparse => if g_st m i j then (if chk then Throw bad_index else UB) else m_apply FAssign m i j x
  | _ => m_apply FAssign m i j x
  end.

(** while (-- size >= 0) { k (it); ++ it; } and the same with two iterators; the iterator is returned. *)
Fixpoint run_lines (k : mtg T -> nat -> res (mtg T)) (n : nat) (it : list nat) (m : mtg T) : res (mtg T) :=
  match n with
  | 0 => Ok m
  | S n => match it with
           | i :: it => let* m1 := k m i in run_lines k n it m1
           | [] => UB
           end
  end.
Fixpoint run_line_pairs (k : nat -> nat -> mtg T -> res (mtg T)) (n : nat) (it ite : list nat) (m : mtg T)
  : res (mtg T * list nat) :=
  match n with
  | 0 => Ok (m, it)
  | S n => match it, ite with
           | i :: it, j :: ite => let* m1 := k i j m in run_line_pairs k n it ite m1
           | _, _ => UB
           end
  end.

(** ** Assignment of a scalar: 257-458 *)
(** Stored elements of row i: 375-386 and 416-427 *)
Definition scalar_line (f : afun) (t : T) (m : mtg T) (i : nat) : res (mtg T) :=
  with_line (fun v => run_scalar O f (length (t_its v)) (t_its v) t v) m i.
(** 257-283 *)
Definition scalar_line_full (f : afun) (t : T) (m : mtg T) (i : nat) : res (mtg T) :=
  with_line (fun v => check chk (length (t_its v) =? g_2 m) bad_size ;; run_scalar O f (g_2 m) (t_its v) t v) m i.
Definition iterating_mscalar (f : afun) (m : mtg T) (t : T) : res (mtg T) :=
  check chk ((g_2 m =? 0) || (length (g_outer m) =? g_1 m)) bad_size ;;
  run_lines (scalar_line_full f t) (g_1 m) (g_outer m) m.
(** 311-328 *)
Definition indexing_mscalar (f : afun) (m : mtg T) (t : T) : res (mtg T) :=
  foldM (fun m i => foldM (fun m j => m_apply f m i j t) (seq 0 (g_2 m)) m) (seq 0 (g_1 m)) m.
(** 348-449 *)
Definition mscalar_row (iterating : bool) (f : afun) (m : mtg T) (t : T) : res (mtg T) :=
  match icat_of (g_sc m) with
  | IDense => if iterating then iterating_mscalar f m t else indexing_mscalar f m t
  | _ => run_lines (scalar_line f t) (length (g_outer m)) (g_outer m) m
  end.
(** Dispatcher 451-458: no overload for an unknown orientation. *)
Definition matrix_assign_scalar (iterating : bool) (f : afun) (m : mtg T) (t : T) : res (mtg T) :=
  match g_or m with
  | ORow => mscalar_row iterating f m t
  | OCol => let* m1 := mscalar_row iterating f (g_tr m) t in Ok (g_tr m1)
  | OUnknown => UB
  end.

(** ** Dense: 514-635 *)
(** BOOST_UBLAS_SAME on both sizes. *)
Definition same_sizes (m : mtg T) (e : mexp T) : res (nat * nat) :=
  let* s1 := same_size chk (g_1 m) (e_1 e) in
  let* s2 := same_size chk (g_2 m) (e_2 e) in
  Ok (s1, s2).
(** one row of iterating_matrix_assign: 527-543 *)
Definition iter_line (f : afun) (e : mexp T) (size2 : nat) (i j : nat) (m : mtg T) : res (mtg T) :=
  with_line (fun v =>
    check chk (length (t_its v) =? size2) bad_size ;;
    check chk (length (e_row e j) =? size2) bad_size ;;
    let* r := run_pairs O f (e_line e j) size2 (t_its v) (e_row e j) v in Ok (fst r)) m i.
Definition iterating_massign (f : afun) (m : mtg T) (e : mexp T) : res (mtg T) :=
  let* s := same_sizes m e in
  let '(size1, size2) := s in
  check chk ((size2 =? 0) || (length (g_outer m) =? size1)) bad_size ;;
  check chk ((size2 =? 0) || (length (e_rows e) =? size1)) bad_size ;;
  let* r := run_line_pairs (iter_line f e size2) size1 (g_outer m) (e_rows e) m in Ok (fst r).
(** 578-595 *)
Definition indexing_massign (f : afun) (m : mtg T) (e : mexp T) : res (mtg T) :=
  let* s := same_sizes m e in
  let '(size1, size2) := s in
  foldM (fun m i => foldM (fun m j => m_apply f m i j (e_at e i j)) (seq 0 size2) m) (seq 0 size1) m.

(** ** Packed: 636-799 *)
(** one row: 700-768 *)
Definition inner_packed (f : afun) (e : src T) (v : tgt T) : res (tgt T) :=
  let it2 := t_its v in
  let it2e := s_its e in
  let it2_size := Z.of_nat (length it2) in
  let it2e_size := Z.of_nat (length it2e) in
  let* s :=
    (if ((0 <? it2_size) && (0 <? it2e_size))%Z then
       let diff2 := zdiff it2 it2e in
       let size2 := Z.min diff2 it2e_size in
       let '(it2e, it2e_size, diff2) :=
         if (0 <? size2)%Z then (skipn (Z.to_nat size2) it2e, (it2e_size - size2)%Z, (diff2 - size2)%Z)
         else (it2e, it2e_size, diff2) in
       let size2 := Z.min (- diff2) it2_size in
       if (0 <? size2)%Z then
         let* v1 := (if computed f then Ok v else run_scalar O f (Z.to_nat size2) it2 (v0 O) v) in
         Ok (v1, skipn (Z.to_nat size2) it2, (it2_size - size2)%Z, it2e, it2e_size)
       else Ok (v, it2, it2_size, it2e, it2e_size)
     else Ok (v, it2, it2_size, it2e, it2e_size)) in
  let '(v, it2, it2_size, it2e, it2e_size) := s in
  let size2 := Z.min it2_size it2e_size in
  let* r := run_pairs O f e (Z.to_nat size2) it2 it2e v in
  let '(v, it2) := r in
  if computed f then Ok v else run_scalar O f (Z.to_nat (it2_size - size2)) it2 (v0 O) v.
Definition zero_line (f : afun) (m : mtg T) (i : nat) : res (mtg T) := scalar_line f (v0 O) m i.
Definition massign_packed (f : afun) (m : mtg T) (e : mexp T) : res (mtg T) :=
  check chk (g_1 m =? e_1 e) bad_size ;;
  check chk (g_2 m =? e_2 e) bad_size ;;
  let it1 := g_outer m in
  let it1e := e_rows e in
  let it1_size := Z.of_nat (length it1) in
  let it1e_size := Z.of_nat (length it1e) in
  let diff1 := if ((0 <? it1_size) && (0 <? it1e_size))%Z then zdiff it1 it1e else 0%Z in
  let* s :=
    (if (negb (diff1 =? 0))%Z then
       let size1 := Z.min diff1 it1e_size in
       let '(it1e, it1e_size, diff1) :=
         if (0 <? size1)%Z then (skipn (Z.to_nat size1) it1e, (it1e_size - size1)%Z, (diff1 - size1)%Z)
         else (it1e, it1e_size, diff1) in
       let size1 := Z.min (- diff1) it1_size in
       if (0 <? size1)%Z then
         let* m1 := (if computed f then Ok m else run_lines (zero_line f) (Z.to_nat size1) it1 m) in
         Ok (m1, skipn (Z.to_nat size1) it1, (it1_size - size1)%Z, it1e, it1e_size)
       else Ok (m, it1, it1_size, it1e, it1e_size)
     else Ok (m, it1, it1_size, it1e, it1e_size)) in
  let '(m, it1, it1_size, it1e, it1e_size) := s in
  let size1 := Z.min it1_size it1e_size in
  let* r := run_line_pairs (fun i j m => with_line (inner_packed f (e_line e j)) m i) (Z.to_nat size1) it1 it1e m in
  let '(m, it1) := r in
  if computed f then Ok m else run_lines (zero_line f) (Z.to_nat (it1_size - size1)) it1 m.

(** ** Sparse: 965-1005 *)
Definition fill_row (e : mexp T) (m : mtg T) (i : nat) : res (mtg T) :=
  foldM (fun m j => if veqb O (e_at e i j) (v0 O) then Ok m else m_insert m i j (e_at e i j)) (e_row e i) m.
Definition massign_sparse (m : mtg T) (e : mexp T) : res (mtg T) :=
  check chk (g_1 m =? e_1 e) bad_size ;;
  check chk (g_2 m =? e_2 e) bad_size ;;
  foldM (fill_row e) (e_rows e) (m_clear m).

(** ** Sparse proxy *)
(** make_conformant with restriction R: 46-148.  One row: 64-110 (both present), 113-128 and 130-144
    (only the expression has the row). *)
Definition row_pairs (R : nat -> nat -> bool) (e : mexp T) (j : nat) (l : list nat) : list (nat * nat) :=
  map (pair j) (filter (fun k => R j k && negb (veqb O (e_at e j k) (v0 O))) l).
Fixpoint mconf (fuel : nat) (R : nat -> nat -> bool) (m : mtg T) (e : mexp T) (it1 it1e : list nat)
  (index : list (nat * nat)) : res (list (nat * nat)) :=
  match it1, it1e with
  | i :: it1', j :: it1e' =>
      match fuel with
      | 0 => UB
      | S fuel =>
          if i =? j then
            let it2 := t_its (g_line m i) in
            let it2e := e_row e j in
            let* r := conf_merge (length it2 + length it2e) (icat_of (g_sc m))
                        (fun k => R j k && negb (veqb O (e_at e j k) (v0 O))) it2 it2e [] in
            mconf fuel R m e it1' it1e' (index ++ map (pair j) (fst r) ++ row_pairs R e j (snd r))
          else if i <? j then mconf fuel R m e (increment (icat_of (g_sc m)) it1 (j - i)) it1e index
          else mconf fuel R m e it1 it1e' (index ++ row_pairs R e j (e_row e j))
      end
  | _, _ => Ok (index ++ flat_map (fun j => row_pairs R e j (e_row e j)) it1e)
  end.
Definition m_conformant (R : nat -> nat -> bool) (m : mtg T) (e : mexp T) : res (mtg T) :=
  check chk (g_1 m =? e_1 e) bad_size ;;
  check chk (g_2 m =? e_2 e) bad_size ;;
  let* index := mconf (length (g_outer m) + length (e_rows e)) R m e (g_outer m) (e_rows e) [] in
  foldM (fun m p => m_apply FAssign m (fst p) (snd p) (v0 O)) index m.
(** one row: 1077-1143 *)
Definition inner_sparse (f : afun) (e : src T) (v : tgt T) : res (tgt T) :=
  let* r := sp_merge O (length (t_its v) + length (s_its e)) f (icat_of (t_sc v)) (s_cat e) e (t_its v) (s_its e) v in
  let '(v, it) := r in
  if computed f then Ok v else run_scalar O f (length it) it (v0 O) v.
(** 1074-1172 *)
Fixpoint m_merge (fuel : nat) (f : afun) (e : mexp T) (it1 it1e : list nat) (m : mtg T)
  : res (mtg T * list nat) :=
  match it1, it1e with
  | i :: it1', j :: it1e' =>
      match fuel with
      | 0 => UB
      | S fuel =>
          if i =? j then
            let* m1 := with_line (inner_sparse f (e_line e j)) m i in m_merge fuel f e it1' it1e' m1
          else if i <? j then
            (if computed f then m_merge fuel f e (increment (icat_of (g_sc m)) it1 (j - i)) it1e m
             else let* m1 := zero_line f m i in m_merge fuel f e it1' it1e m1)
          else m_merge fuel f e it1 (increment (e_c1 e) it1e (i - j)) m
      end
  | _, _ => Ok (m, it1)
  end.
(** 1047-1201 *)
Definition massign_sparse_proxy (f : afun) (R : nat -> nat -> bool) (m : mtg T) (e : mexp T) : res (mtg T) :=
  check chk (g_1 m =? e_1 e) bad_size ;;
  check chk (g_2 m =? e_2 e) bad_size ;;
  let* m := m_conformant R m e in
  let* r := m_merge (length (g_outer m) + length (e_rows e)) f e (g_outer m) (e_rows e) m in
  let '(m, it1) := r in
  if computed f then Ok m else run_lines (zero_line f) (length it1) it1 m.

(** matrix_assign_traits: 460-512 *)
Definition massign_traits (s : scat) (comp : bool) (c1 c2 : icat) : akernel :=
  match s, comp, c1, c2 with
  | SDense, _, IPacked, IPacked => KPacked
  | SDense, false, ISparse, ISparse => KSparse
  | SDense, true, ISparse, ISparse => KSparseProxy
  | SDenseProxy, _, IPacked, IPacked => KPacked
  | SDenseProxy, _, ISparse, ISparse => KSparseProxy
  | SPacked, false, ISparse, ISparse => KSparse
  | SPacked, true, ISparse, ISparse => KSparseProxy
  | SPackedProxy, _, ISparse, ISparse => KSparseProxy
  | SSparse, true, IDense, IDense | SSparse, true, IPacked, IPacked | SSparse, true, ISparse, ISparse => KSparseProxy
  | s, _, _, _ => kernel_of_scat s
  end.
Definition massign_row (iterating : bool) (f : afun) (R : nat -> nat -> bool) (k : akernel) (m : mtg T) (e : mexp T)
  : res (mtg T) :=
  match k with
  | KDense => if iterating then iterating_massign f m e else indexing_massign f m e
  | KPacked => massign_packed f m e
  | KSparse => massign_sparse m e
  | KSparseProxy => massign_sparse_proxy f R m e
  end.
(** basic_full::other: functional.hpp:1774-1778 *)
Definition full_R : nat -> nat -> bool := fun _ _ => true.
(** Dispatcher: 1358-1385; the target's orientation is preferred. *)
Definition assign_or (a b : orient) : orient := match a with OUnknown => b | _ => a end.
Definition matrix_assign_R (iterating : bool) (f : afun) (R : nat -> nat -> bool) (m : mtg T) (e : mexp T) : res (mtg T) :=
  let k := massign_traits (g_sc m) (computed f) (e_c1 e) (e_c2 e) in
  match assign_or (g_or m) (e_or e) with
  | ORow => massign_row iterating f R k m e
  | OCol => let* m1 := massign_row iterating f (flip R) k (g_tr m) (e_tr e) in Ok (g_tr m1)
  | OUnknown => UB
  end.
Definition matrix_assign (iterating : bool) (f : afun) (m : mtg T) (e : mexp T) : res (mtg T) :=
  matrix_assign_R iterating f full_R m e.

(** ** Swap: 1388-1783 *)
Definition with_lines (k : tgt T -> tgt T -> res (tgt T * tgt T)) (s : mtg T * mtg T) (i j : nat) : res (mtg T * mtg T) :=
  let* r := k (g_line (fst s) i) (g_line (snd s) j) in
  Ok (g_put (fst s) i (fst r), g_put (snd s) j (snd r)).
Fixpoint mswap_pairs (k : mtg T * mtg T -> nat -> nat -> res (mtg T * mtg T)) (n : nat) (it ite : list nat)
  (s : mtg T * mtg T) : res (mtg T * mtg T) :=
  match n with
  | 0 => Ok s
  | S n => match it, ite with
           | i :: it, j :: ite => let* s1 := k s i j in mswap_pairs k n it ite s1
           | _, _ => UB
           end
  end.
(** 1403-1428 *)
Definition mswap_dense (m e : mtg T) : res (mtg T * mtg T) :=
  let* size1 := same_size chk (g_1 m) (length (g_outer e)) in
  mswap_pairs (with_lines (fun v w => let* size2 := same_size chk (g_2 m) (length (t_its w)) in
                                      swap_pairs O size2 (t_its v) (t_its w) v w))
    size1 (g_outer m) (g_outer e) (m, e).
(** 1455-1479 *)
Definition mswap_packed (m e : mtg T) : res (mtg T * mtg T) :=
  let* size1 := same_size chk (length (g_outer m)) (length (g_outer e)) in
  mswap_pairs (with_lines (fun v w => let* size2 := same_size chk (length (t_its v)) (length (t_its w)) in
                                      swap_pairs O size2 (t_its v) (t_its w) v w))
    size1 (g_outer m) (g_outer e) (m, e).
(** 1505-1628 *)
Definition inner_swap (v w : tgt T) : res (tgt T * tgt T) :=
  swap_merge O (length (t_its v) + length (t_its w)) (icat_of (t_sc v)) (icat_of (t_sc w)) (t_its v) (t_its w) v w.
Fixpoint mswap_merge (fuel : nat) (it1 it1e : list nat) (s : mtg T * mtg T) : res (mtg T * mtg T) :=
  match it1, it1e with
  | i :: it1', j :: it1e' =>
      match fuel with
      | 0 => UB
      | S fuel =>
          if i =? j then
            let* s1 := with_lines inner_swap s i j in mswap_merge fuel it1' it1e' s1
          else if i <? j then mswap_merge fuel (increment (icat_of (g_sc (fst s))) it1 (j - i)) it1e s
          else mswap_merge fuel it1 (increment (icat_of (g_sc (snd s))) it1e (i - j)) s
      end
  | _, _ => Ok s
  end.
Definition mswap_sparse (R : nat -> nat -> bool) (m e : mtg T) : res (mtg T * mtg T) :=
  check chk (g_1 m =? g_1 e) bad_size ;;
  check chk (g_2 m =? g_2 e) bad_size ;;
  let* m := m_conformant R m (as_mexp e) in
  let* e := m_conformant R e (as_mexp m) in
  mswap_merge (length (g_outer m) + length (g_outer e)) (g_outer m) (g_outer e) (m, e).
(** matrix_swap_traits 1388-1401, dispatcher 1756-1783 *)
Definition mswap_row (R : nat -> nat -> bool) (m e : mtg T) : res (mtg T * mtg T) :=
  match g_sc m, icat_of (g_sc e) with
  | SDenseProxy, ISparse | SPackedProxy, ISparse => mswap_sparse R m e
  | SDense, _ | SDenseProxy, _ => mswap_dense m e
  | SPacked, _ | SPackedProxy, _ => mswap_packed m e
  | SSparse, _ | SSparseProxy, _ => mswap_sparse R m e
  end.
Definition matrix_swap (m e : mtg T) : res (mtg T * mtg T) :=
  match assign_or (g_or m) (g_or e) with
  | ORow => mswap_row full_R m e
  | OCol => let* s := mswap_row full_R (g_tr m) (g_tr e) in Ok (g_tr (fst s), g_tr (snd s))
  | OUnknown => UB
  end.
End Kernels.
