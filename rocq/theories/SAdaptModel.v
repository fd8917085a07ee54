(** SAdaptModel.v -- symmetric_adaptor<M, TRI> and hermitian_adaptor<M, TRI> over a dense matrix M.
    Sources (under /repo/include/boost/numeric/ublas/): symmetric.hpp 1002-2230, hermitian.hpp 1244-2560.
    TRI is lower or upper: [u = false] or [u = true].  The two adaptors differ in the function applied to
    mirrored elements: [cj] is the identity for symmetric_adaptor and type_traits::conj for hermitian_adaptor. *)
From Verif Require Import Base LayoutModel PackedModel DMIterModel MAdaptModel.
Open Scope N_scope.

Definition half_tri (u : bool) : tri := if u then Up KLower else Lo KLower.

(** current_, begin_, end_: 0 = the iterator runs on it1_, 1 = on it2_ (-1 only before construction). *)
Inductive phase := P0 | P1.
Definition phase_eqb (a b : phase) : bool := match a, b with P0, P0 | P1, P1 => true | _, _ => false end.

(** const_iterator1 and const_iterator2: symmetric.hpp:1583-1592, 2066-2075 (identical members). *)
Record siter := SIt { s_begin : phase; s_end : phase; s_cur : phase;
  i1b : Z; i1e : Z; i1 : Z; i2b : Z; i2e : Z; i2 : Z }.

Section SAdapt.
Context {T : Type}.
Variables (cj : T -> T) (chk : bool) (l : layout) (u : bool).
Implicit Type m : mat T.
Notation other := (other (half_tri u)).

(** the constructor: symmetric.hpp:1034-1045. *)
Definition sa_construct m : res unit := check chk (msize1 m =? msize2 m) bad_size ;; Ok tt.
(** operator () const: symmetric.hpp:1069-1076, hermitian.hpp:1318-1329. *)
Definition sa_get m (i j : N) : res T :=
  check chk (i <? msize1 m) bad_index ;; check chk (j <? msize2 m) bad_index ;;
  if other i j then dense_get chk l m i j else let* v := dense_get chk l m j i in Ok (cj v).
(** operator () of symmetric_adaptor, assigned through: symmetric.hpp:1078-1085; and insert_element of
    hermitian_adaptor: hermitian.hpp:1349-1360 (cj applied to the value when mirrored). *)
Definition sa_set m (i j : N) (v : T) : res (mat T) :=
  check chk (i <? msize1 m) bad_index ;; check chk (j <? msize2 m) bad_index ;;
  if other i j then dense_set chk l m i j v else dense_set chk l m j i (cj v).
(** operator () of hermitian_adaptor, assigned through: hermitian.hpp:1331-1348. *)
Definition ha_set m (i j : N) (v : T) : res (mat T) :=
  check chk (i <? msize1 m) bad_index ;; check chk (j <? msize2 m) bad_index ;;
  if other i j then dense_set chk l m i j v else Throw external_logic.

(** construction of an iterator: symmetric.hpp:1292-1309, 1774-1791. *)
Definition s_make (b e : phase) (a1 z1 a2 z2 : Z) : res siter :=
  let c := b in
  let c := if phase_eqb c P0 && dm_eq a1 z1 then P1 else c in
  let c := if phase_eqb c P1 && dm_eq a2 z2 then P0 else c in
  let c := if (phase_eqb c P0 && dm_eq a1 z1) || (phase_eqb c P1 && dm_eq a2 z2) then e else c in
  check chk (phase_eqb c e || (phase_eqb c P0 && negb (dm_eq a1 z1)) || (phase_eqb c P1 && negb (dm_eq a2 z2))) internal_logic ;;
  Ok (SIt b e c a1 z1 a1 a2 z2 a2).
Definition s_make2 (b e : phase) (a1 z1 a2 z2 : res Z) : res siter :=
  let* a1 := a1 in let* z1 := z1 in let* a2 := a2 in let* z2 := z2 in s_make b e a1 z1 a2 z2.

(** find1, find2 (const; rank is passed on to the dense matrix, which ignores it):
    symmetric.hpp:1209-1230, 1238-1259. *)
Definition sa_find m (w : dir) (i j : N) : res siter :=
  let s1 := msize1 m in let s2 := msize2 m in let F := dm_find chk l m in
  match w with
  | D1 =>
    if other i j then
      if other s1 j then s_make2 P0 P0 (F i j) (F s1 j) (F s2 s1) (F s2 s1)
      else s_make2 P0 P1 (F i j) (F j j) (F j j) (F j s1)
    else
      if other s1 j then s_make2 P1 P0 (F j j) (F s1 j) (F j i) (F j j)
      else s_make2 P1 P1 (F s1 s2) (F s1 s2) (F j i) (F j s1)
  | D2 =>
    if other i j then
      if other i s2 then s_make2 P1 P1 (F s2 s1) (F s2 s1) (F i j) (F i s2)
      else s_make2 P1 P0 (F i i) (F s2 i) (F i j) (F i i)
    else
      if other i s2 then s_make2 P0 P1 (F j i) (F i i) (F i i) (F i s2)
      else s_make2 P0 P0 (F j i) (F s2 i) (F s1 s2) (F s2 s2)
  end.

(** ++, --: symmetric.hpp:1323-1366, 1806-1849. *)
Definition sa_inc m (it : siter) : res siter :=
  let '(SIt b e c a1 z1 x1 a2 z2 x2) := it in
  match c with
  | P0 => check chk (negb (dm_eq x1 z1)) internal_logic ;;
          let x1 := dm_inc l m D1 x1 in
          if dm_eq x1 z1 && phase_eqb e P1 then Ok (SIt b e P1 a1 z1 x1 a2 z2 a2) else Ok (SIt b e P0 a1 z1 x1 a2 z2 x2)
  | P1 => check chk (negb (dm_eq x2 z2)) internal_logic ;;
          let x2 := dm_inc l m D2 x2 in
          if dm_eq x2 z2 && phase_eqb e P0 then Ok (SIt b e P0 a1 z1 a1 a2 z2 x2) else Ok (SIt b e P1 a1 z1 x1 a2 z2 x2)
  end.
Definition sa_dec m (it : siter) : res siter :=
  let '(SIt b e c a1 z1 x1 a2 z2 x2) := it in
  match c with
  | P0 => if dm_eq x1 a1 && phase_eqb b P1
          then check chk (negb (dm_eq z2 a2)) internal_logic ;; Ok (SIt b e P1 a1 z1 x1 a2 z2 (dm_dec l m D2 z2))
          else Ok (SIt b e P0 a1 z1 (dm_dec l m D1 x1) a2 z2 x2)
  | P1 => if dm_eq x2 a2 && phase_eqb b P0
          then check chk (negb (dm_eq z1 a1)) internal_logic ;; Ok (SIt b e P0 a1 z1 (dm_dec l m D1 z1) a2 z2 x2)
          else Ok (SIt b e P1 a1 z1 x1 a2 z2 (dm_dec l m D2 x2))
  end.
(** +=, -=: symmetric.hpp:1367-1424, 1850-1907.  d is a size_type there; converting a difference_type to
    size_type and back, as d and n do, does not change it. *)
Definition sa_add m (it : siter) (n : Z) : res siter :=
  let '(SIt b e c a1 z1 x1 a2 z2 x2) := it in
  let* r := match c with
  | P0 => let d := Z.min n (dm_diff l m D1 z1 x1) in
          let x1 := dm_add l m D1 x1 d in let n := (n - d)%Z in
          if (0 <? n)%Z || (phase_eqb e P1 && dm_eq x1 z1) then
            check chk (phase_eqb e P1) external_logic ;;
            let d := Z.min n (dm_diff l m D2 z2 a2) in
            Ok (SIt b e P1 a1 z1 x1 a2 z2 (dm_add l m D2 a2 d), (n - d)%Z)
          else Ok (SIt b e P0 a1 z1 x1 a2 z2 x2, n)
  | P1 => let d := Z.min n (dm_diff l m D2 z2 x2) in
          let x2 := dm_add l m D2 x2 d in let n := (n - d)%Z in
          if (0 <? n)%Z || (phase_eqb e P0 && dm_eq x2 z2) then
            check chk (phase_eqb e P0) external_logic ;;
            let d := Z.min n (dm_diff l m D1 z1 a1) in
            Ok (SIt b e P0 a1 z1 (dm_add l m D1 a1 d) a2 z2 x2, (n - d)%Z)
          else Ok (SIt b e P1 a1 z1 x1 a2 z2 x2, n)
  end in check chk (snd r =? 0)%Z external_logic ;; Ok (fst r).
Definition sa_sub m (it : siter) (n : Z) : res siter :=
  let '(SIt b e c a1 z1 x1 a2 z2 x2) := it in
  let* r := match c with
  | P0 => let d := Z.min n (dm_diff l m D1 x1 a1) in
          let x1 := dm_sub l m D1 x1 d in let n := (n - d)%Z in
          if (0 <? n)%Z then
            check chk (phase_eqb e P1) external_logic ;;
            let d := Z.min n (dm_diff l m D2 z2 a2) in
            Ok (SIt b e P1 a1 z1 x1 a2 z2 (dm_sub l m D2 z2 d), (n - d)%Z)
          else Ok (SIt b e P0 a1 z1 x1 a2 z2 x2, n)
  | P1 => let d := Z.min n (dm_diff l m D2 x2 a2) in
          let x2 := dm_sub l m D2 x2 d in let n := (n - d)%Z in
          if (0 <? n)%Z then
            check chk (phase_eqb e P0) external_logic ;;
            let d := Z.min n (dm_diff l m D1 z1 a1) in
            Ok (SIt b e P0 a1 z1 (dm_sub l m D1 z1 d) a2 z2 x2, (n - d)%Z)
          else Ok (SIt b e P1 a1 z1 x1 a2 z2 x2, n)
  end in check chk (snd r =? 0)%Z external_logic ;; Ok (fst r).
(** operator -: symmetric.hpp:1425-1452, 1908-1935. *)
Definition sa_diff m (x y : siter) : res Z :=
  check chk (phase_eqb (s_end x) (s_end y)) internal_logic ;;
  let d1 := dm_diff l m D1 in let d2 := dm_diff l m D2 in
  Ok (match s_cur x, s_cur y with
      | P0, P0 => d1 (i1 x) (i1 y)
      | P0, P1 => if phase_eqb (s_end x) P1 && phase_eqb (s_end y) P1
                  then (d1 (i1 x) (i1e y) + d2 (i2b y) (i2 y))%Z
                  else (d1 (i1 x) (i1b y) + d2 (i2e y) (i2 y))%Z
      | P1, P0 => if phase_eqb (s_end x) P1 && phase_eqb (s_end y) P1
                  then (d2 (i2 x) (i2b y) + d1 (i1e y) (i1 y))%Z
                  else (d2 (i2 x) (i2e y) + d1 (i1b y) (i1 y))%Z
      | P1, P1 => d2 (i2 x) (i2 y)
      end).
(** operator ==: symmetric.hpp:1569-1577, 2052-2060. *)
Definition sa_eq (x y : siter) : res bool :=
  check chk (phase_eqb (s_end x) (s_end y)) internal_logic ;;
  Ok (match s_cur x, s_cur y with P0, P0 => dm_eq (i1 x) (i1 y) | P1, P1 => dm_eq (i2 x) (i2 y) | _, _ => false end).

(** index1 (), index2 (): symmetric.hpp:1529-1552 (const_iterator1), 2012-2035 (const_iterator2). *)
Definition sa_not_end (it : siter) : res unit :=
  match s_cur it with
  | P0 => check chk (negb (dm_eq (i1 it) (i1e it))) internal_logic ;; Ok tt
  | P1 => check chk (negb (dm_eq (i2 it) (i2e it))) internal_logic ;; Ok tt
  end.
Definition sa_index1 m (w : dir) (it : siter) : res N :=
  sa_not_end it ;;
  Ok (match w, s_cur it with
      | D1, P0 => dm_index1 l m (i1 it) | D1, P1 => dm_index2 l m (i2 it)
      | D2, P0 => dm_index2 l m (i1 it) | D2, P1 => dm_index1 l m (i2 it)
      end).
Definition sa_index2 m (w : dir) (it : siter) : res N :=
  sa_not_end it ;;
  Ok (match w, s_cur it with
      | D1, P0 => dm_index2 l m (i1 it) | D1, P1 => dm_index1 l m (i2 it)
      | D2, P0 => dm_index1 l m (i1 it) | D2, P1 => dm_index2 l m (i2 it)
      end).
(** operator *: symmetric.hpp:1453-1463, 1936-1946 (no case distinction, cj is the identity),
    hermitian.hpp:1760-1776, 2250-2266. *)
Definition sa_deref m (w : dir) (it : siter) : res T :=
  sa_not_end it ;;
  let* v := dm_get chk l m (match s_cur it with P0 => i1 it | P1 => i2 it end) in
  let* i := sa_index1 m w it in let* j := sa_index2 m w it in
  Ok (if other i j then v else cj v).

(** begin1, end1, begin2, end2 and begin (), end () of an iterator: symmetric.hpp:1468-1526, 1596-1611, 1951-2009, 2079-2094. *)
Definition sa_begin m (w : dir) : res siter := sa_find m w 0 0.
Definition sa_end m (w : dir) : res siter :=
  match w with D1 => sa_find m D1 (msize1 m) 0 | D2 => sa_find m D2 0 (msize2 m) end.
Definition sa_dual_begin m (w : dir) (it : siter) : res siter :=
  match w with
  | D1 => let* i := sa_index1 m D1 it in sa_find m D2 i 0
  | D2 => let* j := sa_index2 m D2 it in sa_find m D1 0 j
  end.
Definition sa_dual_end m (w : dir) (it : siter) : res siter :=
  match w with
  | D1 => let* i := sa_index1 m D1 it in sa_find m D2 i (msize2 m)
  | D2 => let* j := sa_index2 m D2 it in sa_find m D1 (msize1 m) j
  end.

(** for (; it != e; ++ it) body: UB when [fuel] steps do not reach e. *)
Fixpoint sa_for {S : Type} m (fuel : nat) (it e : siter) (body : siter -> S -> res S) (s : S) : res S :=
  let* q := sa_eq it e in
  if q then Ok s else
  match fuel with
  | O => UB
  | Datatypes.S fuel => let* s1 := body it s in let* it' := sa_inc m it in sa_for m fuel it' e body s1
  end.
Definition sa_nested {S : Type} m (w : dir) (body : siter -> S -> res S) (s : S) : res S :=
  let* b := sa_begin m w in let* e := sa_end m w in
  sa_for m (dm_fuel m w) b e (fun it s =>
    let* b2 := sa_dual_begin m w it in let* e2 := sa_dual_end m w it in
    sa_for m (dm_fuel m (flip w)) b2 e2 body s) s.
Definition sa_note m (w : dir) (it : siter) (s : list (N * N * T)) : res (list (N * N * T)) :=
  let* i := sa_index1 m w it in let* j := sa_index2 m w it in let* v := sa_deref m w it in Ok (s ++ [((i, j), v)]).
(** nested loops over const iterators; the elements are met by the inner iterators, those of direction flip w *)
Definition sa_visit m (w : dir) : res (list (N * N * T)) := sa_nested m w (sa_note m (flip w)) [].

(** k times ++ , k times -- *)
Fixpoint sa_steps m (k : nat) (it : siter) : res siter :=
  match k with O => Ok it | Datatypes.S k => let* it := sa_inc m it in sa_steps m k it end.
Fixpoint sa_back m (k : nat) (it : siter) : res siter :=
  match k with O => Ok it | Datatypes.S k => let* it := sa_dec m it in sa_back m k it end.

(** find1, find2 (mutable): symmetric.hpp:1231-1236, 1260-1265; hermitian.hpp:1530-1537, 1561-1568 also apply
    global_mutable_restrict for rank 0.  The mutable iterators wrap the matrix iterator: symmetric.hpp:1614-1740. *)
Definition sa_mfind (her line : bool) (w : dir) m (i j : N) : res Z :=
  let s1 := msize1 m in let s2 := msize2 m in let t := half_tri u in
  match w with
  | D1 => let i := if line then mutable_restrict1 t i j s1 s2 else i in
          let* i := if her && negb line then global1 true chk t i s1 j s2 else Ok i in dm_find chk l m i j
  | D2 => let j := if line then mutable_restrict2 t i j s1 s2 else j in
          let* j := if her && negb line then global2 true chk t i s1 j s2 else Ok j in dm_find chk l m i j
  end.
Definition sa_mnested {S : Type} (her : bool) m (w : dir) (body : Z -> S -> res S) (s : S) : res S :=
  let* b := sa_mfind her false w m 0 0 in
  let* e := match w with D1 => sa_mfind her false D1 m (msize1 m) 0 | D2 => sa_mfind her false D2 m 0 (msize2 m) end in
  dm_for (dm_fuel m w) (dm_inc l m w) b e (fun it s =>
    let* b2 := match w with D1 => sa_mfind her true D2 m (dm_index1 l m it) 0 | D2 => sa_mfind her true D1 m 0 (dm_index2 l m it) end in
    let* e2 := match w with D1 => sa_mfind her true D2 m (dm_index1 l m it) (msize2 m) | D2 => sa_mfind her true D1 m (msize1 m) (dm_index2 l m it) end in
    dm_for (dm_fuel m (flip w)) (dm_inc l m (flip w)) b2 e2 body s) s.
(** for all positions the mutable iterators visit: element = g (i, j) (dereference: symmetric.hpp:1659-1662) *)
Definition sa_fill (her : bool) m (w : dir) (g : N -> N -> T) : res (mat T) := sa_mnested her m w (dm_write chk l g) m.
End SAdapt.
