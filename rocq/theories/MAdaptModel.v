(** MAdaptModel.v -- triangular_adaptor<M, TRI> and banded_adaptor<M> over a dense matrix M.
    Sources (under /repo/include/boost/numeric/ublas/): triangular.hpp 1054-1950, banded.hpp 1248-2240,
    functional.hpp 1800-2107.  The adaptor holds a reference to the matrix; the model passes the matrix.
    banded_adaptor is modelled in its default configuration (neither BOOST_UBLAS_OWN_BANDED nor
    BOOST_UBLAS_LEGACY_BANDED). *)
From Verif Require Import Base LayoutModel PackedModel DMIterModel.
Open Scope N_scope.

Inductive adaptor := ATri (t : tri) | ABand (lower upper : N).

(** global_restrict1/2, global_mutable_restrict1/2 of the lower structures: functional.hpp:1940-1964,
    2010-2023 (unit), 2075-2087 (strict: both are the mutable ones of unit).  [mut] selects the mutable
    variant. *)
Definition gskip (mut : bool) (k : lkind) : bool :=
  match k with KLower => false | KUnitLower => mut | KStrictLower => true end.
Definition lglobal1 (mut : bool) (k : lkind) (x1 s1 x2 s2 : N) : res N :=
  if gskip mut k then Ok (N.max 1 (N.min s1 x1)) else Ok (N.max 0 (N.min s1 x1)).
Definition lglobal2 (mut : bool) (chk : bool) (k : lkind) (x1 s1 x2 s2 : N) : res N :=
  if gskip mut k
  then check chk (1 <=? s2) external_logic ;; Ok (N.max 0 (N.min (subw s2 1) x2))
  else Ok (N.max 0 (N.min s2 x2)).
(** transposed_structure: functional.hpp:1857-1877. *)
Definition global1 (mut chk : bool) (t : tri) (x1 s1 x2 s2 : N) : res N :=
  match t with Lo k => lglobal1 mut k x1 s1 x2 s2 | Up k => lglobal2 mut chk k x2 s2 x1 s1 end.
Definition global2 (mut chk : bool) (t : tri) (x1 s1 x2 s2 : N) : res N :=
  match t with Lo k => lglobal2 mut chk k x1 s1 x2 s2 | Up k => lglobal1 mut k x2 s2 x1 s1 end.

(** the clipping of find1 / find2 of banded_adaptor: banded.hpp:1512-1552 (const and mutable alike), for the
    index x along the line, o across it, [a] the band width subtracted from o and [b] the one added to it.
    difference_type (o - a) is the wrapped difference read as a signed number. *)
Definition band_clip (x o a b s : N) : N :=
  let lower_x := to_size (Z.max (to_diff (subw o a)) 0) in
  let x := N.max x lower_x in
  let upper_x := N.min (addw (addw o 1) b) s in
  N.min x upper_x.

Section MAdapt.
Context {T : Type}.
Variables (tzero tone : T) (chk : bool) (l : layout) (A : adaptor).
Implicit Type m : mat T.

(** triangular_type::other, and is_element_in_band: banded.hpp:1318-1323. *)
Definition ad_in (i j : N) : bool :=
  match A with
  | ATri t => other t i j
  | ABand lo up => (j <=? addw up i) && (i <=? addw j lo)
  end.
(** operator () const: triangular.hpp:1117-1127, banded.hpp:1328-1349. *)
Definition ad_get m (i j : N) : res T :=
  check chk (i <? msize1 m) bad_index ;; check chk (j <? msize2 m) bad_index ;;
  match A with
  | ATri t => if other t i j then dense_get chk l m i j else if one t i j then Ok tone else Ok tzero
  | ABand _ _ => if ad_in i j then dense_get chk l m i j else Ok tzero
  end.
(** operator () (write): triangular.hpp:1129-1138, banded.hpp:1351-1374. *)
Definition ad_set m (i j : N) (v : T) : res (mat T) :=
  check chk (i <? msize1 m) bad_index ;; check chk (j <? msize2 m) bad_index ;;
  if ad_in i j then dense_set chk l m i j v else Throw bad_index.

(** the index find1 (w = D1) / find2 (w = D2) passes on to the matrix: triangular.hpp:1258-1289,
    banded.hpp:1512-1552.  [line] is rank == 1, otherwise rank == 0. *)
Definition ad_clip (mut line : bool) (w : dir) (i j s1 s2 : N) : res N :=
  match A, w with
  | ATri t, D1 => if line then Ok (if mut then mutable_restrict1 t i j s1 s2 else restrict1 t i j s1 s2)
                  else global1 mut chk t i s1 j s2
  | ATri t, D2 => if line then Ok (if mut then mutable_restrict2 t i j s1 s2 else restrict2 t i j s1 s2)
                  else global2 mut chk t i s1 j s2
  | ABand lo up, D1 => Ok (if line then band_clip i j up lo s1 else i)
  | ABand lo up, D2 => Ok (if line then band_clip j i lo up s2 else j)
  end.
Definition ad_find (mut line : bool) (w : dir) m (i j : N) : res Z :=
  let* x := ad_clip mut line w i j (msize1 m) (msize2 m) in
  match w with D1 => dm_find chk l m x j | D2 => dm_find chk l m i x end.

(** operator * of const_iterator1/2: triangular.hpp:1348-1357, 1674-1683, banded.hpp:1610-1629, 1956-1975;
    ++, --, +=, -=, -, ==, < and the indices are those of the matrix iterator (triangular.hpp:1321-1345,
    1425-1451). *)
Definition ad_test m (i j : N) : bool :=
  match A with
  | ATri t => other t i j
  | ABand lo up => (j <? msize2 m) && (subw (addw up i) j <? addw (addw lo 1) up)
  end.
Definition ad_deref m (it : Z) : res T :=
  let i := dm_index1 l m it in let j := dm_index2 l m it in
  check chk (i <? msize1 m) bad_index ;; check chk (j <? msize2 m) bad_index ;;
  if ad_test m i j then dm_get chk l m it else ad_get m i j.
(** operator * of iterator1/2, assigned through: triangular.hpp:1527-1536, 1852-1861, banded.hpp:1798-1817. *)
Definition ad_store m (it : Z) (v : T) : res (mat T) :=
  let i := dm_index1 l m it in let j := dm_index2 l m it in
  check chk (i <? msize1 m) bad_index ;; check chk (j <? msize2 m) bad_index ;;
  if ad_test m i j then dm_put chk l m it v else ad_set m i j v.

(** begin1 () = find1 (0, 0, 0), end1 () = find1 (0, size1 (), 0), it.begin () = find2 (1, index1 (), 0), ... :
    triangular.hpp:1458-1473, 1368-1392 and their mutable and column counterparts. *)
Definition ad_begin (mut : bool) (w : dir) m : res Z := ad_find mut false w m 0 0.
Definition ad_end (mut : bool) (w : dir) m : res Z :=
  match w with D1 => ad_find mut false D1 m (msize1 m) 0 | D2 => ad_find mut false D2 m 0 (msize2 m) end.
Definition ad_dual_begin (mut : bool) (w : dir) m (it : Z) : res Z :=
  match w with
  | D1 => ad_find mut true D2 m (dm_index1 l m it) 0
  | D2 => ad_find mut true D1 m 0 (dm_index2 l m it)
  end.
Definition ad_dual_end (mut : bool) (w : dir) m (it : Z) : res Z :=
  match w with
  | D1 => ad_find mut true D2 m (dm_index1 l m it) (msize2 m)
  | D2 => ad_find mut true D1 m (msize1 m) (dm_index2 l m it)
  end.

(** nested loops, as in DMIterModel.dm_nested / dm_rnested *)
Definition ad_nested {S : Type} (mut : bool) m (w : dir) (body : Z -> S -> res S) (s : S) : res S :=
  let* b := ad_begin mut w m in let* e := ad_end mut w m in
  dm_for (dm_fuel m w) (dm_inc l m w) b e (fun it s =>
    let* b2 := ad_dual_begin mut w m it in let* e2 := ad_dual_end mut w m it in
    dm_for (dm_fuel m (flip w)) (dm_inc l m (flip w)) b2 e2 body s) s.
Definition ad_rnested {S : Type} (mut : bool) m (w : dir) (body : Z -> S -> res S) (s : S) : res S :=
  let* b := ad_begin mut w m in let* e := ad_end mut w m in
  dm_for (dm_fuel m w) (dm_dec l m w) e b (fun it s =>
    let* b2 := ad_dual_begin mut w m (dm_dec l m w it) in let* e2 := ad_dual_end mut w m (dm_dec l m w it) in
    dm_for (dm_fuel m (flip w)) (dm_dec l m (flip w)) e2 b2 (fun it2 => body (dm_dec l m (flip w) it2)) s) s.

Definition ad_note m (it : Z) (s : list (N * N * T)) : res (list (N * N * T)) :=
  let* v := ad_deref m it in Ok (s ++ [((dm_index1 l m it, dm_index2 l m it), v)]).
Definition ad_visit m (w : dir) : res (list (N * N * T)) := ad_nested false m w (ad_note m) [].
Definition ad_rvisit m (w : dir) : res (list (N * N * T)) := ad_rnested false m w (ad_note m) [].
Definition ad_write (g : N -> N -> T) (it : Z) m : res (mat T) :=
  ad_store m it (g (dm_index1 l m it) (dm_index2 l m it)).
(** for all positions the mutable iterators of the adaptor visit: element = g (i, j) *)
Definition ad_fill m (w : dir) (g : N -> N -> T) : res (mat T) := ad_nested true m w (ad_write g) m.
End MAdapt.
