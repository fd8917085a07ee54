(** PkIterModel.v -- iterators of the packed containers triangular_matrix, symmetric_matrix,
    hermitian_matrix and banded_matrix ("Iterators simply are indices").
    Sources (under /repo/include/boost/numeric/ublas/): triangular.hpp 312-1030, symmetric.hpp 272-985,
    hermitian.hpp 511-1215, banded.hpp 430-1155, detail/iterator.hpp 417-640 (reverse iterators).
    The sixteen iterator classes have the same text up to the element access of operator *; the model has one
    definition per member function and the container kind as a parameter.
    Default configuration: no BOOST_UBLAS_USE_INDEXED_ITERATOR, BOOST_UBLAS_STRICT_HERMITIAN,
    BOOST_UBLAS_OWN_BANDED or BOOST_UBLAS_LEGACY_BANDED.  Simplification: the checks
    &( *this) () == &it () that both iterators belong to one container are not modelled (there is one
    container). *)
From Verif Require Import Base LayoutModel PackedModel DMIterModel MAdaptModel.
Open Scope N_scope.

Inductive pkind := PTri (t : tri) | PSym (t : tri) | PHer (t : tri) | PBand (lower upper : N).

Section PkIter.
Context {T : Type}.
Variables (tzero tone : T) (cj : T -> T) (chk : bool) (l : layout) (K : pkind).
Implicit Type m : mat T.

(** lower_, upper_ of a banded_matrix are part of the kind; PackedModel's record has them inside. *)
Definition as_band (lo up : N) m : band T := Band (msize1 m) (msize2 m) lo up (mdata m).
Definition of_band (b : band T) : mat T := Mat (bsize1 b) (bsize2 b) (bdata b).

(** constructors (size1, size2): triangular.hpp:108-112, symmetric.hpp:78-82, hermitian.hpp:286-290,
    banded.hpp:131-143. *)
Definition pk_new (fresh : N -> T) (s1 s2 : N) : res (mat T) :=
  match K with
  | PTri t | PSym t | PHer t => tri_new chk t l fresh s1 s2
  | PBand lo up => Ok (of_band (band_new l fresh s1 s2 lo up))
  end.
(** size2 (): symmetric.hpp:105-108 and hermitian.hpp:313-316 return size_. *)
Definition pk_size2 m : N := match K with PSym _ | PHer _ => msize1 m | _ => msize2 m end.

(** operator () const: triangular.hpp:171-181, symmetric.hpp:143-151, hermitian.hpp:352-363,
    banded.hpp:231-257. *)
Definition pk_get m (i j : N) : res T :=
  match K with
  | PTri t => tri_get tzero tone chk t l m i j
  | PSym t => sym_get chk t l m i j
  | PHer t => her_get cj chk t l m i j
  | PBand lo up => band_get tzero chk l (as_band lo up m) i j
  end.
(** at_element of hermitian_matrix: hermitian.hpp:364-370. *)
Definition her_at_set (t : tri) m (i j : N) (v : T) : res (mat T) :=
  check chk (i <? msize1 m) bad_index ;; check chk (j <? msize1 m) bad_index ;;
  check chk (other t i j) bad_index ;;
  let* k := telement chk t l i (msize1 m) j (msize1 m) in
  let* d := aset chk (mdata m) k v in Ok (Mat (msize1 m) (msize2 m) d).
(** the element operator * of a mutable iterator refers to, assigned: operator () of triangular_matrix
    (triangular.hpp:576-578, 896-898) and symmetric_matrix (symmetric.hpp:533-535, 852-854), at_element of
    hermitian_matrix (hermitian.hpp:767-769, 1086-1088) and banded_matrix (banded.hpp:701-703, 1022-1024). *)
Definition pk_put m (i j : N) (v : T) : res (mat T) :=
  match K with
  | PTri t => tri_set chk t l m i j v
  | PSym t => sym_set chk t l m i j v
  | PHer t => her_at_set t m i j v
  | PBand lo up => let* b := band_set chk l (as_band lo up m) i j v in Ok (of_band b)
  end.

(** An iterator1 / iterator2: it1_, it2_ (e.g. banded.hpp:627-629). *)
Notation pit := (N * N)%type.
Definition moved (w : dir) (g : N -> N) (it : pit) : pit :=
  match w with D1 => (g (fst it), snd it) | D2 => (fst it, g (snd it)) end.
Definition pos (w : dir) (it : pit) : N := match w with D1 => fst it | D2 => snd it end.
(** ++, --, += n, -= n: banded.hpp:498-516, 818-836 and alike in the other classes. *)
Definition pk_inc (w : dir) (it : pit) : pit := moved w (fun x => addw x 1) it.
Definition pk_dec (w : dir) (it : pit) : pit := moved w (fun x => subw x 1) it.
Definition pk_add (w : dir) (it : pit) (n : Z) : pit := moved w (fun x => addw x (to_size n)) it.
Definition pk_sub (w : dir) (it : pit) (n : Z) : pit := moved w (fun x => subw x (to_size n)) it.
(** operator -, ==, <: banded.hpp:518-522, 614-625, 838-842, 935-946 and alike. *)
Definition pk_diff (w : dir) (a b : pit) : res Z :=
  check chk (pos (flip w) a =? pos (flip w) b) external_logic ;; Ok (to_diff (subw (pos w a) (pos w b))).
Definition pk_eq (w : dir) (a b : pit) : res bool :=
  check chk (pos (flip w) a =? pos (flip w) b) external_logic ;; Ok (pos w a =? pos w b).
Definition pk_lt (w : dir) (a b : pit) : res bool :=
  check chk (pos (flip w) a =? pos (flip w) b) external_logic ;; Ok (pos w a <? pos w b).
(** index1, index2: banded.hpp:594-601. *)
Definition pk_index1 (it : pit) : N := fst it.
Definition pk_index2 (it : pit) : N := snd it.
(** operator *, operator [] of a const iterator: banded.hpp:526-533 and alike. *)
Definition pk_deref m (it : pit) : res T := pk_get m (fst it) (snd it).
Definition pk_at (w : dir) m (it : pit) (n : Z) : res T := pk_deref m (pk_add w it n).
(** operator * of a mutable iterator, assigned through *)
Definition pk_store m (it : pit) (v : T) : res (mat T) := pk_put m (fst it) (snd it) v.

(** The clipped index of find1 (w = D1) / find2 (w = D2): triangular.hpp:312-342, symmetric.hpp:276-301,
    hermitian.hpp:511-533, banded.hpp:430-466.  [mut] selects the overload that returns a mutable iterator,
    [line] is rank == 1 (otherwise rank == 0).  The clipping of banded_matrix is textually that of
    banded_adaptor (MAdaptModel.band_clip). *)
Definition tri_clip (t : tri) (mut line : bool) (w : dir) (i j s1 s2 : N) : res N :=
  match w with
  | D1 => if line then Ok (if mut then mutable_restrict1 t i j s1 s2 else restrict1 t i j s1 s2)
          else global1 mut chk t i s1 j s2
  | D2 => if line then Ok (if mut then mutable_restrict2 t i j s1 s2 else restrict2 t i j s1 s2)
          else global2 mut chk t i s1 j s2
  end.
Definition pk_clip (mut line : bool) (w : dir) (i j s1 s2 : N) : res N :=
  match K with
  | PTri t => tri_clip t mut line w i j s1 s2
  | PSym t | PHer t => if mut then tri_clip t true line w i j s1 s2 else Ok (match w with D1 => i | D2 => j end)
  | PBand lo up =>
      match w with
      | D1 => Ok (if line then band_clip i j up lo s1 else i)
      | D2 => Ok (if line then band_clip j i lo up s2 else j)
      end
  end.
Definition pk_find (mut line : bool) (w : dir) m (i j : N) : res pit :=
  let* x := pk_clip mut line w i j (msize1 m) (pk_size2 m) in
  match w with D1 => Ok (x, j) | D2 => Ok (i, x) end.

(** begin1 () = find1 (0, 0, 0), end1 () = find1 (0, size1_, 0), ...: banded.hpp:633-646, 781-788, 954-967,
    1101-1108; begin () and end () of an iterator: banded.hpp:539-555, 714-723, 859-875, 1035-1044. *)
Definition pk_begin (mut : bool) (w : dir) m : res pit := pk_find mut false w m 0 0.
Definition pk_end (mut : bool) (w : dir) m : res pit :=
  match w with D1 => pk_find mut false D1 m (msize1 m) 0 | D2 => pk_find mut false D2 m 0 (pk_size2 m) end.
Definition pk_dual_begin (mut : bool) (w : dir) m (it : pit) : res pit :=
  match w with D1 => pk_find mut true D2 m (fst it) 0 | D2 => pk_find mut true D1 m 0 (snd it) end.
Definition pk_dual_end (mut : bool) (w : dir) m (it : pit) : res pit :=
  match w with D1 => pk_find mut true D2 m (fst it) (pk_size2 m) | D2 => pk_find mut true D1 m (msize1 m) (snd it) end.

(** for (; it != e; step it) body (it): UB when [fuel] steps do not reach e. *)
Fixpoint pk_for {S : Type} (w : dir) (fuel : nat) (step : pit -> pit) (it e : pit) (body : pit -> S -> res S) (s : S) : res S :=
  let* b := pk_eq w it e in
  if b then Ok s else
  match fuel with
  | O => UB
  | Datatypes.S fuel => let* s1 := body it s in pk_for w fuel step (step it) e body s1
  end.
Definition pk_fuel m (w : dir) : nat := N.to_nat (match w with D1 => msize1 m | D2 => pk_size2 m end).
(** for (it1 = begin1 (); it1 != end1 (); ++ it1) for (it2 = it1.begin (); it2 != it1.end (); ++ it2) body (it2) *)
Definition pk_nested {S : Type} (mut : bool) m (w : dir) (body : pit -> S -> res S) (s : S) : res S :=
  let* b := pk_begin mut w m in let* e := pk_end mut w m in
  pk_for w (pk_fuel m w) (pk_inc w) b e (fun it s =>
    let* b2 := pk_dual_begin mut w m it in let* e2 := pk_dual_end mut w m it in
    pk_for (flip w) (pk_fuel m (flip w)) (pk_inc (flip w)) b2 e2 body s) s.
(** the same with reverse iterators: rbegin1 () = reverse (end1 ()), rit.rbegin () = reverse ((-- copy).end ()) *)
Definition pk_rnested {S : Type} (mut : bool) m (w : dir) (body : pit -> S -> res S) (s : S) : res S :=
  let* b := pk_begin mut w m in let* e := pk_end mut w m in
  pk_for w (pk_fuel m w) (pk_dec w) e b (fun it s =>
    let* b2 := pk_dual_begin mut w m (pk_dec w it) in let* e2 := pk_dual_end mut w m (pk_dec w it) in
    pk_for (flip w) (pk_fuel m (flip w)) (pk_dec (flip w)) e2 b2 (fun it2 => body (pk_dec (flip w) it2)) s) s.

Definition pk_note m (it : pit) (s : list (N * N * T)) : res (list (N * N * T)) :=
  let* v := pk_deref m it in Ok (s ++ [((pk_index1 it, pk_index2 it), v)]).
Definition pk_visit m (w : dir) : res (list (N * N * T)) := pk_nested false m w (pk_note m) [].
Definition pk_rvisit m (w : dir) : res (list (N * N * T)) := pk_rnested false m w (pk_note m) [].
Definition pk_write (g : N -> N -> T) (it : pit) m : res (mat T) := pk_store m it (g (pk_index1 it) (pk_index2 it)).
Definition pk_fill m (w : dir) (g : N -> N -> T) : res (mat T) := pk_nested true m w (pk_write g) m.
End PkIter.
