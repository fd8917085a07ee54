(** PkResizeModel.v -- the resizing members of triangular_matrix, symmetric_matrix, hermitian_matrix (square) and
    banded_matrix: resize (.., preserve = true), resize (.., false) and resize_packed_preserve, mixed with the element
    operations of PackedModel (tri_step, sym_step, her_step, band_step of PackedSeq).
    Storage: unbounded_array of a trivially constructible type; [fresh k] is what cell k of a newly allocated block holds.
    The state left behind when the size computation throws is not modelled. *)
From Verif Require Import Base LayoutModel PackedModel PackedSpec PackedSeq.
Open Scope N_scope.

Section Resize.
Variable T : Type.
Variable tzero : T.

(** unbounded_array::resize (n, init): storage.hpp:206-212, 142-203: keeps the common prefix, the rest becomes init *)
Definition store_grow (n : N) (d : list T) : list T := firstn (N.to_nat n) d ++ repeat tzero (N.to_nat n - length d).
(** unbounded_array::resize (n): the same size keeps the block, otherwise a new one *)
Definition store_renew (fresh : N -> T) (n : N) (d : list T) : list T := if n =? lenN d then d else alloc fresh n.

(** resize_packed_preserve: triangular.hpp:164-168, symmetric.hpp:137-140, hermitian.hpp:345-348 *)
Definition pk_grow (chk : bool) (t : tri) (m : mat T) (s1 s2 : N) : res (mat T) :=
  let* n := packed_size chk t s1 s2 in Ok (Mat s1 s2 (store_grow n (mdata m))).
(** resize (.., false): triangular.hpp:156-160, symmetric.hpp:126-129, hermitian.hpp:334-337 *)
Definition pk_renew (chk : bool) (t : tri) (fresh : N -> T) (m : mat T) (s1 s2 : N) : res (mat T) :=
  let* n := packed_size chk t s1 s2 in Ok (Mat s1 s2 (store_renew fresh n (mdata m))).
(** banded_matrix::resize_packed_preserve: banded.hpp:220-227 *)
Definition band_grow (m : band T) (s1 s2 lo up : N) : band T :=
  Band s1 s2 lo up (store_grow (mulw (N.max s1 s2) (addw (addw lo 1) up)) (bdata m)).
(** banded_matrix::resize (.., false): banded.hpp:211-217 *)
Definition band_renew (fresh : N -> T) (m : band T) (s1 s2 lo up : N) : band T :=
  Band s1 s2 lo up (store_renew fresh (mulw (N.max s1 s2) (addw (addw lo 1) up)) (bdata m)).

(** calls on a square packed matrix: element operations, resize (k), resize (k, false), resize_packed_preserve (k) *)
Inductive pkop := PElem (o : mop T) | PResize (k : N) | PRenew (k : N) (fresh : N -> T) | PGrow (k : N).
(** [step] is the element step; resize (k, true): triangular.hpp:152-155, symmetric.hpp:122-125, hermitian.hpp:330-333 *)
Definition pk_step (chk : bool) (t : tri) (l : layout) (step : mat T -> mop T -> res (mat T)) (fresh : N -> T) (m : mat T) (o : pkop)
    : res (mat T) :=
  match o with
  | PElem o => step m o
  | PResize k => tri_resize chk t l fresh m k k
  | PRenew k fr => pk_renew chk t fr m k k
  | PGrow k => pk_grow chk t m k k
  end.
(** calls on a banded matrix: element operations, resize (k1, k2, lo, up, false), resize_packed_preserve (k1, k2, lo, up) *)
Inductive bdop := BElem (o : mop T) | BRenew (k1 k2 lo up : N) (fresh : N -> T) | BGrow (k1 k2 lo up : N).
Definition bd_step (chk : bool) (l : layout) (m : band T) (o : bdop) : res (band T) :=
  match o with
  | BElem o => band_step tzero chk l m o
  | BRenew k1 k2 lo up fr => Ok (band_renew fr m k1 k2 lo up)
  | BGrow k1 k2 lo up => Ok (band_grow m k1 k2 lo up)
  end.
End Resize.
Arguments PElem {T}. Arguments PResize {T}. Arguments PRenew {T}. Arguments PGrow {T}.
Arguments BElem {T}. Arguments BRenew {T}. Arguments BGrow {T}.
Arguments store_grow {T}. Arguments store_renew {T}. Arguments pk_grow {T}. Arguments pk_renew {T}. Arguments band_grow {T}. Arguments band_renew {T}.
Arguments pk_step {T}. Arguments bd_step {T}.
