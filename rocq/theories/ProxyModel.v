(** ProxyModel.v -- vector and matrix proxies (views) over a dense vector and a dense matrix.
    Sources: vector_proxy.hpp, matrix_proxy.hpp, vector.hpp (under /repo/include/boost/numeric/ublas/).
    A proxy holds its underlying object by reference (closure_type), so a proxy is modelled by an
    expression naming the underlying object; operator () returns a reference, modelled by the cell of
    the underlying container it refers to.  Proxy iterators and proxies of packed/sparse containers
    are not modelled here. *)
From Verif Require Import Base LayoutModel PackedModel RangeModel.
Open Scope N_scope.

(** The object a projection selects with: basic_range, basic_slice or indirect_array
    (storage.hpp:1011, 1239, 1475). *)
Inductive selector := SR (r : range) | SS (s : slice) | SI (a : indirect).
(** size () of the three classes: storage.hpp:1051-1053, 1276-1278, 1524-1526 *)
Definition sel_size (s : selector) : N :=
  match s with SR r => r_size r | SS s => s_size s | SI a => i_size a end.
(** operator () of the three classes *)
Definition sel_at (chk : bool) (s : selector) (i : N) : res N :=
  match s with
  | SR r => range_at chk r i | SS s => slice_at chk s i | SI a => indirect_at chk a i
  end.
(** preprocess of the three classes *)
Definition sel_preprocess (chk is_all : bool) (s : selector) (size : N) : res selector :=
  match s with
  | SR r => rmap SR (range_preprocess chk is_all r size)
  | SS s => Ok (SS (slice_preprocess is_all s size))
  | SI a => Ok (SI (indirect_preprocess is_all a size))
  end.
(** outer.compose (inner); pairs for which no member function exists do not compile *)
Definition composable (outer inner : selector) : bool :=
  match outer, inner with
  | SR _, SR _ | SS _, SR _ | SS _, SS _ | SI _, _ => true
  | _, _ => false
  end.
Definition sel_compose (chk : bool) (junk : nat -> N) (outer inner : selector) : res selector :=
  match outer, inner with
  | SR t, SR r => rmap SR (range_compose chk t r)
  | SS t, SR r => rmap SS (slice_compose_range chk t r)
  | SS t, SS s => rmap SS (slice_compose chk t s)
  | SI a, SR r => rmap SI (indirect_compose_range chk junk a r)
  | SI a, SS s => rmap SI (indirect_compose_slice chk junk a s)
  | SI a, SI b => rmap SI (indirect_compose chk junk a b)
  | _, _ => UB
  end.

(** Matrix objects: the container itself, or matrix_range / matrix_slice / matrix_indirect
    (matrix_proxy.hpp:2403-, 3390-, 4445-) of a matrix object. *)
Inductive mobj := MBase | MSel (m : mobj) (s1 s2 : selector).
(** Vector objects: the container, vector_range / vector_slice / vector_indirect
    (vector_proxy.hpp:33-, 594-, 1150-), matrix_row, matrix_column (matrix_proxy.hpp:28-, 500-),
    matrix_vector_range / _slice / _indirect (972-, 1443-, 1925-). *)
Inductive vobj :=
| VBase
| VSel (v : vobj) (s : selector)
| VRow (m : mobj) (i : N)
| VCol (m : mobj) (j : N)
| VDiag (m : mobj) (s1 s2 : selector).

(** A reference to an element of the underlying vector or matrix. *)
Inductive cell := CVec (k : N) | CMat (i j : N).

(** operator () (i, j): matrix_proxy.hpp:2483-2490, 3483-3490, 4520-4527 *)
Fixpoint mref (chk : bool) (m : mobj) (i j : N) : res cell :=
  match m with
  | MBase => Ok (CMat i j)
  | MSel m s1 s2 => let* i' := sel_at chk s1 i in let* j' := sel_at chk s2 j in mref chk m i' j'
  end.
(** operator () (i): vector_proxy.hpp:98-105, 671-678, 1227-1234; matrix_proxy.hpp:83-88, 556-561,
    1037-1043, 1516-1522, 1997-2003 *)
Fixpoint vref (chk : bool) (v : vobj) (i : N) : res cell :=
  match v with
  | VBase => Ok (CVec i)
  | VSel v s => let* i' := sel_at chk s i in vref chk v i'
  | VRow m r => mref chk m r i
  | VCol m c => mref chk m i c
  | VDiag m s1 s2 =>
      let* i' := sel_at chk s1 i in let* j' := sel_at chk s2 i in mref chk m i' j'
  end.

Section Store.
Variable T : Type.
(** The underlying containers: one vector (its data array) and one matrix. *)
Record store := Store { svec : list T; smat : mat T }.

(** reading / writing through the reference: vector.hpp:222-232 (data () [i]), matrix.hpp:235-258 *)
Definition cell_get (chk : bool) (l : layout) (st : store) (c : cell) : res T :=
  match c with
  | CVec k => aget chk (svec st) k
  | CMat i j => dense_get chk l (smat st) i j
  end.
Definition cell_set (chk : bool) (l : layout) (st : store) (c : cell) (x : T) : res store :=
  match c with
  | CVec k => let* d := aset chk (svec st) k x in Ok (Store d (smat st))
  | CMat i j => let* m := dense_set chk l (smat st) i j x in Ok (Store (svec st) m)
  end.
(** x = v (i);   v (i) = x;   x = m (i, j);   m (i, j) = x *)
Definition vget chk l st v i : res T := let* c := vref chk v i in cell_get chk l st c.
Definition vset chk l st v i (x : T) := let* c := vref chk v i in cell_set chk l st c x.
Definition mget chk l st m i j : res T := let* c := mref chk m i j in cell_get chk l st c.
Definition mset chk l st m i j (x : T) := let* c := mref chk m i j in cell_set chk l st c x.

(** size1 (), size2 (): matrix_proxy.hpp:2459-2470 etc. *)
Definition mobj_size1 (st : store) (m : mobj) : N :=
  match m with MBase => msize1 (smat st) | MSel _ s1 _ => sel_size s1 end.
Definition mobj_size2 (st : store) (m : mobj) : N :=
  match m with MBase => msize2 (smat st) | MSel _ _ s2 => sel_size s2 end.
(** size (): vector.hpp:140-142, vector_proxy.hpp:81-83 etc.; matrix_row::size = data_.size2 (),
    matrix_column::size = data_.size1 () (matrix_proxy.hpp:66-68, 539-541);
    BOOST_UBLAS_SAME of the two selectors (1021, 1500, 1965) *)
Definition vobj_size (chk : bool) (st : store) (v : vobj) : res N :=
  match v with
  | VBase => Ok (lenN (svec st))
  | VSel _ s => Ok (sel_size s)
  | VRow m _ => Ok (mobj_size2 st m)
  | VCol m _ => Ok (mobj_size1 st m)
  | VDiag _ s1 s2 => same chk (sel_size s1) (sel_size s2)
  end.

(** vector_range (data, r), vector_slice, vector_indirect constructors:
    vector_proxy.hpp:60-73, 623-636, 1178-1191: only preprocess, no bounds checks *)
Definition vproj_new chk st is_all v s : res vobj :=
  let* n := vobj_size chk st v in
  let* s' := sel_preprocess chk is_all s n in Ok (VSel v s').
(** member project of a vector proxy: vector_proxy.hpp:131-133, 707-713, 1263-1273; the argument is
    preprocessed with data_.size (), the size of the UNDERLYING object *)
Definition vproject chk junk st is_all v s : res vobj :=
  match v with
  | VSel w t =>
      let* n := vobj_size chk st w in
      let* s' := sel_preprocess chk is_all s n in
      let* c := sel_compose chk junk t s' in
      (* vector_range (data_, c, false): c is not range::all (), so its preprocess is the identity *)
      Ok (VSel w c)
  | _ => vproj_new chk st is_all v s      (* free project of a container: 543-545, 1100, 1647 *)
  end.
(** member project of a matrix proxy: matrix_proxy.hpp:2501-2503, 3501-3507, 4538-4548 *)
Definition mproject chk junk st all1 all2 m s1 s2 : res mobj :=
  match m with
  | MSel w t1 t2 =>
      let* p1 := sel_preprocess chk all1 s1 (mobj_size1 st w) in
      let* c1 := sel_compose chk junk t1 p1 in
      let* p2 := sel_preprocess chk all2 s2 (mobj_size2 st w) in
      let* c2 := sel_compose chk junk t2 p2 in
      Ok (MSel w c1 c2)
  | MBase =>                              (* 3360-3362, 4374-4376, 5400-5402 *)
      let* p1 := sel_preprocess chk all1 s1 (mobj_size1 st m) in
      let* p2 := sel_preprocess chk all2 s2 (mobj_size2 st m) in
      Ok (MSel m p1 p2)
  end.
End Store.
Arguments Store {T}. Arguments svec {T}. Arguments smat {T}.
Arguments cell_get {T}. Arguments cell_set {T}. Arguments vget {T}. Arguments vset {T}.
Arguments mget {T}. Arguments mset {T}. Arguments mobj_size1 {T}. Arguments mobj_size2 {T}.
Arguments vobj_size {T}. Arguments vproj_new {T}. Arguments vproject {T}. Arguments mproject {T}.
