(** SpecialModel.v -- the vectors and matrices without storage: zero_vector (vector.hpp:1685-1895), unit_vector
    (1906-2160), scalar_vector (2169-2415); zero_matrix (matrix.hpp:3454-3895), identity_matrix (3929-4425),
    scalar_matrix (4433-4960).  iterator1 and iterator2 of a matrix are one definition here with the direction w as an
    argument.  Simplifications: unbounded natural indices; the same-container check of operator == is not modelled (one
    container); -- at index 0 wraps around in C++ where it is not checked, it is UB here; no serialization. *)
From Verif Require Import Base LayoutModel CMIterModel.
Open Scope nat_scope.

(** ** vectors: an iterator is I *)
Record vops (I T : Type) := VOps {
  vo_size : nat; vo_get : nat -> T; vo_find : nat -> I; vo_begin : I; vo_end : I;
  vo_inc : I -> res I; vo_dec : I -> res I; vo_index : I -> res nat; vo_deref : I -> res T; vo_eq : I -> I -> bool }.
Arguments VOps {I T}. Arguments vo_size {I T}. Arguments vo_get {I T}. Arguments vo_find {I T}. Arguments vo_begin {I T}. Arguments vo_end {I T}.
Arguments vo_inc {I T}. Arguments vo_dec {I T}. Arguments vo_index {I T}. Arguments vo_deref {I T}. Arguments vo_eq {I T}.

(** unit_vector: size_, index_ *)
Record unitv := UnitV { un_size : nat; un_index : nat }.
Section Vec.
Context {T : Type}.
Variables (tzero tone : T).
Variable chk : bool.
(** zero_vector: 1737-1739 operator (), 1776-1778 find, 1800-1823 iterator, 1833-1837 ==, 1843-1853 begin, end.
    BOOST_UBLAS_CHECK_FALSE is an unconditional failure in checked builds, nothing otherwise (exception.hpp:216-251) *)
Definition zero_vec (n : nat) : vops unit T :=
  VOps n (fun _ => tzero) (fun _ => tt) tt tt
    (fun _ => check chk false bad_index ;; Ok tt) (fun _ => check chk false bad_index ;; Ok tt)
    (fun _ => check chk false bad_index ;; Ok 0) (fun _ => check chk false bad_index ;; Ok tzero)
    (fun _ _ => true).
(** unit_vector: 1984-1989 operator (), 2031-2033 find, 2055-2079 iterator, 2091-2094 ==, 2103-2113 begin, end; the
    iterator is a bool: not yet past the one *)
Definition unit_vec (u : unitv) : vops bool T :=
  VOps (un_size u) (fun i => if i =? un_index u then tone else tzero) (fun i => i <=? un_index u) true false
    (fun b => check chk b bad_index ;; Ok (negb b)) (fun b => check chk (negb b) bad_index ;; Ok (negb b))
    (fun b => check chk b bad_index ;; Ok (un_index u)) (fun b => check chk b bad_index ;; Ok tone)
    Bool.eqb.
(** scalar_vector: 2221-2228 operator (), 2271-2273 find, 2296-2304, 2323-2337 iterator, 2349-2352 ==, 2367-2377 begin, end *)
Definition scal_vec (n : nat) (x : T) : vops nat T :=
  VOps n (fun _ => x) (fun i => i) 0 n
    (fun p => Ok (p + 1)) (fun p => match p with 0 => UB | Datatypes.S q => Ok q end)
    (fun p => check chk (p <? n) bad_index ;; Ok p) (fun p => check chk (p <? n) bad_index ;; Ok x)
    Nat.eqb.
End Vec.

(** changing a unit_vector: resize (1966-1968), operator = (1998-2002), swap with another (2011-2016); the second vector of
    a swap is written as the values it holds *)
Inductive un_op := UResize (n : nat) | UAssign (n i : nat).
Definition un_step (u : unitv) (p : un_op) : unitv :=
  match p with UResize n => UnitV n (un_index u) | UAssign n i => UnitV n i end.

(** loops a user writes; fuel bounds the number of rounds, running out of it is UB *)
Section VLoop.
Context {I T : Type}.
Variable o : vops I T.
(** for (it = first; it != last; ++ it) record (it.index (), *it) *)
Fixpoint vo_walk (fuel : nat) (it last : I) : res (list (nat * T)) :=
  match fuel with
  | 0 => UB
  | Datatypes.S fuel' =>
      if vo_eq o it last then Ok [] else
      let* k := vo_index o it in
      let* x := vo_deref o it in
      let* it := vo_inc o it in
      let* l := vo_walk fuel' it last in Ok ((k, x) :: l)
  end.
Definition vo_loop : res (list (nat * T)) := vo_walk (vo_size o + 2) (vo_begin o) (vo_end o).
(** for (it = v.find (a); it != v.find (b); ++ it) *)
Definition vo_between (a b : nat) : res (list (nat * T)) := vo_walk (vo_size o + 2) (vo_find o a) (vo_find o b).
(** for (rit = v.rbegin (); rit != v.rend (); ++ rit): * and index () are those of the base moved back by one *)
Fixpoint vo_rwalk (fuel : nat) (it last : I) : res (list (nat * T)) :=
  match fuel with
  | 0 => UB
  | Datatypes.S fuel' =>
      if vo_eq o it last then Ok [] else
      let* q := vo_dec o it in
      let* k := vo_index o q in
      let* x := vo_deref o q in
      let* it := vo_dec o it in
      let* l := vo_rwalk fuel' it last in Ok ((k, x) :: l)
  end.
Definition vo_rloop : res (list (nat * T)) := vo_rwalk (vo_size o + 2) (vo_end o) (vo_begin o).
End VLoop.

(** ** matrices: an iterator in direction w is I *)
Record mops (I T : Type) := MOps {
  mo_size : axis -> nat; mo_get : nat -> nat -> T;
  mo_find : axis -> bool -> nat -> nat -> I;       (* find1 / find2 (rank, i, j) *)
  mo_obegin : axis -> I; mo_oend : axis -> I;      (* begin1 (), end1 () / begin2 (), end2 () *)
  mo_begin : axis -> I -> I; mo_end : axis -> I -> I; (* it.begin (), it.end () of it in direction w: in the other direction *)
  mo_inc : axis -> I -> res I; mo_dec : axis -> I -> res I;
  mo_index : axis -> axis -> I -> res nat;         (* index1 () (Ax1) or index2 () (Ax2) of it in direction w *)
  mo_deref : axis -> I -> res T; mo_eq : axis -> I -> I -> res bool }.
Arguments MOps {I T}. Arguments mo_size {I T}. Arguments mo_get {I T}. Arguments mo_find {I T}. Arguments mo_obegin {I T}. Arguments mo_oend {I T}.
Arguments mo_begin {I T}. Arguments mo_end {I T}. Arguments mo_inc {I T}. Arguments mo_dec {I T}. Arguments mo_index {I T}. Arguments mo_deref {I T}. Arguments mo_eq {I T}.

(** identity_matrix: size1_, size2_, size_common_; constructors 3950-3964 *)
Record idm := Idm { id_s1 : nat; id_s2 : nat; id_common : nat }.
Definition id_new2 (n1 n2 : nat) : idm := Idm n1 n2 (Nat.min n1 n2).
Definition id_new (n : nat) : idm := id_new2 n n.
(** resize (3978-3988), operator = (4001-4006), swap (4015-4021) with a matrix constructed with sizes n1, n2 *)
Inductive id_op := IResize (n : nat) | IResize2 (n1 n2 : nat) | IAssign (n1 n2 : nat) | ISwap (n1 n2 : nat).
Definition id_step (m : idm) (p : id_op) : idm :=
  match p with
  | IResize n => Idm n n (Nat.min n n)
  | IResize2 n1 n2 => Idm n1 n2 (Nat.min n1 n2)
  | IAssign n1 n2 | ISwap n1 n2 => let m2 := id_new2 n1 n2 in Idm (id_s1 m2) (id_s2 m2) (id_common m2)
  end.

Section Mat.
Context {T : Type}.
Variables (tzero tone : T).
Variable chk : bool.
Definition two (s1 s2 : nat) (w : axis) : nat := match w with Ax1 => s1 | Ax2 => s2 end.
(** zero_matrix: 3515-3517 operator (), 3554-3560 find1, find2, 3585-3600, 3607-3609, 3621-3623, 3663-3671, 3682-3686
    const_iterator1, 3731-3832 const_iterator2, 3692-3702, 3838-3848 begin1, end1, begin2, end2 *)
Definition zero_mat (s1 s2 : nat) : mops unit T :=
  MOps (two s1 s2) (fun _ _ => tzero) (fun _ _ _ _ => tt) (fun _ => tt) (fun _ => tt) (fun _ _ => tt) (fun _ _ => tt)
    (fun _ _ => check chk false bad_index ;; Ok tt) (fun _ _ => check chk false bad_index ;; Ok tt)
    (fun _ _ _ => check chk false bad_index ;; Ok 0) (fun _ _ => check chk false bad_index ;; Ok tzero)
    (fun _ _ _ => Ok true).
(** identity_matrix: 3992-3997 operator (), 4040-4055 find1, find2, 4080-4096, 4103-4105, 4117-4119, 4159-4165, 4177-4180
    const_iterator1, 4228-4328 const_iterator2 (++ checks against size_common_ where const_iterator1 checks against
    size1 ()), 4189-4199, 4337-4347 begin1, end1, begin2, end2 *)
Definition id_find (w : axis) (rank : bool) (i j : nat) : nat :=
  let x := match w with Ax1 => i | Ax2 => j end in
  let oo := match w with Ax1 => j | Ax2 => i end in
  if rank then Nat.min (Nat.max x oo) (oo + 1) else x.
Definition id_mat (m : idm) : mops nat T :=
  MOps (two (id_s1 m) (id_s2 m)) (fun i j => if i =? j then tone else tzero) id_find
    (fun _ => 0) (fun _ => id_common m) (fun _ it => it) (fun _ it => it + 1)
    (fun w it => check chk (it <? match w with Ax1 => id_s1 m | Ax2 => id_common m end) bad_index ;; Ok (it + 1))
    (fun _ it => check chk (0 <? it) bad_index ;; match it with 0 => UB | Datatypes.S q => Ok q end)
    (fun _ _ it => Ok it) (fun _ _ => Ok tone) (fun _ a b => Ok (a =? b)).
(** scalar_matrix: 4485-4487 operator (), 4537-4543 find1, find2, 4570-4578, 4598-4602, 4613-4616, 4628-4631, 4671-4677,
    4690-4694 const_iterator1, 4751-4875 const_iterator2, 4711-4721, 4892-4902 begin1, end1, begin2, end2; an iterator is
    (it1_, it2_), == checks the index it does not move along *)
Definition sc_mat (s1 s2 : nat) (x : T) : mops (nat * nat) T :=
  MOps (two s1 s2) (fun _ _ => x) (fun _ _ i j => (i, j))
    (fun _ => (0, 0)) (fun w => match w with Ax1 => (s1, 0) | Ax2 => (0, s2) end)
    (fun w it => match w with Ax1 => (fst it, 0) | Ax2 => (0, snd it) end)
    (fun w it => match w with Ax1 => (fst it, s2) | Ax2 => (s1, snd it) end)
    (fun w it => Ok (match w with Ax1 => (fst it + 1, snd it) | Ax2 => (fst it, snd it + 1) end))
    (fun w it => match w with
                 | Ax1 => match fst it with 0 => UB | Datatypes.S q => Ok (q, snd it) end
                 | Ax2 => match snd it with 0 => UB | Datatypes.S q => Ok (fst it, q) end end)
    (fun a _ it => Ok (match a with Ax1 => fst it | Ax2 => snd it end))
    (fun _ it => check chk (fst it <? s1) bad_index ;; check chk (snd it <? s2) bad_index ;; Ok x)
    (fun w a b => match w with
                  | Ax1 => check chk (snd a =? snd b) external_logic ;; Ok (fst a =? fst b)
                  | Ax2 => check chk (fst a =? fst b) external_logic ;; Ok (snd a =? snd b) end).
End Mat.

Section MLoop.
Context {I T : Type}.
Variable o : mops I T.
Definition mo_visit (w : axis) (it : I) : res ((nat * nat) * T) :=
  let* i := mo_index o Ax1 w it in
  let* j := mo_index o Ax2 w it in
  let* x := mo_deref o w it in Ok ((i, j), x).
(** for (it = first; it != last; ++ it) record (it.index1 (), it.index2 (), *it), it in direction w *)
Fixpoint mo_walk (fuel : nat) (w : axis) (it last : I) : res (list ((nat * nat) * T)) :=
  match fuel with
  | 0 => UB
  | Datatypes.S fuel' =>
      let* b := mo_eq o w it last in
      if b then Ok [] else
      let* x := mo_visit w it in
      let* it := mo_inc o w it in
      let* l := mo_walk fuel' w it last in Ok (x :: l)
  end.
(** the same with reverse iterators: first and last are their bases *)
Fixpoint mo_rwalk (fuel : nat) (w : axis) (it last : I) : res (list ((nat * nat) * T)) :=
  match fuel with
  | 0 => UB
  | Datatypes.S fuel' =>
      let* b := mo_eq o w it last in
      if b then Ok [] else
      let* q := mo_dec o w it in
      let* x := mo_visit w q in
      let* it := mo_dec o w it in
      let* l := mo_rwalk fuel' w it last in Ok (x :: l)
  end.
(** it2 = it1.begin () to it1.end (), it1.rbegin () to it1.rend (), it1 in direction w *)
Definition mo_inner (w : axis) (it : I) : res (list ((nat * nat) * T)) :=
  mo_walk (mo_size o (other w) + 2) (other w) (mo_begin o w it) (mo_end o w it).
Definition mo_rinner (w : axis) (it : I) : res (list ((nat * nat) * T)) :=
  mo_rwalk (mo_size o (other w) + 2) (other w) (mo_end o w it) (mo_begin o w it).
(** find1 (1, a, oo) to find1 (1, b, oo) for w = Ax1; find2 (1, oo, a) to find2 (1, oo, b) for w = Ax2 *)
Definition mo_line (w : axis) (oo a b : nat) : res (list ((nat * nat) * T)) :=
  let f x := mo_find o w true (fst (pos w x oo)) (snd (pos w x oo)) in
  mo_walk (mo_size o w + 2) w (f a) (f b).
(** for (it1 = first; it1 != last; ++ it1) around an inner loop *)
Fixpoint mo_outer (inner : axis -> I -> res (list ((nat * nat) * T))) (fuel : nat) (w : axis) (it last : I) : res (list ((nat * nat) * T)) :=
  match fuel with
  | 0 => UB
  | Datatypes.S fuel' =>
      let* b := mo_eq o w it last in
      if b then Ok [] else
      let* l := inner w it in
      let* it := mo_inc o w it in
      let* l' := mo_outer inner fuel' w it last in Ok (l ++ l')
  end.
Fixpoint mo_router (inner : axis -> I -> res (list ((nat * nat) * T))) (fuel : nat) (w : axis) (it last : I) : res (list ((nat * nat) * T)) :=
  match fuel with
  | 0 => UB
  | Datatypes.S fuel' =>
      let* b := mo_eq o w it last in
      if b then Ok [] else
      let* q := mo_dec o w it in
      let* l := inner w q in
      let* it := mo_dec o w it in
      let* l' := mo_router inner fuel' w it last in Ok (l ++ l')
  end.
(** begin1 () to end1 () (begin2 () to end2 ()) around begin () to end (); rbegin1 () to rend1 () around rbegin () to rend () *)
Definition mo_traverse (w : axis) := mo_outer mo_inner (mo_size o w + 2) w (mo_obegin o w) (mo_oend o w).
Definition mo_rtraverse (w : axis) := mo_outer mo_rinner (mo_size o w + 2) w (mo_obegin o w) (mo_oend o w).
Definition mo_reverse (w : axis) := mo_router mo_rinner (mo_size o w + 2) w (mo_oend o w) (mo_obegin o w).
(** the loop over find1 (0, 0, 0) to find1 (0, size1, 0) (find2 likewise) *)
Definition mo_find_outer (inner : axis -> I -> res (list ((nat * nat) * T))) (w : axis) :=
  mo_outer inner (mo_size o w + 2) w (mo_find o w false 0 0)
    (mo_find o w false (fst (pos w (mo_size o w) 0)) (snd (pos w (mo_size o w) 0))).
(** with it1.begin () to it1.end () inside *)
Definition mo_find_begin := mo_find_outer mo_inner.
(** with find2 (1, it1.index1 (), 0) to find2 (1, it1.index1 (), size2) inside (find1 likewise): how the iterators of
    matrix expressions traverse their operands (for example matrix_unary1, matrix_expression.hpp:1657-1673, 1748-1757, 1919: begin ()
    and end () call find2 (1, index1 (), ...), begin1 () and begin2 () find1 (0, 0, 0) and find2 (0, 0, 0)) *)
Definition mo_findline (w : axis) (it : I) : res (list ((nat * nat) * T)) :=
  let* x := mo_index o w w it in mo_line (other w) x 0 (mo_size o (other w)).
Definition mo_find_find := mo_find_outer mo_findline.
End MLoop.
