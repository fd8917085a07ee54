(** DMatModel.v -- dense matrices: matrix<T, L, A> (matrix.hpp:92-426) over unbounded_array<T> and bounded_array<T, N>,
    bounded_matrix<T, M, N, L> (2295-2362) and fixed_matrix<T, M, N, L> (1227-1508) over std::array<T, M * N>.
    Two matrices of the same type are kept (StorageModel: which, sel, put); the storage arrays are those of DVecModel.
    Expressions are trees of element-wise operations and transpositions over the two matrices and matrices of other types.
    Element assignment loops are the indexing loops of detail/matrix_assign.hpp:314-349, 581-613 (C20 and C46 prove the
    iterating ones equal).  Sizes and indices are naturals; the layout functions compute modulo 2^64 (LayoutModel).
    [chk]: BOOST_UBLAS_CHECK enabled; [mvs]: BOOST_UBLAS_MOVE_SEMANTICS. *)
From Verif Require Import Base SparseLib LayoutModel StorageModel DVecModel.
Open Scope nat_scope.

(** size1_, size2_, data_: matrix.hpp:1205-1207 *)
Record dmat (S : Type) := DM { d1 : nat; d2 : nat; dd : S }.
Arguments DM {S}. Arguments d1 {S}. Arguments d2 {S}. Arguments dd {S}.

(** expressions: matrix_expression.hpp matrix_unary1 (element-wise), matrix_unary2 (trans: 1460-1560), matrix_binary *)
Inductive mexp (T : Type) :=
| YMat (w : which) | YLit (n1 n2 : nat) (f : nat -> nat -> T) | YUn (f : T -> T) (a : mexp T) | YBin (f : T -> T -> T) (a b : mexp T)
| YTrans (a : mexp T).
Arguments YMat {T}. Arguments YLit {T}. Arguments YUn {T}. Arguments YBin {T}. Arguments YTrans {T}.

(** the order of the two loops: matrix_assign.hpp:581-595, 314-330 (row major), 599-613, 332-348 (column major) *)
Definition loop2 {X} (l : layout) (n1 n2 : nat) (body : nat -> nat -> X -> res X) (x : X) : res X :=
  match l with
  | RowMajor => iterM n1 (fun i x => iterM n2 (fun j x => body i j x) x) x
  | ColMajor => iterM n2 (fun j x => iterM n1 (fun i x => body i j x) x) x
  end.

Section DMat.
Context {S T : Type}.
Variable A : store S T.
Variables (chk mvs : bool) (tzero : T) (l : layout).
(** the extents of a fixed_matrix; None: matrix, bounded_matrix *)
Variable fx : option (nat * nat).
Implicit Types (m : dmat S) (p : dmat S * dmat S).

(** layout_type::element (i, size1, j, size2), layout_type::storage_size (size1, size2) *)
Definition dm_el m (i j : nat) : res nat :=
  let* k := element chk l (N.of_nat i) (N.of_nat (d1 m)) (N.of_nat j) (N.of_nat (d2 m)) in Ok (N.to_nat k).
Definition dm_ssize (n1 n2 : nat) : res nat := let* k := storage_size chk l (N.of_nat n1) (N.of_nat n2) in Ok (N.to_nat k).
(** matrix (size1, size2): 131-134; fixed_matrix (): 1257-1259; bounded_matrix: 2306-2311 (bounded_matrix () is matrix (M, N)) *)
Definition dm_new (n1 n2 : nat) : res (dmat S) :=
  match fx with
  | Some (M, N) => let* d := st_new A (M * N) in Ok (DM M N d)
  | None => let* k := dm_ssize n1 n2 in let* d := st_new A k in Ok (DM n1 n2 d)
  end.
(** matrix (size1, size2, init): 141-144; fixed_matrix (init): 1264-1268 *)
Definition dm_init (n1 n2 : nat) (x : T) : res (dmat S) :=
  match fx with
  | Some (M, N) => let* d := st_new_init A (M * N) x in Ok (DM M N d)
  | None => let* k := dm_ssize n1 n2 in let* d := st_new_init A k x in Ok (DM n1 n2 d)
  end.
(** operator () const: 237-239, 1348-1350 *)
Definition dm_get m (i j : nat) : res T := let* k := dm_el m i j in st_get A (dd m) k.
(** at_element, operator (), insert_element: 247-259, 294-296, 1358-1383 *)
Definition dm_set m (i j : nat) (x : T) : res (dmat S) :=
  let* k := dm_el m i j in let* d := st_set A (dd m) k x in Ok (DM (d1 m) (d2 m) d).
(** erase_element: 305-307, 1392-1394; clear: 316-318, 1403-1405 *)
Definition dm_erase m (i j : nat) : res (dmat S) := dm_set m i j tzero.
Definition dm_clear m : res (dmat S) :=
  let* d := iterM (st_size A (dd m)) (fun k d => st_store A d k tzero) (dd m) in Ok (DM (d1 m) (d2 m) d).
(** swap, assign_temporary: 413-419, 346-349, 1498-1502, 1431-1434 *)
Definition dm_swap (a b : dmat S) : res (dmat S * dmat S) :=
  let* r := st_swap A (dd a) (dd b) in Ok (DM (d1 b) (d2 b) (fst r), DM (d1 a) (d2 a) (snd r)).
Definition dm_take (a t : dmat S) : res (dmat S) := let* r := dm_swap a t in Ok (fst r).
(** detail::matrix_resize_preserve: 48-74 *)
Definition dm_preserve m (t : dmat S) : res (dmat S) :=
  let n1 := Nat.min (d1 t) (d1 m) in let n2 := Nat.min (d2 t) (d2 m) in
  let cnt (f : layout -> N -> N -> N) := N.to_nat (f l (N.of_nat n1) (N.of_nat n2)) in
  let* t := iterM (cnt size_M) (fun major t => iterM (cnt size_m) (fun minor t =>
    let i1 := N.to_nat (index_M l (N.of_nat major) (N.of_nat minor)) in
    let i2 := N.to_nat (index_m l (N.of_nat major) (N.of_nat minor)) in
    let* kt := dm_el t i1 i2 in let* km := dm_el m i1 i2 in
    let* x := st_get A (dd m) km in let* d := st_set A (dd t) kt x in Ok (DM (d1 t) (d2 t) d)) t) t in
  dm_take m t.
(** resize: 217-227 (fixed_matrix has none) *)
Definition dm_resize m (n1 n2 : nat) (preserve : bool) : res (dmat S) :=
  if preserve then let* t := dm_new n1 n2 in dm_preserve m t
  else let* k := dm_ssize n1 n2 in let* d := st_resize A (dd m) k in Ok (DM n1 n2 d).

(** sizes and elements of expressions; sizes are compared by BOOST_UBLAS_SAME in matrix_binary and matrix_assign *)
Fixpoint y_size p (first : bool) (e : mexp T) : res nat :=
  match e with
  | YMat w => Ok (if first then d1 (sel w p) else d2 (sel w p))
  | YLit n1 n2 _ => Ok (if first then n1 else n2)
  | YUn _ a => y_size p first a
  | YBin _ a b => let* n := y_size p first a in let* k := y_size p first b in same chk n k
  | YTrans a => y_size p (negb first) a
  end.
Fixpoint y_get p (e : mexp T) (i j : nat) : res T :=
  match e with
  | YMat w => dm_get (sel w p) i j
  | YLit n1 n2 f => check chk (i <? n1) bad_index ;; check chk (j <? n2) bad_index ;; if (i <? n1) && (j <? n2) then Ok (f i j) else UB
  | YUn f a => let* x := y_get p a i j in Ok (f x)
  | YBin f a b => let* x := y_get p a i j in let* y := y_get p b i j in Ok (f x y)
  | YTrans a => y_get p a j i
  end.
(** the sizes of the target and the expression, in the order the loops compare them *)
Definition y_same m p (e : mexp T) : res (nat * nat) :=
  match l with
  | RowMajor => let* n := y_size p true e in let* n1 := same chk (d1 m) n in let* n := y_size p false e in let* n2 := same chk (d2 m) n in Ok (n1, n2)
  | ColMajor => let* n := y_size p false e in let* n2 := same chk (d2 m) n in let* n := y_size p true e in let* n1 := same chk (d1 m) n in Ok (n1, n2)
  end.
(** matrix_assign<F> (m, e) *)
Definition dm_kernel (w : which) (f : T -> T -> T) (e : mexp T) p : res (dmat S * dmat S) :=
  let* n := y_same (sel w p) p e in
  loop2 l (fst n) (snd n) (fun i j p => let* x := y_get p e i j in let* y := dm_get (sel w p) i j in
                                        let* a := dm_set (sel w p) i j (f y x) in Ok (put w a p)) p.
(** matrix (ae): 169-173, 1291-1295; the new matrix is not one the expression reads *)
Definition dm_of p (e : mexp T) : res (dmat S) :=
  let* n1 := match fx with Some _ => Ok 0 | None => y_size p true e end in
  let* n2 := match fx with Some _ => Ok 0 | None => y_size p false e end in
  let* t := dm_new n1 n2 in
  let* n := y_same t p e in
  loop2 l (fst n) (snd n) (fun i j t => let* x := y_get p e i j in dm_set t i j x) t.
(** matrix_assign_scalar<F> (m, t): matrix_assign.hpp:314-349; operator *=, /=: 400-409, 1485-1494 *)
Definition dm_scalar m (f : T -> T) : res (dmat S) :=
  loop2 l (d1 m) (d2 m) (fun i j m => let* y := dm_get m i j in dm_set m i j (f y)) m.
(** operator = (matrix): 325-336, 1412-1421 *)
Definition dm_assign_same (a b : dmat S) : res (dmat S) :=
  if mvs then let* t := st_copy A (dd b) in dm_take a (DM (d1 b) (d2 b) t)
  else let* d := st_assign A (dd a) (dd b) in Ok (DM (d1 b) (d2 b) d).
Definition dm_assign_self a : res (dmat S) :=
  if mvs then let* t := st_copy A (dd a) in dm_take a (DM (d1 a) (d2 a) t) else Ok a.

Inductive dm_op :=
| MResize (w : which) (n1 n2 : nat) (preserve : bool)
| MSet (w : which) (i j : nat) (x : T)
| MErase (w : which) (i j : nat)
| MClear (w : which)
| MSame (w : which)                                       (* w = the other *)
| MSelf (w : which)                                       (* w = w *)
| MCont (w : which) (n1 n2 : nat) (f : nat -> nat -> T)   (* w = a matrix of another type: 338-344; fixed_matrix: 1423-1429 calls
                                                             the missing resize and does not compile *)
| MExpr (w : which) (e : mexp T)                          (* w = e: 350-355, 1435-1440 *)
| MComp (w : which) (f : T -> T -> T) (e : mexp T)        (* w += e, w -= e: 362-367, 380-385, 1447-1452, 1465-1470 *)
| MNoalias (w : which) (e : mexp T)                       (* noalias (w) = e, w.assign (e): 356-361, 1441-1446 *)
| MNoaliasComp (w : which) (f : T -> T -> T) (e : mexp T) (* w += container, plus_assign, ...: 368-379, 386-397, 1453-1482 *)
| MScalar (w : which) (f : T -> T)
| MSwap.
Definition dm_on (w : which) p (r : res (dmat S)) : res (dmat S * dmat S) := let* a := r in Ok (put w a p).
Definition dm_step p (o : dm_op) : res (dmat S * dmat S) :=
  match o with
  | MResize w n1 n2 b => dm_on w p (dm_resize (sel w p) n1 n2 b)
  | MSet w i j x => dm_on w p (dm_set (sel w p) i j x)
  | MErase w i j => dm_on w p (dm_erase (sel w p) i j)
  | MClear w => dm_on w p (dm_clear (sel w p))
  | MSame w => dm_on w p (dm_assign_same (sel w p) (sel (other w) p))
  | MSelf w => dm_on w p (dm_assign_self (sel w p))
  | MCont w n1 n2 f => let* a := dm_resize (sel w p) n1 n2 false in dm_kernel w (fun _ x => x) (YLit n1 n2 f) (put w a p)
  | MExpr w e => let* t := dm_of p e in dm_on w p (dm_take (sel w p) t)
  | MComp w f e => let* t := dm_of p (YBin f (YMat w) e) in dm_on w p (dm_take (sel w p) t)
  | MNoalias w e => dm_kernel w (fun _ x => x) e p
  | MNoaliasComp w f e => dm_kernel w f e p
  | MScalar w f => dm_on w p (dm_scalar (sel w p) f)
  | MSwap => dm_swap (fst p) (snd p)
  end.
End DMat.
Arguments dm_op : clear implicits.
