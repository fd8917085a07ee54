(** PHistModel.v -- triangular_matrix, symmetric_matrix, hermitian_matrix and banded_matrix (triangular.hpp:28-330,
    symmetric.hpp:44-285, hermitian.hpp:244-510, banded.hpp:83-408): histories of element writes, resizes, assignments,
    compound assignments, scaling and swapping of two matrices of one type, over unbounded_array.
    Element access is PackedModel's.  The assignment loops of packed targets (detail/matrix_assign.hpp:369-410, 637-800,
    801-963) are written as loops over all positions that skip those the mutable iterators do not visit (p_stop; C64), with
    every element of the expression taken by operator () (C46: the zero filling of the loops gives the same).
    Indices are naturals here, 64 bit numbers in PackedModel. *)
From Verif Require Import Base LayoutModel PackedModel StorageModel DVecModel DMatModel.
Open Scope nat_scope.

(** the member functions the common code uses; S: matrices, B: what else describes a matrix (the bandwidths) *)
Record pops (S T B : Type) := Pops {
  p_rows : S -> nat;                              (* size1 () *)
  p_cols : S -> nat;                              (* size2 () *)
  p_part : S -> B;
  p_get : S -> nat -> nat -> res T;               (* operator () const *)
  p_set : S -> nat -> nat -> T -> res S;          (* m (i, j) = x *)
  p_insert : S -> nat -> nat -> T -> res S;
  p_erase : S -> nat -> nat -> res S;
  p_stop : S -> nat -> nat -> bool;               (* a mutable iterator visits (i, j) *)
  p_star : S -> nat -> nat -> T -> res S;         (* *it = x there *)
  p_clear : S -> S;
  p_new : nat -> nat -> B -> res S;               (* the object under construction from an expression of these sizes *)
  p_resize : S -> nat -> nat -> B -> bool -> res S
}.
Arguments Pops {S T B}. Arguments p_rows {S T B}. Arguments p_cols {S T B}. Arguments p_part {S T B}. Arguments p_get {S T B}. Arguments p_set {S T B}.
Arguments p_insert {S T B}. Arguments p_erase {S T B}. Arguments p_stop {S T B}. Arguments p_star {S T B}. Arguments p_clear {S T B}.
Arguments p_new {S T B}. Arguments p_resize {S T B}.

Section Common.
Context {S T B : Type}.
Variable A : pops S T B.
Variables (chk : bool) (l : layout).
Implicit Types (m : S) (p : S * S).

(** sizes and elements of expressions: as DMatModel.y_size, y_get *)
Fixpoint e_size p (first : bool) (e : mexp T) : res nat :=
  match e with
  | YMat w => Ok (if first then p_rows A (sel w p) else p_cols A (sel w p))
  | YLit n1 n2 _ => Ok (if first then n1 else n2)
  | YUn _ a => e_size p first a
  | YBin _ a b => let* n := e_size p first a in let* k := e_size p first b in same chk n k
  | YTrans a => e_size p (negb first) a
  end.
Fixpoint e_get p (e : mexp T) (i j : nat) : res T :=
  match e with
  | YMat w => p_get A (sel w p) i j
  | YLit n1 n2 f => check chk (i <? n1) bad_index ;; check chk (j <? n2) bad_index ;; if (i <? n1) && (j <? n2) then Ok (f i j) else UB
  | YUn f a => let* x := e_get p a i j in Ok (f x)
  | YBin f a b => let* x := e_get p a i j in let* y := e_get p b i j in Ok (f x y)
  | YTrans a => e_get p a j i
  end.
(** the checks at the start of matrix_assign: matrix_assign.hpp:645-646, 809-810 *)
Definition e_same m p (e : mexp T) : res unit :=
  match l with
  | RowMajor => let* n := e_size p true e in check chk (p_rows A m =? n) bad_size ;; let* n := e_size p false e in check chk (p_cols A m =? n) bad_size
  | ColMajor => let* n := e_size p false e in check chk (p_cols A m =? n) bad_size ;; let* n := e_size p true e in check chk (p_rows A m =? n) bad_size
  end.
(** matrix_assign<F> (m, e) for a matrix m that e may read *)
Definition ph_kernel (w : which) (f : T -> T -> T) (e : mexp T) p : res (S * S) :=
  e_same (sel w p) p e ;;
  loop2 l (p_rows A (sel w p)) (p_cols A (sel w p)) (fun i j p =>
    if p_stop A (sel w p) i j then
      let* x := e_get p e i j in let* y := p_get A (sel w p) i j in let* a := p_star A (sel w p) i j (f y x) in Ok (put w a p)
    else Ok p) p.
(** construction from an expression: triangular.hpp:117-125, symmetric.hpp:119-126, hermitian.hpp:294-301, banded.hpp:154-167 *)
Definition ph_of p (b : B) (e : mexp T) : res S :=
  let* n1 := e_size p true e in let* n2 := e_size p false e in
  let* t := p_new A n1 n2 b in
  e_same t p e ;;
  loop2 l (p_rows A t) (p_cols A t) (fun i j t => if p_stop A t i j then let* x := e_get p e i j in p_star A t i j x else Ok t) t.
(** matrix_assign_scalar<F> (m, t): matrix_assign.hpp:369-410 *)
Definition ph_scalar m (f : T -> T) : res S :=
  loop2 l (p_rows A m) (p_cols A m) (fun i j m => if p_stop A m i j then let* y := p_get A m i j in p_star A m i j (f y) else Ok m) m.

(** The members, with their lines in triangular.hpp / symmetric.hpp / hermitian.hpp / banded.hpp.  Copying a matrix copies
    its data (C08, C71); assign_temporary is swap. *)
Inductive ph_op :=
| PSet (w : which) (i j : nat) (x : T)                     (* 188-196 / 184-193 / 375-391 / 283-312 *)
| PInsert (w : which) (i j : nat) (x : T)                  (* 200-202 / 197-199 / 396-405 / 316-318 *)
| PErase (w : which) (i j : nat)                           (* 204-206 / 201-203 / 407-411 / 320-322 *)
| PClear (w : which)                                       (* 210-213 / 207-210 / 415-417 / 326-328 *)
| PResize (w : which) (n1 n2 : nat) (b : B) (preserve : bool)  (* 150-161 / 151-167 / 326-342 / 206-218 *)
| PSame (w : which)                                        (* w = the other: 217-222 / 214-218 / 421-425 / 332-339 *)
| PSelf (w : which)
| PExpr (w : which) (e : mexp T)                           (* w = e: 230-233 / 226-229 / 433-436 / 347-350 *)
| PComp (w : which) (f : T -> T -> T) (e : mexp T)         (* w += e, w -= e *)
| PNoalias (w : which) (e : mexp T)                        (* noalias (w) = e, w.assign (e) *)
| PNoaliasComp (w : which) (f : T -> T -> T) (e : mexp T)  (* noalias (w) += e, plus_assign, minus_assign *)
| PScalar (w : which) (f : T -> T)                         (* w *= t, w /= t *)
| PSwap.                                                   (* 278-285 / 273-278 / 488-493 / 396-404 *)
Definition ph_on (w : which) p (r : res S) : res (S * S) := let* a := r in Ok (put w a p).
Definition ph_step p (o : ph_op) : res (S * S) :=
  match o with
  | PSet w i j x => ph_on w p (p_set A (sel w p) i j x)
  | PInsert w i j x => ph_on w p (p_insert A (sel w p) i j x)
  | PErase w i j => ph_on w p (p_erase A (sel w p) i j)
  | PClear w => Ok (put w (p_clear A (sel w p)) p)
  | PResize w n1 n2 b k => ph_on w p (p_resize A (sel w p) n1 n2 b k)
  | PSame w => Ok (put w (sel (other w) p) p)
  | PSelf _ => Ok p
  | PExpr w e => ph_on w p (ph_of p (p_part A (sel w p)) e)
  | PComp w f e => ph_on w p (ph_of p (p_part A (sel w p)) (YBin f (YMat w) e))
  | PNoalias w e => ph_kernel w (fun _ x => x) e p
  | PNoaliasComp w f e => ph_kernel w f e p
  | PScalar w f => ph_on w p (ph_scalar (sel w p) f)
  | PSwap => Ok (snd p, fst p)
  end.
End Common.
Arguments ph_op : clear implicits.

Section Kinds.
Context {T : Type}.
Variables (tzero tone : T) (cj : T -> T) (chk : bool) (l : layout) (fresh : N -> T).
Notation nn := N.of_nat.

(** unbounded_array::resize (n): storage.hpp:142-208; new storage holds [fresh] *)
Definition re_alloc (d : list T) (n : N) : list T := if N.eqb (lenN d) n then d else PackedModel.alloc fresh n.
Definition tri_resize_to (t : tri) (m : mat T) (s1 s2 : N) (preserve : bool) : res (mat T) :=
  if preserve then tri_resize chk t l fresh m s1 s2 else let* n := packed_size chk t s1 s2 in Ok (Mat s1 s2 (re_alloc (mdata m) n)).
(** triangular_matrix<T, TRI, L>; *it is operator () (triangular.hpp:576-578, 896-898) *)
Definition tri_pops (t : tri) : pops (mat T) T unit :=
  Pops (fun m => N.to_nat (msize1 m)) (fun m => N.to_nat (msize2 m)) (fun _ => tt)
    (fun m i j => tri_get tzero tone chk t l m (nn i) (nn j)) (fun m i j x => tri_set chk t l m (nn i) (nn j) x)
    (fun m i j x => tri_set chk t l m (nn i) (nn j) x) (fun m i j => tri_erase tzero chk t l m (nn i) (nn j))
    (fun m i j => LayoutModel.other t (nn i) (nn j)) (fun m i j x => tri_set chk t l m (nn i) (nn j) x)
    (mat_clear tzero) (fun n1 n2 _ => tri_new chk t l fresh (nn n1) (nn n2)) (fun m n1 n2 _ k => tri_resize_to t m (nn n1) (nn n2) k).
(** symmetric_matrix: size_ is BOOST_UBLAS_SAME of the sizes (symmetric.hpp:109-126, 151-167); *it is operator ()
    (533-535, 852-854) *)
Definition square_new (t : tri) (n1 n2 : nat) : res (mat T) := let* n := same chk n1 n2 in tri_new chk t l fresh (nn n) (nn n).
Definition square_resize (t : tri) (m : mat T) (n1 n2 : nat) (k : bool) : res (mat T) := let* n := same chk n1 n2 in tri_resize_to t m (nn n) (nn n) k.
Definition sym_pops (t : tri) : pops (mat T) T unit :=
  Pops (fun m => N.to_nat (msize1 m)) (fun m => N.to_nat (msize1 m)) (fun _ => tt)
    (fun m i j => sym_get chk t l m (nn i) (nn j)) (fun m i j x => sym_set chk t l m (nn i) (nn j) x)
    (fun m i j x => sym_set chk t l m (nn i) (nn j) x) (fun m i j => sym_erase tzero chk t l m (nn i) (nn j))
    (fun m i j => LayoutModel.other t (nn i) (nn j)) (fun m i j x => sym_set chk t l m (nn i) (nn j) x)
    (mat_clear tzero) (fun n1 n2 _ => square_new t n1 n2) (fun m n1 n2 _ k => square_resize t m n1 n2 k).
(** hermitian_matrix: hermitian.hpp:284-301, 326-342; *it is at_element (767-769, 1086-1088), which for the stored positions
    that iterators visit is her_set *)
Definition her_pops (t : tri) : pops (mat T) T unit :=
  Pops (fun m => N.to_nat (msize1 m)) (fun m => N.to_nat (msize1 m)) (fun _ => tt)
    (fun m i j => her_get cj chk t l m (nn i) (nn j)) (fun m i j x => her_set chk t l m (nn i) (nn j) x)
    (fun m i j x => her_insert cj chk t l m (nn i) (nn j) x) (fun m i j => her_erase tzero chk t l m (nn i) (nn j))
    (fun m i j => LayoutModel.other t (nn i) (nn j)) (fun m i j x => her_set chk t l m (nn i) (nn j) x)
    (mat_clear tzero) (fun n1 n2 _ => square_new t n1 n2) (fun m n1 n2 _ k => square_resize t m n1 n2 k).
(** banded_matrix; the part is (lower (), upper ()).  resize: banded.hpp:206-218 *)
Definition band_clear (m : band T) : band T := Band (bsize1 m) (bsize2 m) (blower m) (bupper m) (map (fun _ => tzero) (bdata m)).
Definition band_resize_to (m : band T) (s1 s2 lo up : N) (preserve : bool) : res (band T) :=
  if preserve then band_resize chk l fresh m s1 s2 lo up
  else Ok (Band s1 s2 lo up (re_alloc (bdata m) (mulw (N.max s1 s2) (addw (addw lo 1) up)))).
Definition band_pops : pops (band T) T (nat * nat) :=
  Pops (fun m => N.to_nat (bsize1 m)) (fun m => N.to_nat (bsize2 m)) (fun m => (N.to_nat (blower m), N.to_nat (bupper m)))
    (fun m i j => band_get tzero chk l m (nn i) (nn j)) (fun m i j x => band_set chk l m (nn i) (nn j) x)
    (fun m i j x => band_set chk l m (nn i) (nn j) x) (fun m i j => band_set chk l m (nn i) (nn j) tzero)
    (fun m i j => in_band (blower m) (bupper m) (nn i) (nn j)) (fun m i j x => band_set chk l m (nn i) (nn j) x)
    band_clear (fun n1 n2 b => Ok (band_new l fresh (nn n1) (nn n2) (nn (fst b)) (nn (snd b))))
    (fun m n1 n2 b k => band_resize_to m (nn n1) (nn n2) (nn (fst b)) (nn (snd b)) k).
End Kinds.
