(** SMHistModel.v -- mapped_matrix, compressed_matrix and coordinate_matrix (matrix_sparse.hpp:268-1350, 2799-4256,
    4268-5770), row and column major: histories of element writes, insertions, erasures, resizes, assignments of matrix
    expressions (sums, products, transposes) through a temporary and without, compound assignments through a temporary,
    scaling and swapping of two matrices of one type.
    The element operations are those of MappedModel, CMatModel and CoMatModel, the iterators those of MMIterModel,
    CMIterModel and CoIterModel; iterating over an expression is MexModel.mtraverse; the assignment loops of
    detail/matrix_assign.hpp are written here over the concrete matrices.  In an expression a matrix is represented by what
    the nested loops over it visit: its elements are read through the iterators.
    Not modelled here: plus_assign and minus_assign (noalias (m) += e; MAssignModel has their loops). *)
From Verif Require Import Base LayoutModel SparseLib MapArrayModel MappedModel CVecModel CoordModel CMatModel CoMatModel CMIterModel MMIterModel
  CoIterModel StorageModel AssignModel VexModel MAssignModel MexModel.
Open Scope nat_scope.

(** the member functions of a matrix; r_get and r_see return the matrix too (coordinate_matrix sorts itself on reading) *)
Record smops (S T : Type) := SmOps {
  r_s1 : S -> nat;
  r_s2 : S -> nat;
  r_see : CMIterModel.axis -> S -> res (S * list ((nat * nat) * T));  (* the nested loops over begin1 () (Ax1) or begin2 () *)
  r_get : S -> nat -> nat -> res (S * T);              (* operator () const *)
  r_set : S -> nat -> nat -> T -> res S;               (* m (i, j) = x *)
  r_insert : S -> nat -> nat -> T -> res S;
  r_erase : S -> nat -> nat -> res S;
  r_clear : S -> res S;
  r_resize : S -> nat -> nat -> bool -> res S;
  r_cap : S -> nat;                                    (* nnz_capacity () *)
  r_new : nat -> nat -> nat -> res S;                  (* S (size1, size2, non_zeros) *)
  r_copy : S -> S -> res S;                            (* destination = source *)
  r_scale : (T -> T) -> S -> res S                     (* matrix_assign_scalar: every visited element x becomes f x *)
}.
Arguments SmOps {S T}. Arguments r_s1 {S T}. Arguments r_s2 {S T}. Arguments r_see {S T}. Arguments r_get {S T}. Arguments r_set {S T}.
Arguments r_insert {S T}. Arguments r_erase {S T}. Arguments r_clear {S T}. Arguments r_resize {S T}. Arguments r_cap {S T}. Arguments r_new {S T}.
Arguments r_copy {S T}. Arguments r_scale {S T}.

(** expressions over the two matrices and other matrices [m] (dense or sparse ones of other types) *)
Inductive smexp (T : Type) :=
| XMat (w : which)
| XOther (m : mexp T)
| XUn (f : T -> T) (e : smexp T)                       (* -m, conj (m), ... *)
| XTrans (f : T -> T) (e : smexp T)                    (* trans (m), herm (m) *)
| XBin (f : T -> T -> T) (e1 e2 : smexp T)             (* +, -, element_prod, ... *)
| XLeft (f : T -> T -> T) (t : T) (e : smexp T)        (* t * m *)
| XRight (f : T -> T -> T) (e : smexp T) (t : T)       (* m * t, m / t *)
| XProd (e1 e2 : smexp T).                             (* prod (m1, m2) *)
Arguments XMat {T}. Arguments XOther {T}. Arguments XUn {T}. Arguments XTrans {T}. Arguments XBin {T}. Arguments XLeft {T}.
Arguments XRight {T}. Arguments XProd {T}.
Fixpoint mentions {T} (w : which) (e : smexp T) : bool :=
  match e with
  | XMat v => match v, w with L, L | R, R => true | _, _ => false end
  | XOther _ => false
  | XUn _ a | XTrans _ a | XLeft _ _ a | XRight _ a _ => mentions w a
  | XBin _ a b | XProd a b => mentions w a || mentions w b
  end.

Section Common.
Context {S T : Type}.
Variable A : smops S T.
Variable O : vops T.
Variable chk : bool.
Variable l : layout.
Implicit Types (v : S) (p : S * S) (w : which) (e : smexp T).
(** what was visited row by row, and column by column *)
Definition shot : Type := list ((nat * nat) * T) * list ((nat * nat) * T).

(** the element at (i, j) of the visited ones *)
Definition found (x : list ((nat * nat) * T)) (i j : nat) : T :=
  match find (fun c => (fst (fst c) =? i) && (snd (fst c) =? j)) x with Some c => snd c | None => v0 O end.
(** the matrix as an operand of an expression; its outer iterators (of rank 0) visit every row and every column *)
Definition mleaf (n1 n2 : nat) (x : shot) : mex T :=
  MLeaf (MExp n1 n2 (found (fst x))
    (seq 0 n1) (fun i => map (fun c => snd (fst c)) (filter (fun c => fst (fst c) =? i) (fst x)))
    (seq 0 n2) (fun j => map (fun c => fst (fst c)) (filter (fun c => snd (fst c) =? j) (snd x)))
    ISparse ISparse (match l with RowMajor => ORow | ColMajor => OCol end)).
Fixpoint mlower (ns : (nat * nat) * (nat * nat)) (ls : shot * shot) e : mex T :=
  match e with
  | XMat w => mleaf (fst (sel w ns)) (snd (sel w ns)) (sel w ls)
  | XOther m => MLeaf m
  | XUn f a => MUnary f (mlower ns ls a)
  | XTrans f a => MTrans f (mlower ns ls a)
  | XBin f a b => MBin f (mlower ns ls a) (mlower ns ls b)
  | XLeft f t a => MScal1 f t (mlower ns ls a)
  | XRight f a t => MScal2 f (mlower ns ls a) t
  | XProd a b => MProd (mlower ns ls a) (mlower ns ls b)
  end.
(** iterating over a matrix in both orders; only matrices that occur in e are touched *)
Definition mvisits v : res (S * shot) :=
  let* (v, x1) := r_see A Ax1 v in let* (v, x2) := r_see A Ax2 v in Ok (v, (x1, x2)).
Definition mvisits_if (b : bool) v : res (S * shot) := if b then mvisits v else Ok (v, ([], [])).
Definition sizes v : nat * nat := (r_s1 A v, r_s2 A v).
Definition msee p e : res ((S * S) * mex T) :=
  let* (a, x) := mvisits_if (mentions L e) (fst p) in
  let* (b, y) := mvisits_if (mentions R e) (snd p) in
  Ok ((a, b), mlower (sizes a, sizes b) (x, y) e).

(** BOOST_UBLAS_CHECK (m.size1 () == e ().size1 (), bad_size ()), size2: matrix_assign.hpp:981-982, 1023-1024 *)
Definition smh_sizes v (x : mex T) : res unit :=
  let* n1 := msize chk x A1 in check chk (r_s1 A v =? n1) bad_size ;;
  let* n2 := msize chk x A2 in check chk (r_s2 A v =? n2) bad_size.
(** the loops of the sparse kernel: 987-1005 (row major), 1029-1047 (column major); r: what the loops over e visit *)
Definition smh_put v (i j : nat) (x : T) : res S :=
  if veqb O x (v0 O) then Ok v else
  match l with RowMajor => r_insert A v i j x | ColMajor => r_insert A v j i x end.
Definition smh_fill (r : list (nat * list (nat * T))) v : res S :=
  foldM (fun v row => foldM (fun v jx => smh_put v (fst row) (fst jx) (snd jx)) (snd row) v) r v.
Definition outer_axis : MexModel.axis := match l with RowMajor => A1 | ColMajor => A2 end.
(** matrix_assign<scalar_assign> (w, e), sparse_tag: 966-1049 *)
Definition smh_assign w e p : res (S * S) :=
  let* (p, x) := msee p e in
  smh_sizes (sel w p) x ;;
  let* v := r_clear A (sel w p) in
  let p := put w v p in
  let* (p, x) := msee p e in
  let* r := mtraverse O chk x outer_axis in
  let* v := smh_fill r (sel w p) in Ok (put w v p).
(** construction from an expression: matrix_sparse.hpp:312-319, 2888-2900, 4327-4336; result: the operands (which reading
    may settle) and the new matrix *)
Definition smh_of (cap : nat) e p : res ((S * S) * S) :=
  let* (p, x) := msee p e in
  let* n1 := msize chk x A1 in
  let* n2 := msize chk x A2 in
  let* t := r_new A n1 n2 cap in
  smh_sizes t x ;;
  let* t := r_clear A t in
  let* r := mtraverse O chk x outer_axis in
  let* t := smh_fill r t in Ok (p, t).

(** The members, with their lines in matrix_sparse.hpp (mapped / compressed / coordinate). *)
Inductive sm_act :=
| MRead w (i j : nat)                                (* x = w (i, j): 390-397 / 3034-3040 / 4470-4476 *)
| MPut w (i j : nat) (x : T)                         (* w (i, j) = x: 398-408 / 3042-3056 / 4478-4489 *)
| MInsert w (i j : nat) (x : T)                      (* 412-420 / 3059-3092 / 4507-4511 *)
| MErase w (i j : nat)                               (* 421-428 / 3094-3120 / 4513-4535 *)
| MClear w                                           (* 433-435 / 3124-3129 / 4539-4544 *)
| MResize w (n1 n2 : nat) (preserve : bool)          (* 361-367 / 2980-2995 / 4408-4421 *)
| MSame w                                            (* w = the other matrix: 439-446 / 3133-3146 / 4546-4563 *)
| MSelf w                                            (* w = w *)
| MFrom w (m : mexp T)                               (* w = m, a matrix of another type: 449-453 / 3149-3153 / 4566-4570 *)
| MExpr w e                                          (* w = e: 461-464 / 3161-3164 / 4578-4581 *)
| MComp w (f : afun) e                               (* w += e, w -= e: 473-476, 491-494 / 3173-3176, 3191-3194 / 4590-4593, 4608-4611 *)
| MNoalias w e                                       (* noalias (w) = e, w.assign (e): 467-470 / 3167-3170 / 4584-4587 *)
| MScale w (f : T -> T)                              (* w *= t, w /= t: 509-518 / 3209-3218 / 4626-4635; matrix_assign.hpp:413-451 *)
| MSwap.                                             (* 522-532 / 3222-3238 / 4639-4656 *)
Definition smh_on w p (r : res S) : res (S * S) := let* v := r in Ok (put w v p).
Definition smh_step p (o : sm_act) : res (S * S) :=
  match o with
  | MRead w i j => let* (v, _) := r_get A (sel w p) i j in Ok (put w v p)
  | MPut w i j x => smh_on w p (r_set A (sel w p) i j x)
  | MInsert w i j x => smh_on w p (r_insert A (sel w p) i j x)
  | MErase w i j => smh_on w p (r_erase A (sel w p) i j)
  | MClear w => smh_on w p (r_clear A (sel w p))
  | MResize w n1 n2 k => smh_on w p (r_resize A (sel w p) n1 n2 k)
  | MSame w => smh_on w p (r_copy A (sel w p) (sel (StorageModel.other w) p))
  | MSelf _ => Ok p
  | MFrom w m => let* v := r_resize A (sel w p) (e_1 m) (e_2 m) false in smh_assign w (XOther m) (put w v p)
  | MExpr w e => let* (p, t) := smh_of (r_cap A (sel w p)) e p in Ok (put w t p)
  | MComp w f e => let* (p, t) := smh_of (r_cap A (sel w p)) (XBin (fapply O f) (XMat w) e) p in Ok (put w t p)
  | MNoalias w e => smh_assign w e p
  | MScale w f => smh_on w p (r_scale A f (sel w p))
  | MSwap => Ok (snd p, fst p)
  end.
End Common.
Arguments sm_act : clear implicits.

Section Kinds.
Context {T : Type}.
Variables (O : vops T) (chk : bool) (l : layout).
Notation z := (v0 O).
(** the outer loop of matrix_assign_scalar: over begin1 () for row_major, begin2 () for column_major: matrix_assign.hpp:413-451 *)
Definition scale_axis : CMIterModel.axis := match l with RowMajor => Ax1 | ColMajor => Ax2 end.

(** functor_type::apply ( *it, t) in the nested loops, through the mutable iterators of compressed_matrix *)
Section Comp.
Variables (IB : nat) (junkI : nat -> nat) (junkV : nat -> T).
Fixpoint ci_awalk (f : T -> T) (fuel : nat) (m : cmat T) (w : CMIterModel.axis) (it last : cit) : res (cmat T) :=
  if ci_eq it last then Ok m else
  match fuel with
  | 0 => UB
  | S fuel' =>
      let* x := ci_deref z IB l chk m w it in
      let* m := ci_store IB l chk m w it (f x) in
      let* it' := ci_inc IB l chk m w it in
      ci_awalk f fuel' m w it' last
  end.
Fixpoint ci_aouter (f : T -> T) (fuel : nat) (m : cmat T) (w : CMIterModel.axis) (it last : cit) : res (cmat T) :=
  if ci_eq it last then Ok m else
  match fuel with
  | 0 => UB
  | S fuel' =>
      let* o := ci_index IB l chk m w it in
      let* b := ci_begin IB l m (CMIterModel.other w) o in
      let* e := ci_end IB l m (CMIterModel.other w) o in
      let* m := ci_awalk f (axsize (CMIterModel.other w) m) m (CMIterModel.other w) b e in
      let* it' := ci_inc IB l chk m w it in
      ci_aouter f fuel' m w it' last
  end.
Definition ci_assign (f : T -> T) (m : cmat T) (w : CMIterModel.axis) : res (cmat T) :=
  let* b := ci_find IB l m w false 0 0 true in
  let* e := ci_find IB l m w false (axsize w m) 0 true in
  ci_aouter f (axsize w m) m w b e.
(** compressed_matrix over unbounded_array; operator =: 3133-3146 *)
Definition cm_ops : smops (cmat T) T :=
  SmOps (@cm_s1 T) (@cm_s2 T) (fun w m => let* x := ci_traverse z IB l chk m w in Ok (m, x))
    (fun m i j => let* x := cm_get z IB l m i j in Ok (m, x)) (cm_set z IB junkI junkV l chk)
    (fun m i j x => let* (m, _) := cm_insert z IB junkI junkV l chk m i j x in Ok m) (cm_erase IB l chk) (cm_clear IB l chk)
    (cm_resize IB junkI junkV l chk) (@cm_cap T) (cm_new IB junkI junkV l chk)
    (fun _ a => let m' := CMat (cm_s1 a) (cm_s2 a) (cm_cap a) (cm_f1 a) (cm_f2 a) (cm_i1 a) (cm_i2 a) (cm_v a) in
       cm_inv IB l chk m' ;; Ok m')
    (fun f m => ci_assign f m scale_axis).
End Comp.
(** coordinate_matrix over unbounded_array; operator =: 4546-4563 *)
Section Coord.
Variables (IB : nat) (junkI : nat -> nat * nat) (junkV : nat -> T).
Variable std_sort : list ((nat * nat) * T) -> list ((nat * nat) * T).
Notation ad := (vadd O).
Definition ca_ops : smops (comat T) T :=
  SmOps (@ca_s1 T) (@ca_s2 T) (fun w m => oi_traverse z ad IB std_sort l chk m w)
    (ca_get z ad IB std_sort l chk) (ca_set z ad IB junkI junkV std_sort l chk) (ca_insert z ad IB junkI junkV std_sort l chk)
    (ca_erase ad IB std_sort l chk) (ca_clear chk) (ca_resize junkI junkV chk) (@ca_cap T) (ca_new junkI junkV chk)
    (fun _ a => let m' := CoMat (ca_s1 a) (ca_s2 a) (ca_cap a) (ca_filled a) (ca_sf a) (ca_sorted a) (ca_idx a) (ca_val a) in
       ca_inv chk m' ;; Ok m')
    (fun f m => oi_assign z ad IB std_sort l chk (fun _ _ => f) m scale_axis).
End Coord.
(** mapped_matrix over map_array (sizes and indices modulo 2 ^ 64); operator =: 439-446 *)
Fixpoint mi_awalk (f : T -> T) (fuel : nat) (m : mmat T) (w : CMIterModel.axis) (it last : MMIterModel.mit) : res (mmat T) :=
  if mi_eq it last then Ok m else
  match fuel with
  | 0 => UB
  | S fuel' =>
      let* x := mi_deref z chk l m w it in
      let* m := mi_store chk l m w it (f x) in
      let* it' := mi_inc chk l m w it in
      mi_awalk f fuel' m w it' last
  end.
Fixpoint mi_aouter (f : T -> T) (fuel : nat) (m : mmat T) (w : CMIterModel.axis) (it last : MMIterModel.mit) : res (mmat T) :=
  if mi_eq it last then Ok m else
  match fuel with
  | 0 => UB
  | S fuel' =>
      let* o := mi_index chk l m w it in
      let* b := mi_begin chk l m (CMIterModel.other w) o in
      let* e := mi_end chk l m (CMIterModel.other w) o in
      let* m := mi_awalk f (N.to_nat (mmsize (CMIterModel.other w) m)) m (CMIterModel.other w) b e in
      let* it' := mi_inc chk l m w it in
      mi_aouter f fuel' m w it' last
  end.
Definition mi_assign (f : T -> T) (m : mmat T) (w : CMIterModel.axis) : res (mmat T) :=
  let* b := mi_find chk l m w false 0%N 0%N true in
  let* e := mi_find chk l m w false (mmsize w m) 0%N true in
  mi_aouter f (N.to_nat (mmsize w m)) m w b e.
Notation N_ := N.of_nat.
Definition mm_ops : smops (mmat T) T :=
  SmOps (fun m => N.to_nat (mm_size1 m)) (fun m => N.to_nat (mm_size2 m))
    (fun w m => let* x := mi_traverse z chk l m w in Ok (m, map (fun c => ((N.to_nat (fst (fst c)), N.to_nat (snd (fst c))), snd c)) x))
    (fun m i j => let* x := mm_get z chk l m (N_ i) (N_ j) in Ok (m, x)) (fun m i j => mm_set z chk l m (N_ i) (N_ j))
    (fun m i j => mm_insert z chk l m (N_ i) (N_ j)) (fun m i j => mm_erase z chk l m (N_ i) (N_ j)) (mm_clear z chk)
    (fun m n1 n2 => mm_resize z chk m (N_ n1) (N_ n2)) (fun m => length (ma_data (mm_data m))) (fun n1 n2 nz => mm_new z chk (N_ n1) (N_ n2) (N_ nz))
    (fun m a => let* d := ma_assign z chk (mm_data m) (mm_data a) in Ok (MMat (mm_size1 a) (mm_size2 a) d))
    (fun f m => mi_assign f m scale_axis).
End Kinds.
