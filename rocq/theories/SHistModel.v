(** SHistModel.v -- mapped_vector, compressed_vector and coordinate_vector (vector_sparse.hpp:305-560, 838-1197, 1493-1961):
    histories of element writes, insertions, erasures, resizes, assignments and compound assignments of expressions, scaling
    and swapping of two vectors of one type.
    The element operations are those of MappedModel, CVecModel and CoVecModel, the iterators those of SVIterModel; iterating
    over an expression is VexModel.traverse; the assignment loops of detail/vector_assign.hpp are written here over the
    concrete vectors.  In an expression a vector is represented by what iterating over it visits (SVIterModel.si_loop): its
    elements are read through the iterators. *)
From Verif Require Import Base SparseLib MapArrayModel MappedModel CVecModel CoordModel CoVecModel SVIterModel StorageModel AssignModel VexModel.
Open Scope nat_scope.

(** the member functions of a vector; q_get returns the vector too (coordinate_vector sorts itself on reading) *)
Record svops (S T : Type) := SvOps {
  q_it : sviter S T;
  q_get : S -> nat -> res (S * T);          (* operator () const *)
  q_set : S -> nat -> T -> res S;           (* v (i) = x *)
  q_insert : S -> nat -> T -> res S;
  q_erase : S -> nat -> res S;
  q_clear : S -> res S;
  q_resize : S -> nat -> bool -> res S;
  q_cap : S -> nat;                         (* nnz_capacity () *)
  q_new : nat -> nat -> res S;              (* S (size, non_zeros) *)
  q_copy : S -> S -> res S                  (* destination = source *)
}.
Arguments SvOps {S T}. Arguments q_it {S T}. Arguments q_get {S T}. Arguments q_set {S T}. Arguments q_insert {S T}. Arguments q_erase {S T}.
Arguments q_clear {S T}. Arguments q_resize {S T}. Arguments q_cap {S T}. Arguments q_new {S T}. Arguments q_copy {S T}.

(** expressions over the two vectors and other vectors [s] (dense, packed or sparse ones of other types) *)
Inductive sexp (T : Type) :=
| SVec (w : which)
| SOther (s : src T)
| SUn (f : T -> T) (e : sexp T)                       (* -v, conj (v), ... *)
| SBin (f : T -> T -> T) (e1 e2 : sexp T)             (* +, -, element_prod, ... *)
| SLeft (f : T -> T -> T) (t : T) (e : sexp T)        (* t * v *)
| SRight (f : T -> T -> T) (e : sexp T) (t : T).      (* v * t, v / t *)
Arguments SVec {T}. Arguments SOther {T}. Arguments SUn {T}. Arguments SBin {T}. Arguments SLeft {T}. Arguments SRight {T}.
Fixpoint mentions {T} (w : which) (e : sexp T) : bool :=
  match e with
  | SVec v => match v, w with L, L | R, R => true | _, _ => false end
  | SOther _ => false
  | SUn _ a | SLeft _ _ a | SRight _ a _ => mentions w a
  | SBin _ a b => mentions w a || mentions w b
  end.

Section Common.
Context {S T : Type}.
Variable A : svops S T.
Variable O : vops T.
Variable chk : bool.
Implicit Types (v : S) (p : S * S) (w : which) (e : sexp T).
Notation It := (q_it A).
Notation size v := (si_size It v).

(** the vector expression, given what iterating over the two vectors visits *)
Definition leaf (n : nat) (l : list (nat * T)) : vex T :=
  VLeaf (Src n (map fst l) (fun i => match assoc i l with Some x => x | None => v0 O end) ISparse).
Fixpoint lower (ns : nat * nat) (ls : list (nat * T) * list (nat * T)) e : vex T :=
  match e with
  | SVec w => leaf (sel w ns) (sel w ls)
  | SOther s => VLeaf s
  | SUn f a => VUnary f (lower ns ls a)
  | SBin f a b => VBin f (lower ns ls a) (lower ns ls b)
  | SLeft f t a => VScal1 f t (lower ns ls a)
  | SRight f a t => VScal2 f (lower ns ls a) t
  end.
(** iterating over a vector; only vectors that occur in e are touched *)
Definition visits v : res (S * list (nat * T)) := si_loop It chk (Datatypes.S (size v)) v.
Definition visits_if (b : bool) v : res (S * list (nat * T)) := if b then visits v else Ok (v, []).
Definition see p e : res ((S * S) * vex T) :=
  let* (a, l1) := visits_if (mentions L e) (fst p) in
  let* (b, l2) := visits_if (mentions R e) (snd p) in
  Ok ((a, b), lower (size a, size b) (l1, l2) e).

(** BOOST_UBLAS_CHECK (v.size () == e ().size (), bad_size ()): vector_assign.hpp:48, 367, 404 *)
Definition size_check v (x : vex T) : res unit := let* n := vsize chk x in check chk (size v =? n) bad_size.
(** the loop of the sparse kernel: vector_assign.hpp:384-391 *)
Definition sh_fill (l : list (nat * T)) v : res S :=
  foldM (fun v jt => if veqb O (snd jt) (v0 O) then Ok v else q_insert A v (fst jt) (snd jt)) l v.
(** vector_assign<scalar_assign> (w, e), sparse_tag: vector_assign.hpp:363-399 *)
Definition sh_assign w e p : res (S * S) :=
  let* (p, x) := see p e in
  size_check (sel w p) x ;;
  let* v := q_clear A (sel w p) in
  let p := put w v p in
  let* (p, x) := see p e in
  let* l := traverse (v0 O) chk x in
  let* v := sh_fill l (sel w p) in Ok (put w v p).
(** construction from an expression: vector_sparse.hpp:346-353, 889-897, 1548-1556; result: the operands (which reading may
    settle) and the new vector *)
Definition sh_of cap e p : res ((S * S) * S) :=
  let* (p, x) := see p e in
  let* n := vsize chk x in
  let* t := q_new A n cap in
  size_check t x ;;
  let* t := q_clear A t in
  let* l := traverse (v0 O) chk x in
  let* t := sh_fill l t in Ok (p, t).

(** detail::make_conformant: vector_assign.hpp:46-92; the merge of the two index sequences is AssignModel.conf_merge *)
Definition sh_conform w e p : res (S * S) :=
  let* (p, x) := see p e in
  size_check (sel w p) x ;;
  let* (v, lv) := visits (sel w p) in
  let p := put w v p in
  let* l := traverse (v0 O) chk x in
  let nz j := negb (veqb O (vx_at x j) (v0 O)) in
  let* (index, rest) := conf_merge (length lv + length l) ISparse nz (map fst lv) (map fst l) [] in
  let* v := foldM (fun v k => q_set A v k (v0 O)) (index ++ filter nz rest) (sel w p) in Ok (put w v p).
(** the merge loop of the sparse proxy kernel: vector_assign.hpp:424-465, for += and -=; q, qe: it, it_end; ite: the positions
    the iterator of e has still to visit; *ite is the element of e there at that moment *)
Fixpoint sh_merge (fuel : nat) w (f : T -> T -> T) e (q qe : nat) (ite : list nat) p : res (S * S) :=
  if q =? qe then Ok p else
  match ite, fuel with
  | [], _ => Ok p
  | _, 0 => UB
  | j :: ite', Datatypes.S fuel =>
      let* (v, i) := si_index It chk (sel w p) q in
      let p := put w v p in
      if i =? j then
        let* (p, x) := see p e in
        let* (v, y) := si_deref It chk (sel w p) q in
        let* v := si_store It chk v q (f y (vx_at x j)) in
        sh_merge fuel w f e (si_inc q) qe ite' (put w v p)
      else if i <? j then sh_merge fuel w f e (si_inc q) qe ite p                  (* increment (it, it_end, j - i) *)
      else let* (p, x) := see p e in sh_merge fuel w f e q qe (increment (vcat x) ite (i - j)) p
  end.
(** vector_assign<F> (w, e), F = scalar_plus_assign or scalar_minus_assign: vector_assign.hpp:400-470 *)
Definition sh_proxy w (f : T -> T -> T) e p : res (S * S) :=
  let* (p, x) := see p e in
  size_check (sel w p) x ;;
  let* p := sh_conform w e p in
  let* (p, x) := see p e in
  let* l := traverse (v0 O) chk x in
  let* (v, q) := si_begin It (sel w p) in
  let* (v, qe) := si_end It v in
  sh_merge (qe + length l) w f e q qe (map fst l) (put w v p).

(** The members, with their lines in vector_sparse.hpp (mapped / compressed / coordinate). *)
Inductive sv_act :=
| VRead w (i : nat)                                  (* x = w (i): 419-427 / 1004-1012 / 1672-1680 *)
| VPut w (i : nat) (x : T)                           (* w (i) = x: 428-443 / 1013-1030 / 1681-1699 *)
| VInsert w (i : nat) (x : T)                        (* 455-463 / 1041-1059 / 1722-1727 *)
| VErase w (i : nat)                                 (* 464-471 / 1060-1071 / 1728-1742 *)
| VClear w                                           (* 473-476 / 1074-1078 / 1744-1750 *)
| VResize w (n : nat) (preserve : bool)              (* 387-396 / 953-970 / 1615-1636 *)
| VSame w                                            (* w = the other vector: 479-486 / 1081-1092 / 1753-1766 *)
| VSelf w                                            (* w = w *)
| VFrom w (s : src T)                                (* w = s, a vector of another type: 487-493 / 1093-1099 / 1767-1773 *)
| VExpr w e                                          (* w = e: 499-504 / 1105-1110 / 1779-1784 *)
| VComp w (f : afun) e                               (* w += e, w -= e: 513-518, 531-536 / 1119-1142 / 1793-1816 *)
| VNoalias w e                                       (* noalias (w) = e, w.assign (e): 505-510 / 1111-1116 / 1785-1790 *)
| VNoaliasComp w (f : afun) e                        (* noalias (w) += e, w.plus_assign (e), w += s for a vector s: 519-548 / 1125-1154 / 1799-1828 *)
| VScale w (f : T -> T)                              (* w *= t, w /= t: 549-560 / 1155-1166 / 1829-1840; vector_assign.hpp:129-168 *)
| VSwap.                                             (* 562-573 / 1169-1183 / 1843-1859 *)
Definition sh_on w p (r : res S) : res (S * S) := let* v := r in Ok (put w v p).
Definition sh_step p (o : sv_act) : res (S * S) :=
  match o with
  | VRead w i => let* (v, _) := q_get A (sel w p) i in Ok (put w v p)
  | VPut w i x => sh_on w p (q_set A (sel w p) i x)
  | VInsert w i x => sh_on w p (q_insert A (sel w p) i x)
  | VErase w i => sh_on w p (q_erase A (sel w p) i)
  | VClear w => sh_on w p (q_clear A (sel w p))
  | VResize w n k => sh_on w p (q_resize A (sel w p) n k)
  | VSame w => sh_on w p (q_copy A (sel w p) (sel (other w) p))
  | VSelf _ => Ok p
  | VFrom w s => let* v := q_resize A (sel w p) (s_n s) false in sh_assign w (SOther s) (put w v p)
  | VExpr w e => let* (p, t) := sh_of (q_cap A (sel w p)) e p in Ok (put w t p)
  | VComp w f e => let* (p, t) := sh_of (q_cap A (sel w p)) (SBin (fapply O f) (SVec w) e) p in Ok (put w t p)
  | VNoalias w e => sh_assign w e p
  | VNoaliasComp w f e => sh_proxy w (fapply O f) e p
  | VScale w f => sh_on w p (si_maploop It chk (fun _ => f) (Datatypes.S (size (sel w p))) (sel w p))
  | VSwap => Ok (snd p, fst p)
  end.
End Common.
Arguments sv_act : clear implicits.

Section Kinds.
Context {T : Type}.
Variables (O : vops T) (chk : bool).
Notation z := (v0 O).
(** mapped_vector over map_array; operator =: 479-486 *)
Definition mv_ops : svops (mvec T) T :=
  SvOps mv_iter (fun v i => let* x := mv_get z chk v i in Ok (v, x)) (mv_set z chk) (mv_insert z chk) (mv_erase z chk) (mv_clear z chk)
    (mv_resize z chk) (fun v => length (ma_data (mv_data v))) (mv_new z chk)
    (fun v a => let* d := ma_assign z chk (mv_data v) (mv_data a) in Ok (MVec (mv_size a) d)).
(** compressed_vector over unbounded_array *)
Variables (IB : nat) (junkI : nat -> nat) (junkV : nat -> T).
Definition cv_ops : svops (cvec T) T :=
  SvOps (cv_iter IB) (fun v i => let* x := cv_get z IB chk v i in Ok (v, x)) (cv_set z IB junkI junkV chk)
    (fun v i x => let* (v, _) := cv_insert z IB junkI junkV chk v i (Ext x) in Ok v) (cv_erase IB chk) (cv_clear IB chk)
    (cv_resize z IB junkI junkV chk) (fun v => cv_cap v) (cv_new IB junkI junkV chk) (cv_assign IB chk).
(** coordinate_vector over unbounded_array; operator =: 1753-1766 *)
Variable std_sort : list (nat * T) -> list (nat * T).
Notation ad := (vadd O).
Definition co_assign (v a : covec T) : res (covec T) :=
  let v' := CoVec (co_size a) (co_cap a) (co_filled a) (co_sf a) (co_sorted a) (co_idx a) (co_val a) in
  co_inv IB chk v' ;; Ok v'.
Definition co_ops : svops (covec T) T :=
  SvOps (co_iter chk IB ad std_sort) (co_get z ad IB std_sort chk) (co_set z ad IB junkI junkV std_sort chk)
    (co_insert z ad IB junkI junkV std_sort chk) (co_erase ad IB std_sort chk) (co_clear IB chk)
    (co_resize z ad IB junkI junkV std_sort chk) (fun v => co_cap v) (co_new IB junkI junkV chk) co_assign.
End Kinds.
