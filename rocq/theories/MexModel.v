(** MexModel.v -- matrix expressions and their iterators,
    /repo/include/boost/numeric/ublas/matrix_expression.hpp: vector_matrix_binary (321-860), matrix_unary1
    (921-1375), matrix_unary2 (1459-1937), matrix_binary (2010-2850), matrix_binary_scalar1 (2947-3411),
    matrix_binary_scalar2 (3473-3939), matrix_vector_binary1/2 (4013-4285, 4421-4693) and
    matrix_matrix_binary (4827-5484); default build (BOOST_UBLAS_USE_INDEXED_ITERATOR and
    BOOST_UBLAS_USE_INVARIANT_HOISTING not defined, BOOST_UBLAS_USE_INDEXING defined).
    The code of const_iterator2 is the code of const_iterator1 with the two indices exchanged; both are
    modelled at once, [d] says in which direction the iterator moves.  Simplifications: one value type T for
    all operands; the same_closure checks of iterator comparison are not modelled; the leaves are the
    matrices of MAssignModel: sizes, elements and the positions their iterators visit; the operands of outer
    products are the vector expressions of VexModel. *)
From Verif Require Import Base AssignModel VexModel InnerModel MAssignModel.
Open Scope nat_scope.

(** const_iterator1 moves from row to row (A1), const_iterator2 from column to column (A2). *)
Inductive axis := A1 | A2.
Definition other (d : axis) : axis := match d with A1 => A2 | A2 => A1 end.

Section Mex.
Context {T : Type} (O : vops T).
Notation zero := (v0 O).

Inductive mex :=
| MLeaf (m : mexp T)
| MUnary (f : T -> T) (e : mex)                    (* matrix_unary1: - m, conj (m), real (m), ... *)
| MTrans (f : T -> T) (e : mex)                    (* matrix_unary2: trans (m), herm (m) *)
| MBin (op : T -> T -> T) (e1 e2 : mex)            (* matrix_binary: m1 + m2, m1 - m2, element_prod, element_div *)
| MScal1 (op : T -> T -> T) (t : T) (e : mex)      (* matrix_binary_scalar1: t * m *)
| MScal2 (op : T -> T -> T) (e : mex) (t : T)      (* matrix_binary_scalar2: m * t, m / t *)
| MOuter (op : T -> T -> T) (v1 v2 : vex T)        (* vector_matrix_binary: outer_prod (v1, v2) *)
| MProd (e1 e2 : mex).                             (* matrix_matrix_binary: prod (m1, m2) *)

(** size1 (), size2 (): 353-360, 953-960, 1515-1522, 2042-2049, 2987-2994, 3515-3522, 4868-4875;
    BOOST_UBLAS_SAME: exception.hpp:279-283 and 292 (first operand's size in unchecked builds). *)
Definition same_ (chk : bool) (a : res nat) (b : unit -> res nat) : res nat :=
  if chk then
    let* n1 := a in
    let* n2 := b tt in
    check chk (n1 =? n2) bad_argument ;;
    Ok (Nat.min n1 n2)
  else a.
Fixpoint msize (chk : bool) (e : mex) (d : axis) : res nat :=
  match e with
  | MLeaf m => Ok (match d with A1 => e_1 m | A2 => e_2 m end)
  | MUnary _ e1 | MScal1 _ _ e1 | MScal2 _ e1 _ => msize chk e1 d
  | MTrans _ e1 => msize chk e1 (other d)
  | MBin _ e1 e2 => same_ chk (msize chk e1 d) (fun _ => msize chk e2 d)
  | MOuter _ v1 v2 => match d with A1 => vsize chk v1 | A2 => vsize chk v2 end
  | MProd e1 e2 => match d with A1 => msize chk e1 A1 | A2 => msize chk e2 A2 end
  end.

(** The size in direction d of an expression whose operands fit together. *)
Fixpoint vdim (v : vex T) : nat :=
  match v with
  | VLeaf s => s_n s
  | VUnary _ v1 | VBin _ v1 _ | VScal1 _ _ v1 | VScal2 _ v1 _ => vdim v1
  end.
Fixpoint mdim (e : mex) (d : axis) : nat :=
  match e with
  | MLeaf m => match d with A1 => e_1 m | A2 => e_2 m end
  | MUnary _ e1 | MScal1 _ _ e1 | MScal2 _ e1 _ | MBin _ e1 _ => mdim e1 d
  | MTrans _ e1 => mdim e1 (other d)
  | MOuter _ v1 v2 => match d with A1 => vdim v1 | A2 => vdim v2 end
  | MProd e1 e2 => match d with A1 => mdim e1 A1 | A2 => mdim e2 A2 end
  end.

(** operator () (i, j): 374-377, 974-977, 1542-1545, 2064-2067, 3006-3009, 3534-3537, 4889-4892 with
    matrix_matrix_prod::apply, functional.hpp:1205-1220 (sizes agree). *)
Fixpoint mx_at (e : mex) (i j : nat) : T :=
  match e with
  | MLeaf m => e_at m i j
  | MUnary f e1 => f (mx_at e1 i j)
  | MTrans f e1 => f (mx_at e1 j i)
  | MBin op e1 e2 => op (mx_at e1 i j) (mx_at e2 i j)
  | MScal1 op t e1 => op t (mx_at e1 i j)
  | MScal2 op e1 t => op (mx_at e1 i j) t
  | MOuter op v1 v2 => op (vx_at v1 i) (vx_at v2 j)
  | MProd e1 e2 => fold_left (fun t k => mac O t (mx_at e1 i k) (mx_at e2 k j)) (seq 0 (mdim e1 A2)) zero
  end.
(** The element at position p of line c in direction d. *)
Definition at_ax (e : mex) (d : axis) (p c : nat) : T :=
  match d with A1 => mx_at e p c | A2 => mx_at e c p end.

(** iterator_category of const_iterator1 and const_iterator2: 458-459, 1036, 1598, 2153-2154, 3055, 3583,
    4966-4967; iterator_restrict_traits. *)
Fixpoint mcat (e : mex) (d : axis) : icat :=
  match e with
  | MLeaf m => match d with A1 => e_c1 m | A2 => e_c2 m end
  | MUnary _ e1 | MScal1 _ _ e1 | MScal2 _ e1 _ => mcat e1 d
  | MTrans _ e1 => mcat e1 (other d)
  | MBin _ e1 e2 => VexModel.restrict (mcat e1 d) (mcat e2 d)
  | MOuter _ v1 v2 => VexModel.restrict (vcat v1) (vcat v2)
  | MProd e1 e2 => VexModel.restrict (mcat e1 A1) (mcat e2 A2)
  end.

(** Iterators.  JLeaf: of a container, made by find (rank, ..) with cross index c, standing at the k-th
    visited position; JSub: it_ of matrix_unary1/2 and matrix_binary_scalar1/2; JBin: the fields of
    matrix_binary::const_iterator1 (2468-2473: i_, j_, it1_, it1_end_, it2_, it2_end_; for const_iterator2
    j_, i_, ...); JOuter and JProd: it1_, it2_ (632-633, 5189-5191). *)
Inductive mit :=
| JLeaf (rank1 : bool) (c k : nat)
| JSub (it : mit)
| JBin (p c : nat) (it1 it1_end it2 it2_end : mit)
| JOuter (it1 it2 : vit)
| JProd (it1 it2 : mit).

(** The positions visited by the iterators of a container: rank 0, the rows (columns); rank 1, the
    elements of one column (row). *)
Definition lvisits (m : mexp T) (d : axis) (rank1 : bool) (c : nat) : list nat :=
  match d, rank1 with
  | A1, false => e_rows m
  | A1, true => e_col m c
  | A2, false => e_cols m
  | A2, true => e_row m c
  end.

(** index1 () of a const_iterator1, index2 () of a const_iterator2: 596-599, 1155-1158, 1717-1720,
    2432-2435, 3177-3180, 3705-3708, 5157-5160. *)
Fixpoint mindex (e : mex) (d : axis) (it : mit) : res nat :=
  match e, it with
  | MLeaf m, JLeaf r c k => match nth_error (lvisits m d r c) k with Some i => Ok i | None => UB end
  | MUnary _ e1, JSub i1 | MScal1 _ _ e1, JSub i1 | MScal2 _ e1 _, JSub i1 => mindex e1 d i1
  | MTrans _ e1, JSub i1 => mindex e1 (other d) i1
  | MBin _ _ _, JBin p _ _ _ _ _ => Ok p
  | MOuter _ v1 v2, JOuter it1 it2 => match d with A1 => vindex v1 it1 | A2 => vindex v2 it2 end
  | MProd e1 e2, JProd it1 it2 => match d with A1 => mindex e1 A1 it1 | A2 => mindex e2 A2 it2 end
  | _, _ => UB
  end.
(** index2 () of a const_iterator1, index1 () of a const_iterator2: 600-603, 1159-1162, 1721-1724,
    2436-2442, 3181-3184, 3709-3712, 5161-5164. *)
Fixpoint mcross (e : mex) (d : axis) (it : mit) : res nat :=
  match e, it with
  | MLeaf m, JLeaf _ c _ => Ok c
  | MUnary _ e1, JSub i1 | MScal1 _ _ e1, JSub i1 | MScal2 _ e1 _, JSub i1 => mcross e1 d i1
  | MTrans _ e1, JSub i1 => mcross e1 (other d) i1
  | MBin _ _ _, JBin _ c _ _ _ _ => Ok c
  | MOuter _ v1 v2, JOuter it1 it2 => match d with A1 => vindex v2 it2 | A2 => vindex v1 it1 end
  | MProd e1 e2, JProd it1 it2 => match d with A1 => mindex e2 A2 it2 | A2 => mindex e1 A1 it1 end
  | _, _ => UB
  end.

Section Run.
Variable chk : bool.

(** operator ==: 616-621, 1172-1176, 1734-1738, 2457-2462, 3195-3199, 3723-3727, 5176-5181. *)
Fixpoint mequal (e : mex) (d : axis) (a b : mit) : res bool :=
  match e, a, b with
  | MLeaf _, JLeaf r c k, JLeaf r' c' k' => if Bool.eqb r r' && (c =? c') then Ok (k =? k') else UB
  | MUnary _ e1, JSub i, JSub j | MScal1 _ _ e1, JSub i, JSub j | MScal2 _ e1 _, JSub i, JSub j => mequal e1 d i j
  | MTrans _ e1, JSub i, JSub j => mequal e1 (other d) i j
  | MBin _ _ _, JBin p c _ _ _ _, JBin p' c' _ _ _ _ => check chk (c =? c') external_logic ;; Ok (p =? p')
  | MOuter _ v1 v2, JOuter i1 i2, JOuter j1 j2 =>
      match d with
      | A1 => (if chk then let* b := vequal v2 i2 j2 in check chk b external_logic else Ok tt) ;; vequal v1 i1 j1
      | A2 => (if chk then let* b := vequal v1 i1 j1 in check chk b external_logic else Ok tt) ;; vequal v2 i2 j2
      end
  | MProd e1 e2, JProd i1 i2, JProd j1 j2 =>
      match d with
      | A1 => (if chk then let* b := mequal e2 A2 i2 j2 in check chk b external_logic else Ok tt) ;; mequal e1 A1 i1 j1
      | A2 => (if chk then let* b := mequal e1 A1 i1 j1 in check chk b external_logic else Ok tt) ;; mequal e2 A2 i2 j2
      end
  | _, _, _ => UB
  end.

(** it != it_end ? it.index1 () : size: 2118-2119, 2134-2135. *)
Definition mindex_or (e : mex) (d : axis) (it it_end : mit) (size : nat) : res nat :=
  let* b := mequal e d it it_end in
  if b then Ok size else mindex e d it.
(** BOOST_UBLAS_CHECK (rank == 0 || it == it_end || it.index2 () == j, internal_logic ()): 2116-2117,
    2132-2133. *)
Definition mline_check (e : mex) (d : axis) (rank1 : bool) (c : nat) (it it_end : mit) : res unit :=
  if chk && rank1 then
    let* b := mequal e d it it_end in
    if b then Ok tt else
      let* x := mcross e d it in
      check chk (x =? c) internal_logic
  else Ok tt.

(** vector_matrix_binary::find1 and find2 (413-454): [vm] is the operand the iterator moves along, [vc] the
    other one.  Returns the iterators of vm and vc. *)
Definition outer_cross (vc : vex T) (rank1 : bool) (c : nat) : res (bool * vit) :=
  let* nc := vsize chk vc in
  let* it2 := vfind chk vc c in
  let* it2_end := vfind chk vc nc in
  let* b := vequal vc it2 it2_end in
  let* stop :=
    (if b then Ok true
     else if rank1 then
       let* x := vindex vc it2 in
       if x =? c then let* y := vderef zero vc it2 in Ok (veqb O y zero) else Ok true
     else Ok false) in
  Ok (stop, if stop then it2_end else it2).
Definition outer_find (vm vc : vex T) (rank1 : bool) (i c : nat) : res (vit * vit) :=
  let* nm := vsize chk vm in
  let* it1 := vfind chk vm i in
  let* it1_end := vfind chk vm nm in
  let* s := outer_cross vc rank1 c in
  Ok (if fst s then it1_end else it1, snd s).

(** find1 (rank, i, c) for d = A1, find2 (rank, c, i) for d = A2: 413-454, 1010-1027, 1572-1589, 2111-2141,
    3030-3047, 3558-3575, 4929-4957 (which ignores the rank). *)
Fixpoint mfind (e : mex) (d : axis) (rank1 : bool) (i c : nat) : res mit :=
  match e with
  | MLeaf m => Ok (JLeaf rank1 c (length (filter (fun j => j <? i) (lvisits m d rank1 c))))
  | MUnary _ e1 | MScal1 _ _ e1 | MScal2 _ e1 _ => let* it := mfind e1 d rank1 i c in Ok (JSub it)
  | MTrans _ e1 => let* it := mfind e1 (other d) rank1 i c in Ok (JSub it)
  | MBin _ e1 e2 =>
      let* size := msize chk e d in
      let* it1 := mfind e1 d rank1 i c in
      let* it1_end := mfind e1 d rank1 size c in
      let* it2 := mfind e2 d rank1 i c in
      let* it2_end := mfind e2 d rank1 size c in
      mline_check e1 d rank1 c it1 it1_end ;;
      mline_check e2 d rank1 c it2 it2_end ;;
      let* a := mindex_or e1 d it1 it1_end size in
      let* b := mindex_or e2 d it2 it2_end size in
      Ok (JBin (Nat.min a b) c it1 it1_end it2 it2_end)
  | MOuter _ v1 v2 =>
      match d with
      | A1 => let* p := outer_find v1 v2 rank1 i c in Ok (JOuter (fst p) (snd p))
      | A2 => let* p := outer_find v2 v1 rank1 i c in Ok (JOuter (snd p) (fst p))
      end
  | MProd e1 e2 =>
      match d with
      | A1 => let* it1 := mfind e1 A1 false i 0 in let* it2 := mfind e2 A2 false c 0 in Ok (JProd it1 it2)
      | A2 => let* it2 := mfind e2 A2 false i 0 in let* it1 := mfind e1 A1 false c 0 in Ok (JProd it1 it2)
      end
  end.

(** operator ++: 491-494, 1056-1059, 1618-1621, matrix_binary 2174-2176 (dense), 2195-2203 (packed), 2260-2276
    (sparse), 2334-2337, 3079-3082, 3607-3610, 5054-5057. *)
Fixpoint minc (e : mex) (d : axis) (it : mit) : res mit :=
  match e, it with
  | MLeaf m, JLeaf r c k => if k <? length (lvisits m d r c) then Ok (JLeaf r c (k + 1)) else UB
  | MUnary _ e1, JSub i1 | MScal1 _ _ e1, JSub i1 | MScal2 _ e1 _, JSub i1 => let* j := minc e1 d i1 in Ok (JSub j)
  | MTrans _ e1, JSub i1 => let* j := minc e1 (other d) i1 in Ok (JSub j)
  | MBin _ e1 e2, JBin p c it1 it1e it2 it2e =>
      match mcat e d with
      | IDense =>
          let* a := minc e1 d it1 in
          let* b := minc e2 d it2 in
          Ok (JBin (p + 1) c a it1e b it2e)
      | ct =>
          let* b1 := mequal e1 d it1 it1e in
          let* a := (if b1 then Ok it1 else
                       let* j := mindex e1 d it1 in if j <=? p then minc e1 d it1 else Ok it1) in
          let* b2 := mequal e2 d it2 it2e in
          let* b := (if b2 then Ok it2 else
                       let* j := mindex e2 d it2 in if j <=? p then minc e2 d it2 else Ok it2) in
          match ct with
          | IPacked => Ok (JBin (p + 1) c a it1e b it2e)
          | _ =>
              let* size := msize chk e d in
              let* index1 := mindex_or e1 d a it1e size in
              let* index2 := mindex_or e2 d b it2e size in
              Ok (JBin (Nat.min index1 index2) c a it1e b it2e)
          end
      end
  | MOuter _ v1 v2, JOuter it1 it2 =>
      match d with
      | A1 => let* a := vinc chk v1 it1 in Ok (JOuter a it2)
      | A2 => let* b := vinc chk v2 it2 in Ok (JOuter it1 b)
      end
  | MProd e1 e2, JProd it1 it2 =>
      match d with
      | A1 => let* a := minc e1 A1 it1 in Ok (JProd a it2)
      | A2 => let* b := minc e2 A2 it2 in Ok (JProd it1 b)
      end
  | _, _ => UB
  end.

(** for (; it != it_end; ++ it) visit (it.index (), * it); running out of fuel is UB. *)
Fixpoint mloop {A} (eq : mit -> mit -> res bool) (visit : mit -> res A) (inc : mit -> res mit)
  (fuel : nat) (it it_end : mit) : res (list A) :=
  let* stop := eq it it_end in
  if stop then Ok [] else
  match fuel with
  | 0 => UB
  | S fuel' =>
      let* x := visit it in
      let* it' := inc it in
      let* l := mloop eq visit inc fuel' it' it_end in
      Ok (x :: l)
  end.

(** What an iterator range shows, as an operand of an inner product kernel; positions the iterators do not
    visit are read by index. *)
Definition seen_at (f : nat -> T) (l : list (nat * T)) (i : nat) : T :=
  match find (fun p => fst p =? i) l with Some p => snd p | None => f i end.
Definition range_src (n : nat) (c : icat) (f : nat -> T) (l : list (nat * T)) : src T :=
  Src n (map fst l) (seen_at f l) c.

(** operator *: 512-518, 1077-1080, 1639-1642, matrix_binary 2189-2191 (dense), 2237-2256 (packed) and 2309-2328
    (sparse), 3100-3103, 3628-3631; matrix_matrix_binary 4993-5049: by indices when both operands are
    dense, else the packed or sparse kernel on it1_.begin () .. it1_.end () and it2_.begin () .. it2_.end (). *)
Fixpoint mderef (e : mex) (d : axis) (it : mit) : res T :=
  match e, it with
  | MLeaf m, JLeaf r c k =>
      match nth_error (lvisits m d r c) k with
      | Some i => Ok (match d with A1 => e_at m i c | A2 => e_at m c i end)
      | None => UB
      end
  | MUnary f e1, JSub i1 => let* x := mderef e1 d i1 in Ok (f x)
  | MTrans f e1, JSub i1 => let* x := mderef e1 (other d) i1 in Ok (f x)
  | MScal1 op t e1, JSub i1 => let* x := mderef e1 d i1 in Ok (op t x)
  | MScal2 op e1 t, JSub i1 => let* x := mderef e1 d i1 in Ok (op x t)
  | MBin op e1 e2, JBin p c it1 it1e it2 it2e =>
      match mcat e d with
      | IDense =>
          let* x := mderef e1 d it1 in
          let* y := mderef e2 d it2 in
          Ok (op x y)
      | _ =>
          let* b1 := mequal e1 d it1 it1e in
          let* x := (if b1 then Ok zero else
                       (if chk then let* q := mcross e1 d it1 in check chk (q =? c) internal_logic else Ok tt) ;;
                       let* j := mindex e1 d it1 in if j =? p then mderef e1 d it1 else Ok zero) in
          let* b2 := mequal e2 d it2 it2e in
          let* y := (if b2 then Ok zero else
                       (if chk then let* q := mcross e2 d it2 in check chk (q =? c) internal_logic else Ok tt) ;;
                       let* j := mindex e2 d it2 in if j =? p then mderef e2 d it2 else Ok zero) in
          Ok (op x y)
      end
  | MOuter op v1 v2, JOuter it1 it2 =>
      let* x := vderef zero v1 it1 in
      let* y := vderef zero v2 it2 in
      Ok (op x y)
  | MProd e1 e2, JProd it1 it2 =>
      let* i := mindex e1 A1 it1 in
      let* j := mindex e2 A2 it2 in
      match mcat e d with
      | IDense => Ok (mx_at e i j)
      | ct =>
          let* n1 := msize chk e1 A2 in
          let* f1 := mfind e1 A2 true 0 i in
          let* l1 := mfind e1 A2 true n1 i in
          let* r1 := mloop (mequal e1 A2) (fun it => let* k := mindex e1 A2 it in let* x := mderef e1 A2 it in Ok (k, x))
                           (minc e1 A2) (S n1) f1 l1 in
          let* n2 := msize chk e2 A1 in
          let* f2 := mfind e2 A1 true 0 j in
          let* l2 := mfind e2 A1 true n2 j in
          let* r2 := mloop (mequal e2 A1) (fun it => let* k := mindex e2 A1 it in let* x := mderef e2 A1 it in Ok (k, x))
                           (minc e2 A1) (S n2) f2 l2 in
          let s1 := range_src n1 (mcat e1 A2) (mx_at e1 i) r1 in
          let s2 := range_src n2 (mcat e2 A1) (fun k => mx_at e2 k j) r2 in
          match ct with
          | IPacked => ip_packed O s1 s2
          | _ => ip_sparse O s1 s2
          end
      end
  | _, _ => UB
  end.

(** for (it2 = it1.begin (); it2 != it1.end (); ++ it2) visit (it2.index2 (), * it2), where it1 stands at line c. *)
Definition line (e : mex) (d : axis) (c : nat) : res (list (nat * T)) :=
  let* n := msize chk e d in
  let* it := mfind e d true 0 c in
  let* it_end := mfind e d true n c in
  mloop (mequal e d) (fun it => let* k := mindex e d it in let* x := mderef e d it in Ok (k, x)) (minc e d) (S n) it it_end.
(** for (it1 = begin1 (); it1 != end1 (); ++ it1) for (it2 = it1.begin (); it2 != it1.end (); ++ it2)
      visit (it2.index1 (), it2.index2 (), * it2);  (d = A1, row by row; d = A2: column by column). *)
Definition mtraverse (e : mex) (d : axis) : res (list (nat * list (nat * T))) :=
  let* n := msize chk e d in
  let* it := mfind e d false 0 0 in
  let* it_end := mfind e d false n 0 in
  mloop (mequal e d) (fun it => let* k := mindex e d it in let* l := line e (other d) k in Ok (k, l)) (minc e d) (S n) it it_end.

(** prod (m, v), prod (v, m) read through their iterators: find (i) is e1.find1 (0, i, 0) (4093-4101; e2.find2
    (0, 0, j), 4499-4507); operator * (4136-4196, 4542-4602) runs over the line of the matrix and over v:
    by indices when both are dense, else the kernels of InnerModel. *)
Definition mv_lines (e : mex) (v : vex T) (d : axis) (kernel : src T -> src T -> res T) : res (list (nat * T)) :=
  let* n := msize chk e d in
  let* it := mfind e d false 0 0 in
  let* it_end := mfind e d false n 0 in
  mloop (mequal e d)
    (fun it =>
      let* k := mindex e d it in
      let* n1 := msize chk e (other d) in
      let* n2 := vsize chk v in
      let* x := (match VexModel.restrict (mcat e d) (vcat v) with
                 | IDense =>
                     kernel (Src n1 (seq 0 n1) (fun j => at_ax e (other d) j k) IDense) (Src n2 (seq 0 n2) (vx_at v) IDense)
                 | _ =>
                     let* r := line e (other d) k in
                     let* w := traverse zero chk v in
                     kernel (range_src n1 (mcat e (other d)) (fun j => at_ax e (other d) j k) r) (range_src n2 (vcat v) (vx_at v) w)
                 end) in
      Ok (k, x))
    (minc e d) (S n) it it_end.
Definition prod_mv (e : mex) (v : vex T) : res (list (nat * T)) :=
  mv_lines e v A1 (fun row x => mv_deref O chk false row x).
Definition prod_vm (v : vex T) (e : mex) : res (list (nat * T)) :=
  mv_lines e v A2 (fun col x => mv_deref O chk false x col).
End Run.
End Mex.
Arguments mex : clear implicits.
