(** VexModel.v -- vector expressions and their iterators,
    /repo/include/boost/numeric/ublas/vector_expression.hpp: vector_unary (247-470), vector_binary
    (550-950), vector_binary_scalar1 (1000-1215), vector_binary_scalar2 (1248-1460), default build
    (BOOST_UBLAS_USE_INDEXED_ITERATOR not defined).  Simplifications: one value type T for all
    operands; the same_closure checks of iterator comparison are not modelled; the leaves are the vectors
    of AssignModel: a container, given by its size, its elements and the sequence of positions its
    iterators visit. *)
From Verif Require Import Base AssignModel.
Open Scope nat_scope.

Section Vex.
Context {T : Type}.

(** Expression trees. *)
Inductive vex :=
| VLeaf (s : src T)
| VUnary (f : T -> T) (e : vex)                     (* vector_unary: -v, conj (v), real (v), ... *)
| VBin (op : T -> T -> T) (e1 e2 : vex)             (* vector_binary: v1 + v2, v1 - v2, element_prod, element_div *)
| VScal1 (op : T -> T -> T) (t : T) (e : vex)       (* vector_binary_scalar1: t * v *)
| VScal2 (op : T -> T -> T) (e : vex) (t : T).      (* vector_binary_scalar2: v * t, v / t *)

(** size (): 277-279, 580-583, 1035-1037, 1283-1285; BOOST_UBLAS_SAME: exception.hpp:279-283 and 292
    (first operand's size in unchecked builds). *)
Fixpoint vsize (chk : bool) (e : vex) : res nat :=
  match e with
  | VLeaf s => Ok (s_n s)
  | VUnary _ e1 => vsize chk e1
  | VBin _ e1 e2 =>
      if chk then
        let* n1 := vsize chk e1 in
        let* n2 := vsize chk e2 in
        check chk (n1 =? n2) bad_argument ;;
        Ok (Nat.min n1 n2)
      else vsize chk e1
  | VScal1 _ _ e1 => vsize chk e1
  | VScal2 _ e1 _ => vsize chk e1
  end.

(** operator () (i): 292-294, 598-600, 1042-1044, 1290-1292. *)
Fixpoint vx_at (e : vex) (i : nat) : T :=
  match e with
  | VLeaf s => s_at s i
  | VUnary f e1 => f (vx_at e1 i)
  | VBin op e1 e2 => op (vx_at e1 i) (vx_at e2 i)
  | VScal1 op t e1 => op t (vx_at e1 i)
  | VScal2 op e1 t => op (vx_at e1 i) t
  end.

(** iterator_category: iterator_restrict_traits, traits.hpp:533-564. *)
Definition restrict (c1 c2 : icat) : icat :=
  match c1, c2 with
  | IDense, IDense => IDense
  | ISparse, _ | _, ISparse => ISparse
  | _, _ => IPacked
  end.
Fixpoint vcat (e : vex) : icat :=
  match e with
  | VLeaf s => s_cat s
  | VUnary _ e1 | VScal1 _ _ e1 | VScal2 _ e1 _ => vcat e1
  | VBin _ e1 e2 => restrict (vcat e1) (vcat e2)
  end.

(** Iterators: a position in the visited sequence of a container; the iterator of the operand
    (vector_unary::const_iterator::it_, vector_binary_scalar1::const_iterator::it2_, ...); the fields
    i_, it1_, it1_end_, it2_, it2_end_ of vector_binary::const_iterator (904-909). *)
Inductive vit :=
| TLeaf (k : nat)
| TSub (it : vit)
| TBin (i : nat) (it1 it1_end it2 it2_end : vit).

(** index (): 424-426, 866-868, ...; an end iterator of a container has no index. *)
Fixpoint vindex (e : vex) (it : vit) : res nat :=
  match e, it with
  | VLeaf s, TLeaf k => match nth_error (s_its s) k with Some i => Ok i | None => UB end
  | VUnary _ e1, TSub i1 | VScal1 _ _ e1, TSub i1 | VScal2 _ e1 _, TSub i1 => vindex e1 i1
  | VBin _ _ _, TBin i _ _ _ _ => Ok i
  | _, _ => UB
  end.

(** operator ==: sub-iterators of vector_unary etc. are compared (441-444), iterators of vector_binary
    compare their index (884-887). *)
Fixpoint vequal (e : vex) (a b : vit) : res bool :=
  match e, a, b with
  | VLeaf _, TLeaf k, TLeaf l => Ok (k =? l)
  | VUnary _ e1, TSub i, TSub j | VScal1 _ _ e1, TSub i, TSub j | VScal2 _ e1 _, TSub i, TSub j => vequal e1 i j
  | VBin _ _ _, TBin i _ _ _ _, TBin j _ _ _ _ => Ok (i =? j)
  | _, _, _ => UB
  end.

(** it != it_end ? it.index () : size: 632-633. *)
Definition index_or (e : vex) (it it_end : vit) (size : nat) : res nat :=
  let* b := vequal e it it_end in
  if b then Ok size else vindex e it.

(** Containers: first stored position >= i. *)
Definition leaf_find (s : src T) (i : nat) : nat := length (filter (fun j => j <? i) (s_its s)).
(** find (i): 336-343, 627-641, 1072-1081. *)
Fixpoint vfind (chk : bool) (e : vex) (i : nat) : res vit :=
  match e with
  | VLeaf s => Ok (TLeaf (leaf_find s i))
  | VUnary _ e1 | VScal1 _ _ e1 | VScal2 _ e1 _ => let* it := vfind chk e1 i in Ok (TSub it)
  | VBin _ e1 e2 =>
      let* size := vsize chk e in
      let* it1 := vfind chk e1 i in
      let* it1_end := vfind chk e1 size in
      let* it2 := vfind chk e2 i in
      let* it2_end := vfind chk e2 size in
      let* a := index_or e1 it1 it1_end size in
      let* b := index_or e2 it2 it2_end size in
      Ok (TBin (Nat.min a b) it1 it1_end it2 it2_end)
  end.

(** operator * on a sub-iterator, zero when it is not at position i: 742-752, 821-830. *)
Section Step.
Variable zero : T.
Variable chk : bool.

Fixpoint vderef (e : vex) (it : vit) : res T :=
  match e, it with
  | VLeaf s, TLeaf k => match nth_error (s_its s) k with Some i => Ok (s_at s i) | None => UB end
  | VUnary f e1, TSub i1 => let* x := vderef e1 i1 in Ok (f x)
  | VScal1 op t e1, TSub i1 => let* x := vderef e1 i1 in Ok (op t x)
  | VScal2 op e1 t, TSub i1 => let* x := vderef e1 i1 in Ok (op x t)
  | VBin op e1 e2, TBin i it1 it1e it2 it2e =>
      match vcat e with
      | IDense =>
          let* x := vderef e1 it1 in
          let* y := vderef e2 it2 in
          Ok (op x y)
      | _ =>
          let* b1 := vequal e1 it1 it1e in
          let* x := (if b1 then Ok zero else
                       let* j := vindex e1 it1 in if j =? i then vderef e1 it1 else Ok zero) in
          let* b2 := vequal e2 it2 it2e in
          let* y := (if b2 then Ok zero else
                       let* j := vindex e2 it2 in if j =? i then vderef e2 it2 else Ok zero) in
          Ok (op x y)
      end
  | _, _ => UB
  end.

(** operator ++: 361-364; dense 679-681, packed 699-708, sparse 755-772. *)
Fixpoint vinc (e : vex) (it : vit) : res vit :=
  match e, it with
  | VLeaf s, TLeaf k => if k <? length (s_its s) then Ok (TLeaf (k + 1)) else UB
  | VUnary _ e1, TSub i1 | VScal1 _ _ e1, TSub i1 | VScal2 _ e1 _, TSub i1 => let* j := vinc e1 i1 in Ok (TSub j)
  | VBin _ e1 e2, TBin i it1 it1e it2 it2e =>
      match vcat e with
      | IDense =>
          let* a := vinc e1 it1 in
          let* b := vinc e2 it2 in
          Ok (TBin (i + 1) a it1e b it2e)
      | c =>
          let* b1 := vequal e1 it1 it1e in
          let* a := (if b1 then Ok it1 else
                       let* j := vindex e1 it1 in if j <=? i then vinc e1 it1 else Ok it1) in
          let* b2 := vequal e2 it2 it2e in
          let* b := (if b2 then Ok it2 else
                       let* j := vindex e2 it2 in if j <=? i then vinc e2 it2 else Ok it2) in
          match c with
          | IPacked => Ok (TBin (i + 1) a it1e b it2e)
          | _ =>
              let* size := vsize chk e in
              let* index1 := index_or e1 a it1e size in
              let* index2 := index_or e2 b it2e size in
              Ok (TBin (Nat.min index1 index2) a it1e b it2e)
          end
      end
  | _, _ => UB
  end.

(** operator --: dense 683-685, packed 711-719, sparse 775-792.  -- i_ at 0 wraps around; the result is
    not used by any theorem (UB here). *)
Definition dec_nat (i : nat) : res nat := match i with 0 => UB | S k => Ok k end.
Fixpoint vdec (e : vex) (it : vit) : res vit :=
  match e, it with
  | VLeaf _, TLeaf k => let* j := dec_nat k in Ok (TLeaf j)
  | VUnary _ e1, TSub i1 | VScal1 _ _ e1, TSub i1 | VScal2 _ e1 _, TSub i1 => let* j := vdec e1 i1 in Ok (TSub j)
  | VBin _ e1 e2, TBin i it1 it1e it2 it2e =>
      match vcat e with
      | IDense =>
          let* j := dec_nat i in
          let* a := vdec e1 it1 in
          let* b := vdec e2 it2 in
          Ok (TBin j a it1e b it2e)
      | c =>
          let* b1 := vequal e1 it1 it1e in
          let* a := (if b1 then Ok it1 else
                       let* j := vindex e1 it1 in if i <=? j then vdec e1 it1 else Ok it1) in
          let* b2 := vequal e2 it2 it2e in
          let* b := (if b2 then Ok it2 else
                       let* j := vindex e2 it2 in if i <=? j then vdec e2 it2 else Ok it2) in
          match c with
          | IPacked => let* j := dec_nat i in Ok (TBin j a it1e b it2e)
          | _ =>
              let* size := vsize chk e in
              let* index1 := index_or e1 a it1e size in
              let* index2 := index_or e2 b it2e size in
              Ok (TBin (Nat.max index1 index2) a it1e b it2e)
          end
      end
  | _, _ => UB
  end.

(** for (; it != it_end; ++ it) visit (it.index (), *it); running out of fuel is UB. *)
Fixpoint walk (e : vex) (fuel : nat) (it it_end : vit) : res (list (nat * T)) :=
  let* stop := vequal e it it_end in
  if stop then Ok [] else
  match fuel with
  | 0 => UB
  | S fuel' =>
      let* i := vindex e it in
      let* x := vderef e it in
      let* it' := vinc e it in
      let* l := walk e fuel' it' it_end in
      Ok ((i, x) :: l)
  end.
(** The traversal from find (i) to end () = find (size ()); begin () is find (0) (911-928). *)
Definition traverse_from (e : vex) (i : nat) : res (list (nat * T)) :=
  let* n := vsize chk e in
  let* it := vfind chk e i in
  let* it_end := vfind chk e n in
  walk e (S n) it it_end.
Definition traverse (e : vex) : res (list (nat * T)) := traverse_from e 0.

(** while (it != begin) { -- it; visit (it.index (), *it); }: what reverse iterators do. *)
Fixpoint rwalk (e : vex) (fuel : nat) (it it_begin : vit) : res (list (nat * T)) :=
  let* stop := vequal e it it_begin in
  if stop then Ok [] else
  match fuel with
  | 0 => UB
  | S fuel' =>
      let* it' := vdec e it in
      let* i := vindex e it' in
      let* x := vderef e it' in
      let* l := rwalk e fuel' it' it_begin in
      Ok ((i, x) :: l)
  end.
Definition rtraverse (e : vex) : res (list (nat * T)) :=
  let* n := vsize chk e in
  let* it := vfind chk e n in
  let* it_begin := vfind chk e 0 in
  rwalk e (S n) it it_begin.
End Step.
End Vex.
Arguments vex : clear implicits.
