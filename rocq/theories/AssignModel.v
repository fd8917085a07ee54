(** AssignModel.v -- model of /repo/include/boost/numeric/ublas/detail/vector_assign.hpp: the
    assignment and swap kernels for dense, packed and sparse vectors and the tables that select
    them, and of [increment] (traits.hpp:566-581).

    An iterator is modelled by the list of the indices it still has to visit, so [*it] is the
    element at the head, [++ it] the tail, [it_end - it] the length; an end iterator is the empty
    list.  A source is anything with element access and const_iterators; a target is a container
    (or proxy) whose element access and iterators behave as proved for the concrete containers in
    C01, C05, C08, C12-C18: it is given by the sorted list of the positions its iterators visit and
    the values at all positions.  Blocks under BOOST_UBLAS_TYPE_CHECK are not modelled. *)
From Verif Require Import Base.
Open Scope nat_scope.

(** Iterator categories: dense_random_access_iterator_tag, packed_random_access_iterator_tag,
    sparse_bidirectional_iterator_tag (traits.hpp:470-487). *)
Inductive icat := IDense | IPacked | ISparse.
(** Storage categories: dense_tag, packed_tag, sparse_tag and their _proxy_ bases
    (traits.hpp:452-466). *)
Inductive scat := SDense | SPacked | SSparse | SDenseProxy | SPackedProxy | SSparseProxy.

(** A constant vector expression. *)
Record src (T : Type) := Src { s_n : nat; s_its : list nat; s_at : nat -> T; s_cat : icat }.
Arguments Src {T} _ _ _ _. Arguments s_n {T} _. Arguments s_its {T} _. Arguments s_at {T} _ _.
Arguments s_cat {T} _.
(** A vector or vector proxy that can be assigned to. *)
Record tgt (T : Type) := Tgt { t_n : nat; t_its : list nat; t_at : nat -> T; t_sc : scat }.
Arguments Tgt {T} _ _ _ _. Arguments t_n {T} _. Arguments t_its {T} _. Arguments t_at {T} _ _.
Arguments t_sc {T} _.

(** The category of the iterators of a container with a given storage category. *)
Definition icat_of (s : scat) : icat :=
  match s with
  | SDense | SDenseProxy => IDense | SPacked | SPackedProxy => IPacked | SSparse | SSparseProxy => ISparse
  end.

(** increment (it, it_end, compare): traits.hpp:566-581; dense iterators derive from packed ones. *)
Definition increment (c : icat) (it : list nat) (n : nat) : list nat :=
  match c with ISparse => tl it | _ => skipn (Nat.min n (length it)) it end.

(** The operations of the value type. *)
Record vops (T : Type) := VOps { v0 : T; vadd : T -> T -> T; vsub : T -> T -> T;
                                 vmul : T -> T -> T; vdiv : T -> T -> T; veqb : T -> T -> bool }.
Arguments VOps {T} _ _ _ _ _ _. Arguments v0 {T} _. Arguments vadd {T} _ _ _. Arguments vsub {T} _ _ _.
Arguments vmul {T} _ _ _. Arguments vdiv {T} _ _ _. Arguments veqb {T} _ _ _.

(** The assignment functors: functional.hpp:188-304. *)
Inductive afun := FAssign | FPlus | FMinus | FTimes | FDiv.
Definition computed (f : afun) : bool := match f with FAssign => false | _ => true end.
Definition fapply {T} (O : vops T) (f : afun) (x y : T) : T :=
  match f with
  | FAssign => y | FPlus => vadd O x y | FMinus => vsub O x y | FTimes => vmul O x y | FDiv => vdiv O x y
  end.

(** Insertion of a position into the sorted list of stored positions. *)
Fixpoint ins_pos (i : nat) (l : list nat) : list nat :=
  match l with
  | [] => [i]
  | j :: r => if i <? j then i :: l else if i =? j then l else j :: ins_pos i r
  end.

Section Kernels.
Context {T : Type} (O : vops T).
Variable chk : bool.

Definition fupd (f : nat -> T) (i : nat) (x : T) : nat -> T := fun k => if k =? i then x else f k.
Definition mem (i : nat) (l : list nat) : bool := existsb (Nat.eqb i) l.

(** F::apply ( *it, y) for an iterator standing at index i. *)
Definition apply_at (f : afun) (v : tgt T) (i : nat) (y : T) : res (tgt T) :=
  if mem i (t_its v)
  then Ok (Tgt (t_n v) (t_its v) (fupd (t_at v) i (fapply O f (t_at v i) y)) (t_sc v))
  else UB.

(** A position reached with operator () instead of an iterator: dense containers any i < size, packed
    ones only positions of the stored part (bad_index otherwise, as in triangular.hpp:152-163),
    sparse containers insert a zero on demand. *)
Definition touch (v : tgt T) (i : nat) : res (tgt T) :=
  if mem i (t_its v) then Ok v
  else match t_sc v with
       | SSparse | SSparseProxy =>
           if i <? t_n v then Ok (Tgt (t_n v) (ins_pos i (t_its v)) (fupd (t_at v) i (v0 O)) (t_sc v))
           else if chk then Throw bad_index else UB
       | _ => Throw bad_index
       end.
(** F::apply (v (i), y). *)
Definition apply_idx (f : afun) (v : tgt T) (i : nat) (y : T) : res (tgt T) :=
  let* v1 := touch v i in apply_at f v1 i y.

(** v.clear (): dense and packed containers fill with zero, sparse ones drop every element. *)
Definition t_clear (v : tgt T) : tgt T :=
  match t_sc v with
  | SSparse | SSparseProxy => Tgt (t_n v) [] (fun _ => v0 O) (t_sc v)
  | _ => Tgt (t_n v) (t_its v) (fun k => if mem k (t_its v) then v0 O else t_at v k) (t_sc v)
  end.
(** v.insert_element (i, t): for sparse containers the position must be free. *)
Definition t_insert (v : tgt T) (i : nat) (x : T) : res (tgt T) :=
  match t_sc v with
  | SSparse | SSparseProxy =>
      if mem i (t_its v) then (if chk then Throw bad_index else UB)
      else if i <? t_n v then Ok (Tgt (t_n v) (ins_pos i (t_its v)) (fupd (t_at v) i x) (t_sc v))
      else if chk then Throw bad_index else UB
  | _ => apply_idx FAssign v i x
  end.

(** ** Assignment of a scalar: vector_assign.hpp:97-168 *)
(** while (-- size >= 0) functor_type::apply ( *it, t), ++ it: 102-113, 146-154, 158-165. *)
Fixpoint run_scalar (f : afun) (n : nat) (it : list nat) (t : T) (v : tgt T) : res (tgt T) :=
  match n with
  | 0 => Ok v
  | S n => match it with
           | [] => UB
           | i :: it => let* v1 := apply_at f v i t in run_scalar f n it t v1
           end
  end.
(** 115-127 *)
Definition indexing_scalar (f : afun) (v : tgt T) (t : T) : res (tgt T) :=
  foldM (fun v i => apply_idx f v i t) (seq 0 (t_n v)) v.
(** 97-113 *)
Definition iterating_scalar (f : afun) (v : tgt T) (t : T) : res (tgt T) :=
  check chk (length (t_its v) =? t_n v) bad_size ;;
  run_scalar f (t_n v) (t_its v) t v.
(** BOOST_UBLAS_ITERATOR_THRESHOLD and the USE_INDEXING / USE_ITERATING macros choose between the
    two: [iterating] is that choice.  Dispatcher 170-176. *)
Definition vector_assign_scalar (iterating : bool) (f : afun) (v : tgt T) (t : T) : res (tgt T) :=
  match t_sc v with
  | SDense | SDenseProxy => if iterating then iterating_scalar f v t else indexing_scalar f v t
  | _ => run_scalar f (length (t_its v)) (t_its v) t v
  end.

(** ** Assignment of an expression *)
(** while (-- size >= 0) functor_type::apply ( *it, *ite), ++ it, ++ ite: 254-256, 339-340. *)
Fixpoint run_pairs (f : afun) (e : src T) (n : nat) (it ite : list nat) (v : tgt T)
  : res (tgt T * list nat) :=
  match n with
  | 0 => Ok (v, it)
  | S n => match it, ite with
           | i :: it, j :: ite => let* v1 := apply_at f v i (s_at e j) in run_pairs f e n it ite v1
           | _, _ => UB
           end
  end.
(** BOOST_UBLAS_SAME. *)
Definition same_size (a b : nat) : res nat := check chk (a =? b) bad_argument ;; Ok (Nat.min a b).
(** iterating_vector_assign: 243-261 *)
Definition iterating_assign (f : afun) (v : tgt T) (e : src T) : res (tgt T) :=
  let* size := same_size (t_n v) (s_n e) in
  check chk (length (t_its v) =? size) bad_size ;;
  check chk (length (s_its e) =? size) bad_size ;;
  let* r := run_pairs f e size (t_its v) (s_its e) v in Ok (fst r).
(** indexing_vector_assign: 263-278 *)
Definition indexing_assign (f : afun) (v : tgt T) (e : src T) : res (tgt T) :=
  let* size := same_size (t_n v) (s_n e) in
  foldM (fun v i => apply_idx f v i (s_at e i)) (seq 0 size) v.
(** vector_assign (v, e, dense_proxy_tag): 280-296 *)
Definition assign_dense (iterating : bool) (f : afun) (v : tgt T) (e : src T) : res (tgt T) :=
  let* _ := same_size (t_n v) (s_n e) in
  (if iterating then iterating_assign f v e else indexing_assign f v e).

(** vector_assign (v, e, packed_proxy_tag): 298-361.  Differences of indices are signed. *)
Definition zdiff (a b : list nat) : Z :=
  match a, b with i :: _, j :: _ => Z.of_nat i - Z.of_nat j | _, _ => 0%Z end.
Definition assign_packed (f : afun) (v : tgt T) (e : src T) : res (tgt T) :=
  check chk (t_n v =? s_n e) bad_size ;;
  let it := t_its v in
  let ite := s_its e in
  let it_size := length it in
  let ite_size := length ite in
  let '(ite, ite_size) :=
    if (0 <? it_size) && (0 <? ite_size) then
      let size := Z.min (zdiff it ite) (Z.of_nat ite_size) in
      if (0 <? size)%Z then (skipn (Z.to_nat size) ite, ite_size - Z.to_nat size) else (ite, ite_size)
    else (ite, ite_size) in
  let* s :=
    (if (0 <? it_size) && (0 <? ite_size) then
       let size := Z.min (zdiff ite it) (Z.of_nat it_size) in
       if (0 <? size)%Z then
         let n := Z.to_nat size in
         let* v1 := (if computed f then Ok v else run_scalar f n it (v0 O) v) in
         Ok (v1, skipn n it, it_size - n)
       else Ok (v, it, it_size)
     else Ok (v, it, it_size)) in
  let '(v, it, it_size) := s in
  let size := Nat.min it_size ite_size in
  let it_size := it_size - size in
  let* r := run_pairs f e size it ite v in
  let '(v, it) := r in
  if computed f then Ok v else run_scalar f it_size it (v0 O) v.

(** vector_assign (v, e, sparse_tag): 363-399; [! computed] is a static assertion. *)
Fixpoint sparse_fill (e : src T) (ite : list nat) (v : tgt T) : res (tgt T) :=
  match ite with
  | [] => Ok v
  | j :: ite =>
      let t := s_at e j in
      let* v1 := (if veqb O t (v0 O) then Ok v else t_insert v j t) in
      sparse_fill e ite v1
  end.
Definition assign_sparse (v : tgt T) (e : src T) : res (tgt T) :=
  check chk (t_n v =? s_n e) bad_size ;;
  sparse_fill e (s_its e) (t_clear v).

(** detail::make_conformant (v, e): 46-92.  [conf_merge] is the merge loop 58-83 (fuel: one unit
    per iteration); it returns the collected indices and the remaining ite. *)
Fixpoint conf_merge (fuel : nat) (c : icat) (nz : nat -> bool) (it ite index : list nat)
  : res (list nat * list nat) :=
  match it, ite with
  | i :: it', j :: ite' =>
      match fuel with
      | 0 => UB
      | S fuel =>
          if i =? j then conf_merge fuel c nz it' ite' index
          else if i <? j then conf_merge fuel c nz (increment c it (j - i)) ite index
          else conf_merge fuel c nz it ite' (if nz j then index ++ [j] else index)
      end
  | _, _ => Ok (index, ite)
  end.
Definition make_conformant (v : tgt T) (e : src T) : res (tgt T) :=
  check chk (t_n v =? s_n e) bad_size ;;
  let nz j := negb (veqb O (s_at e j) (v0 O)) in
  let* r := conf_merge (length (t_its v) + length (s_its e)) (icat_of (t_sc v)) nz (t_its v) (s_its e) [] in
  let '(index, ite) := r in
  let index := index ++ filter nz ite in
  foldM (fun v k => apply_idx FAssign v k (v0 O)) index v.

(** vector_assign (v, e, sparse_proxy_tag): 400-470. *)
Fixpoint sp_merge (fuel : nat) (f : afun) (c ce : icat) (e : src T) (it ite : list nat) (v : tgt T)
  : res (tgt T * list nat) :=
  match it, ite with
  | i :: it', j :: ite' =>
      match fuel with
      | 0 => UB
      | S fuel =>
          if i =? j then
            let* v1 := apply_at f v i (s_at e j) in sp_merge fuel f c ce e it' ite' v1
          else if i <? j then
            (if computed f then sp_merge fuel f c ce e (increment c it (j - i)) ite v
             else let* v1 := apply_at f v i (v0 O) in sp_merge fuel f c ce e it' ite v1)
          else sp_merge fuel f c ce e it (increment ce ite (i - j)) v
      end
  | _, _ => Ok (v, it)
  end.
Definition assign_sparse_proxy (f : afun) (v : tgt T) (e : src T) : res (tgt T) :=
  check chk (t_n v =? s_n e) bad_size ;;
  let* v := make_conformant v e in
  let* r := sp_merge (length (t_its v) + length (s_its e)) f (icat_of (t_sc v)) (s_cat e) e (t_its v) (s_its e) v in
  let '(v, it) := r in
  if computed f then Ok v else run_scalar f (length it) it (v0 O) v.

(** vector_assign_traits: 178-241; dense_tag derives from dense_proxy_tag etc. *)
Inductive akernel := KDense | KPacked | KSparse | KSparseProxy.
Definition kernel_of_scat (s : scat) : akernel :=
  match s with
  | SDense | SDenseProxy => KDense | SPacked | SPackedProxy => KPacked
  | SSparse => KSparse | SSparseProxy => KSparseProxy
  end.
Definition assign_traits (s : scat) (comp : bool) (ri : icat) : akernel :=
  match s, comp, ri with
  | SDense, _, IPacked => KPacked
  | SDense, false, ISparse => KSparse
  | SDense, true, ISparse => KSparseProxy
  | SDenseProxy, _, IPacked => KPacked
  | SDenseProxy, _, ISparse => KSparseProxy
  | SPacked, false, ISparse => KSparse
  | SPacked, true, ISparse => KSparseProxy
  | SPackedProxy, _, ISparse => KSparseProxy
  | SSparse, true, _ => KSparseProxy
  | s, _, _ => kernel_of_scat s
  end.
(** Dispatcher: 472-481. *)
Definition vector_assign (iterating : bool) (f : afun) (v : tgt T) (e : src T) : res (tgt T) :=
  match assign_traits (t_sc v) (computed f) (s_cat e) with
  | KDense => assign_dense iterating f v e
  | KPacked => assign_packed f v e
  | KSparse => assign_sparse v e
  | KSparseProxy => assign_sparse_proxy f v e
  end.

(** ** Swap: 483-606 *)
Definition as_src (v : tgt T) : src T := Src (t_n v) (t_its v) (t_at v) (icat_of (t_sc v)).
(** std::swap ( *it, *ite). *)
Definition swap_at (v e : tgt T) (i j : nat) : res (tgt T * tgt T) :=
  let x := t_at v i in
  let* v1 := apply_at FAssign v i (t_at e j) in
  let* e1 := apply_at FAssign e j x in
  Ok (v1, e1).
Fixpoint swap_pairs (n : nat) (it ite : list nat) (v e : tgt T) : res (tgt T * tgt T) :=
  match n with
  | 0 => Ok (v, e)
  | S n => match it, ite with
           | i :: it, j :: ite => let* s := swap_at v e i j in swap_pairs n it ite (fst s) (snd s)
           | _, _ => UB
           end
  end.
(** vector_swap (v, e, dense_proxy_tag): 500-511 *)
Definition swap_dense (v e : tgt T) : res (tgt T * tgt T) :=
  let* size := same_size (t_n v) (t_n e) in
  swap_pairs size (t_its v) (t_its e) v e.
(** vector_swap (v, e, packed_proxy_tag): 512-541.  [it] is not advanced in the second block. *)
Definition swap_packed (v e : tgt T) : res (tgt T * tgt T) :=
  let it := t_its v in
  let ite := t_its e in
  let it_size := length it in
  let ite_size := length ite in
  let '(ite, ite_size) :=
    if (0 <? it_size) && (0 <? ite_size) then
      let size := Z.min (zdiff it ite) (Z.of_nat ite_size) in
      if (0 <? size)%Z then (skipn (Z.to_nat size) ite, ite_size - Z.to_nat size) else (ite, ite_size)
    else (ite, ite_size) in
  let it_size :=
    if (0 <? it_size) && (0 <? ite_size) then
      let size := Z.min (zdiff ite it) (Z.of_nat it_size) in
      if (0 <? size)%Z then it_size - Z.to_nat size else it_size
    else it_size in
  swap_pairs (Nat.min it_size ite_size) it ite v e.
(** vector_swap (v, e, sparse_proxy_tag): 542-596 *)
Fixpoint swap_merge (fuel : nat) (c ce : icat) (it ite : list nat) (v e : tgt T) : res (tgt T * tgt T) :=
  match it, ite with
  | i :: it', j :: ite' =>
      match fuel with
      | 0 => UB
      | S fuel =>
          if i =? j then
            let* s := swap_at v e i j in swap_merge fuel c ce it' ite' (fst s) (snd s)
          else if i <? j then swap_merge fuel c ce (increment c it (j - i)) ite v e
          else swap_merge fuel c ce it (increment ce ite (i - j)) v e
      end
  | _, _ => Ok (v, e)
  end.
Definition swap_sparse (v e : tgt T) : res (tgt T * tgt T) :=
  check chk (t_n v =? t_n e) bad_size ;;
  let* v := make_conformant v (as_src e) in
  let* e := make_conformant e (as_src v) in
  swap_merge (length (t_its v) + length (t_its e)) (icat_of (t_sc v)) (icat_of (t_sc e))
    (t_its v) (t_its e) v e.
(** vector_swap_traits and dispatcher: 483-498, 598-606 *)
Definition vector_swap (v e : tgt T) : res (tgt T * tgt T) :=
  match t_sc v, icat_of (t_sc e) with
  | SDenseProxy, ISparse | SPackedProxy, ISparse => swap_sparse v e
  | SDense, _ | SDenseProxy, _ => swap_dense v e
  | SPacked, _ | SPackedProxy, _ => swap_packed v e
  | SSparse, _ | SSparseProxy, _ => swap_sparse v e
  end.
End Kernels.
