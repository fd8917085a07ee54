(** AliasModel.v -- what assignments do when the right-hand side may read the object being written.

    The other assignment models ([AssignModel], [MAssignModel]) take a snapshot of the source; here
    the source is an expression that is re-read from the CURRENT memory each time an element is
    computed, as the C++ expression templates do (they hold references to their operands:
    [const_closure_type], vector_expression.hpp:555-556, matrix_expression.hpp:2020-2021).

    Simplifications: memory is a map from object identities to dense containers (vectors are n x 1
    matrices); proxies are maps from their own positions to positions of one object; only the dense
    kernels and (for [noalias]) the sparse kernel of vector_assign are modelled.  Temporaries are
    objects with a fresh identity. *)
From Verif Require Import Base AssignModel.
Open Scope nat_scope.

Section Alias.
Context {T : Type} (O : vops T).

(** A dense container: sizes and contents (vector.hpp:47-, matrix.hpp:90-: size1_, size2_, data_). *)
Record obj := Obj { o_1 : nat; o_2 : nat; o_at : nat -> nat -> T }.
(** Memory: which container lives at each identity. *)
Definition st := nat -> obj.
Definition set_obj (s : st) (x : nat) (o : obj) : st := fun y => if y =? x then o else s y.
Definition put (s : st) (x i j : nat) (t : T) : st :=
  set_obj s x (Obj (o_1 (s x)) (o_2 (s x))
                   (fun p q => if (p =? i) && (q =? j) then t else o_at (s x) p q)).

(** A command: the memory afterwards, and how it ended.  After [Throw] the memory is what the catch
    block sees. *)
Definition cmd := st -> st * res unit.

(** An expression: its sizes and its elements, both read from the current memory.
    [size()], [size1()], [size2()] and [operator()] of any vector/matrix expression. *)
Record exp := Exp { x_sz : st -> res (nat * nat); x_at : st -> nat -> nat -> res T }.

(** An assignable view: object, sizes, and the element of the object behind each position
    (vector_range/slice/indirect: vector_proxy.hpp:105-117, 468-480, 887-899; matrix_row/column:
    matrix_proxy.hpp:84-97, 475-488; matrix_range/slice/indirect: 2470-2480, 3474-3484, 4515-4525). *)
Record view := View { w_obj : nat; w_1 : nat; w_2 : nat; w_pos : nat -> nat -> nat * nat }.
Definition whole (s : st) (x : nat) : view := View x (o_1 (s x)) (o_2 (s x)) (fun i j => (i, j)).

(** Element access of a container: vector.hpp:207-233, matrix.hpp:222-235 with the checks of
    [element] (functional.hpp:1723-1727); unchecked access outside the container is UB. *)
Definition rd_obj (chk : bool) (s : st) (x i j : nat) : res T :=
  if (i <? o_1 (s x)) && (j <? o_2 (s x)) then Ok (o_at (s x) i j)
  else if chk then Throw bad_index else UB.

(** A container, and a view, used as an expression. *)
Definition x_obj (chk : bool) (x : nat) : exp :=
  Exp (fun s => Ok (o_1 (s x), o_2 (s x))) (fun s i j => rd_obj chk s x i j).
Definition x_view (chk : bool) (w : view) : exp :=
  Exp (fun _ => Ok (w_1 w, w_2 w))
      (fun s i j => let (p, q) := w_pos w i j in rd_obj chk s (w_obj w) p q).

(** e1 op e2: vector_binary (vector_expression.hpp:579-601), matrix_binary
    (matrix_expression.hpp:2042-2070): sizes by BOOST_UBLAS_SAME (bad_argument in checked builds,
    the smaller one otherwise), elements by applying the functor. *)
Definition x_same (chk : bool) (a b : nat * nat) : res (nat * nat) :=
  check chk (fst a =? fst b) bad_argument ;;
  check chk (snd a =? snd b) bad_argument ;;
  Ok (Nat.min (fst a) (fst b), Nat.min (snd a) (snd b)).
Definition x_bin (chk : bool) (f : T -> T -> T) (e1 e2 : exp) : exp :=
  Exp (fun s => let* a := x_sz e1 s in let* b := x_sz e2 s in x_same chk a b)
      (fun s i j => let* a := x_at e1 s i j in let* b := x_at e2 s i j in Ok (f a b)).

(** The positions of an a x b matrix in the order the kernels visit them:
    indexing_matrix_assign/iterating_matrix_assign, row major and column major
    (detail/matrix_assign.hpp:514-625).  For vectors (b = 1) this is 0, 1, ... a-1
    (detail/vector_assign.hpp:238-272). *)
Inductive order := ByRow | ByCol.
Definition positions (o : order) (a b : nat) : list (nat * nat) :=
  match o with
  | ByRow => flat_map (fun i => map (fun j => (i, j)) (seq 0 b)) (seq 0 a)
  | ByCol => flat_map (fun j => map (fun i => (i, j)) (seq 0 a)) (seq 0 b)
  end.

(** functor_type::apply (v (i), e () (i)) -- detail/vector_assign.hpp:269, detail/matrix_assign.hpp:593:
    read the expression NOW, combine with the element, store. *)
Definition step (f : afun) (w : view) (e : exp) (p : nat * nat) : cmd := fun s =>
  match x_at e s (fst p) (snd p) with
  | Ok t =>
      let (i, j) := w_pos w (fst p) (snd p) in
      if (i <? o_1 (s (w_obj w))) && (j <? o_2 (s (w_obj w)))
      then (put s (w_obj w) i j (fapply O f (o_at (s (w_obj w)) i j) t), Ok tt)
      else (s, UB)
  | Throw ex => (s, Throw ex)
  | UB => (s, UB)
  end.

(** The loop over the positions; an exception leaves it with the memory written so far. *)
Fixpoint loop (f : afun) (w : view) (e : exp) (l : list (nat * nat)) : cmd := fun s =>
  match l with
  | [] => (s, Ok tt)
  | p :: l' => let (s', r) := step f w e p s in
               match r with Ok _ => loop f w e l' s' | _ => (s', r) end
  end.

(** vector_assign<F>/matrix_assign<F>, dense categories: sizes compared by BOOST_UBLAS_SAME, then the
    loop (detail/vector_assign.hpp:238-289, detail/matrix_assign.hpp:514-660). *)
Definition assign_direct (chk : bool) (o : order) (f : afun) (w : view) (e : exp) : cmd := fun s =>
  match (let* b := x_sz e s in x_same chk (w_1 w, w_2 w) b) with
  | Ok (a, b) => loop f w e (positions o a b) s
  | Throw ex => (s, Throw ex)
  | UB => (s, UB)
  end.

(** Construction of a container from an expression: storage of the expression's size with
    indeterminate contents, then vector_assign<scalar_assign> (vector.hpp:128-133,
    matrix.hpp:167-174). *)
Definition construct (chk : bool) (o : order) (junk : nat -> nat -> T) (t : nat) (e : exp) : cmd :=
  fun s =>
  match x_sz e s with
  | Ok (a, b) =>
      let s1 := set_obj s t (Obj a b junk) in assign_direct chk o FAssign (whole s1 t) e s1
  | Throw ex => (s, Throw ex)
  | UB => (s, UB)
  end.

(** swap: vector.hpp:459-463, matrix.hpp:413-419. *)
Definition swap_obj (s : st) (x y : nat) : st := set_obj (set_obj s x (s y)) y (s x).

Definition and_then (c : cmd) (k : st -> st * res unit) : cmd := fun s =>
  let (s', r) := c s in match r with Ok _ => k s' | _ => (s', r) end.

(** x = e for a container x: self_type temporary (ae); return assign_temporary (temporary);
    vector.hpp:327-331, matrix.hpp:350-355.  [t] is the identity of the temporary. *)
Definition container_assign chk o junk (t x : nat) (e : exp) : cmd :=
  and_then (construct chk o junk t e) (fun s => (swap_obj s x t, Ok tt)).

(** x += e and x -= e: self_type temporary ( *this + ae); return assign_temporary (temporary);
    vector.hpp:358-361, 396-399, matrix.hpp:362-367, 380-385. *)
Definition container_plus chk o junk t x (e : exp) : cmd :=
  container_assign chk o junk t x (x_bin chk (vadd O) (x_obj chk x) e).
Definition container_minus chk o junk t x (e : exp) : cmd :=
  container_assign chk o junk t x (x_bin chk (vsub O) (x_obj chk x) e).

(** x = c, another container: resize (c.size (), false); assign (c) -- vector.hpp:307-311,
    matrix.hpp:338-344.  No temporary. *)
Definition container_copy chk o junk (x c : nat) : cmd := fun s =>
  let s1 := set_obj s x (Obj (o_1 (s c)) (o_2 (s c)) junk) in
  assign_direct chk o FAssign (whole s1 x) (x_obj chk c) s1.
(** x += c / x -= c: plus_assign (c) / minus_assign (c) -- vector.hpp:371-374, 409-412. *)
Definition container_plus_container chk o x c : cmd := fun s =>
  assign_direct chk o FPlus (whole s x) (x_obj chk c) s.
Definition container_minus_container chk o x c : cmd := fun s =>
  assign_direct chk o FMinus (whole s x) (x_obj chk c) s.

(** w = e for a proxy w: vector_assign<scalar_assign> ( *this, temporary_type (ae)) --
    vector_proxy.hpp:149-152, matrix_proxy.hpp:125-128, 2517-2520, 3521-3524, 4562-4565; for vector
    proxies and rows/columns the same-type operator= does the same (vector_proxy.hpp:137-141,
    matrix_proxy.hpp:112-117). *)
Definition proxy_assign chk o1 o2 junk t (w : view) (e : exp) : cmd :=
  and_then (construct chk o1 junk t e) (fun s => assign_direct chk o2 FAssign w (x_obj chk t) s).
(** w += e, w -= e: vector_assign<scalar_assign> ( *this, temporary_type ( *this + ae)) --
    vector_proxy.hpp:161-164, 173-176, matrix_proxy.hpp:137-140, 2529-2532. *)
Definition proxy_plus chk o1 o2 junk t w e : cmd :=
  proxy_assign chk o1 o2 junk t w (x_bin chk (vadd O) (x_view chk w) e).
Definition proxy_minus chk o1 o2 junk t w e : cmd :=
  proxy_assign chk o1 o2 junk t w (x_bin chk (vsub O) (x_view chk w) e).

(** matrix_range = matrix_range of the same type (also matrix_slice, matrix_indirect): no temporary;
    matrix_proxy.hpp:2507-2510, 3511-3514, 4552-4555. *)
Definition same_proxy_assign chk o (w v : view) : cmd := assign_direct chk o FAssign w (x_view chk v).

(** noalias (w) op e: lval_.assign / plus_assign / minus_assign (detail/definitions.hpp:60-79), which
    are the direct kernels (vector.hpp:339-343, 384-388; vector_proxy.hpp:155-158, 167-170). *)
Definition noalias_assign chk o f w e : cmd := assign_direct chk o f w e.

(** The direct kernel when the expression's iterator is sparse: vector_assign_traits maps a dense
    non-proxy target with a sparse right-hand side and a functor that is not computed to the
    sparse_tag kernel (detail/vector_assign.hpp:189-192); that kernel clears the target before it reads
    the expression (detail/vector_assign.hpp:362-396).  [its]: the indices the expression's
    iterators visit, read in the memory after the clear.  insert_element of a dense vector is an
    element store (vector.hpp:268-271). *)
Definition clear_obj (s : st) (x : nat) : st :=
  set_obj s x (Obj (o_1 (s x)) (o_2 (s x)) (fun _ _ => v0 O)).
Fixpoint sparse_loop (x : nat) (e : exp) (l : list nat) : cmd := fun s =>
  match l with
  | [] => (s, Ok tt)
  | i :: l' =>
      match x_at e s i 0 with
      | Ok t =>
          if veqb O t (v0 O) then sparse_loop x e l' s
          else if (i <? o_1 (s x)) && (0 <? o_2 (s x))
               then sparse_loop x e l' (put s x i 0 t) else (s, UB)
      | Throw ex => (s, Throw ex)
      | UB => (s, UB)
      end
  end.
Definition noalias_assign_sparse (chk : bool) (x : nat) (e : exp) (its : st -> list nat) : cmd :=
  fun s =>
  match (let* b := x_sz e s in check chk (o_1 (s x) =? fst b) bad_size) with
  | Ok _ => let s1 := clear_obj s x in sparse_loop x e (its s1) s1
  | Throw ex => (s, Throw ex)
  | UB => (s, UB)
  end.

(** x *= at, x /= at: vector_assign_scalar<F> ( *this, at) with [at] a const reference
    (vector.hpp:433-437, 446-450, detail/vector_assign.hpp:102-178, functional.hpp:270-302); the
    scalar is therefore re-read from memory at every element.  [sc]: where it is read from. *)
Definition assign_scalar (o : order) (f : afun) (w : view) (sc : st -> T) : cmd := fun s =>
  loop f w (Exp (fun _ => Ok (w_1 w, w_2 w)) (fun s _ _ => Ok (sc s)))
       (positions o (w_1 w) (w_2 w)) s.

(** A language of expressions, so that "every expression" in the theorems has concrete members:
    containers and views of them, - e, t * e, e1 + e2, e1 - e2, element_prod, trans, prod. *)
Inductive aexp :=
| AObj (x : nat)
| AView (w : view)
| ANeg (e : aexp)
| AScale (t : T) (e : aexp)
| AAdd (e1 e2 : aexp)
| ASub (e1 e2 : aexp)
| AMul (e1 e2 : aexp)
| ATrans (e : aexp)
| AProd (e1 e2 : aexp).

(** vector_unary/vector_binary_scalar1 (vector_expression.hpp:320-, 960-), matrix_unary1/2
    (matrix_expression.hpp:1480-, 1760- for trans), matrix_vector_binary1 / matrix_matrix_binary
    with the indexing kernels matrix_vector_prod1/matrix_matrix_prod (functional.hpp:868-890,
    1214-1236). *)
Definition x_un (f : T -> T) (e : exp) : exp :=
  Exp (x_sz e) (fun s i j => let* a := x_at e s i j in Ok (f a)).
Definition x_trans (e : exp) : exp :=
  Exp (fun s => let* a := x_sz e s in Ok (snd a, fst a)) (fun s i j => x_at e s j i).
Fixpoint x_sum (e1 e2 : exp) (s : st) (i j : nat) (l : list nat) (acc : T) : res T :=
  match l with
  | [] => Ok acc
  | k :: l' =>
      let* a := x_at e1 s i k in
      let* b := x_at e2 s k j in
      x_sum e1 e2 s i j l' (vadd O acc (vmul O a b))
  end.
Definition x_prod (chk : bool) (e1 e2 : exp) : exp :=
  Exp (fun s => let* a := x_sz e1 s in let* b := x_sz e2 s in Ok (fst a, snd b))
      (fun s i j =>
         let* a := x_sz e1 s in let* b := x_sz e2 s in
         check chk (snd a =? fst b) bad_argument ;;
         x_sum e1 e2 s i j (seq 0 (Nat.min (snd a) (fst b))) (v0 O)).

Fixpoint den (chk : bool) (e : aexp) : exp :=
  match e with
  | AObj x => x_obj chk x
  | AView w => x_view chk w
  | ANeg e => x_un (vsub O (v0 O)) (den chk e)
  | AScale t e => x_un (vmul O t) (den chk e)
  | AAdd e1 e2 => x_bin chk (vadd O) (den chk e1) (den chk e2)
  | ASub e1 e2 => x_bin chk (vsub O) (den chk e1) (den chk e2)
  | AMul e1 e2 => x_bin chk (vmul O) (den chk e1) (den chk e2)
  | ATrans e => x_trans (den chk e)
  | AProd e1 e2 => x_prod chk (den chk e1) (den chk e2)
  end.
End Alias.
Arguments obj : clear implicits.
Arguments st : clear implicits.
Arguments exp : clear implicits.
Arguments cmd : clear implicits.
Arguments aexp : clear implicits.
