(** CArrModel.v -- the containers with a built-in array: c_vector<T, N> (vector.hpp:2424-2945) and c_matrix<T, N, M>
    (matrix.hpp:4990-6010).  The array data_ is a list of N (N * M) elements; data_[i][j] is element i * M + j of it.
    A fresh array holds arbitrary values [junk].  bad_size ().raise () is unconditional, BOOST_UBLAS_CHECK depends on the
    build [chk].  [mvs]: compiled with BOOST_UBLAS_MOVE_SEMANTICS.
    Simplifications: unbounded natural sizes; expressions on the right of an assignment are given by their size and their
    elements (they do not mention the vector being assigned to; aliasing is C23), the assignment algorithms (vector_assign,
    matrix_assign: C20, C46) by their element loop for dense operands; compound assignments are not modelled here. *)
From Verif Require Import Base LayoutModel CMIterModel SpecialModel.
Open Scope nat_scope.

Section CArr.
Context {T : Type}.
Variable tzero : T.
Variable junk : nat -> T.
Variable chk : bool.
Variable mvs : bool.
(** std::copy, std::fill and the element loops: [off] is where element p lives in the array *)
Definition fill {P} (off : P -> res nat) (src : P -> res T) (L : list P) (d : list T) : res (list T) :=
  foldM (fun d p => let* x := src p in let* k := off p in wrn d k x) L d.
(** std::swap_ranges *)
Definition exchange {P} (off : P -> res nat) (L : list P) (ab : list T * list T) : res (list T * list T) :=
  foldM (fun ab p => let* k := off p in
           let* x := rdn (fst ab) k in let* y := rdn (snd ab) k in
           let* a := wrn (fst ab) k y in let* b := wrn (snd ab) k x in Ok (a, b)) L ab.

(** ** c_vector: size_, data_ *)
Record carr := Carr { ca_size : nat; ca_data : list T }.
Section Vec.
Variable N : nat.
Definition ca_off (i : nat) : res nat := Ok i.
(** constructors: 2448-2455 *)
Definition ca_default : carr := Carr N (map junk (seq 0 N)).
Definition ca_new (n : nat) : res carr := if N <? n then Throw bad_size else Ok (Carr n (map junk (seq 0 N))).
(** resize: 2488-2492 *)
Definition ca_resize (v : carr) (n : nat) : res carr := if N <? n then Throw bad_size else Ok (Carr n (ca_data v)).
(** operator (), [], insert_element, erase_element: 2506-2535 *)
Definition ca_get (v : carr) (i : nat) : res T := check chk (i <? ca_size v) bad_index ;; rdn (ca_data v) i.
Definition ca_set (v : carr) (i : nat) (x : T) : res carr :=
  check chk (i <? ca_size v) bad_index ;; let* d := wrn (ca_data v) i x in Ok (Carr (ca_size v) d).
Definition ca_erase (v : carr) (i : nat) : res carr := ca_set v i tzero.
(** clear: 2539-2541 *)
Definition ca_clear (v : carr) : res carr :=
  let* d := fill ca_off (fun _ => Ok tzero) (seq 0 (ca_size v)) (ca_data v) in Ok (Carr (ca_size v) d).
(** assign: 2580-2583; vector_assign of a dense operand insists on equal sizes in checked builds: BOOST_UBLAS_SAME,
    detail/vector_assign.hpp:244, 262, 282, exception.hpp:271-292 *)
Definition ca_assign (v : carr) (n : nat) (g : nat -> T) : res carr :=
  check chk (ca_size v =? n) bad_argument ;;
  let* d := fill ca_off (fun i => Ok (g i)) (seq 0 (ca_size v)) (ca_data v) in Ok (Carr (ca_size v) d).
(** construction from an expression: 2465-2470; copy construction: 2457-2462 *)
Definition ca_of (n : nat) (g : nat -> T) : res carr := let* v := ca_new n in ca_assign v n g.
Definition ca_copy (w : carr) : res carr :=
  let* v := ca_new (ca_size w) in
  let* d := fill ca_off (fun i => rdn (ca_data w) i) (seq 0 (ca_size w)) (ca_data v) in Ok (Carr (ca_size w) d).
(** swap: 2637-2643 *)
Definition ca_swap (v w : carr) : res (carr * carr) :=
  check chk (ca_size v =? ca_size w) bad_size ;;
  let* (dv, dw) := exchange ca_off (seq 0 (ca_size w)) (ca_data v, ca_data w) in
  Ok (Carr (ca_size w) dv, Carr (ca_size v) dw).
(** operator = from a container 2562-2566, from an expression 2574-2577, from a c_vector 2548-2558 *)
Definition ca_assign_cont (v : carr) (n : nat) (g : nat -> T) : res carr := let* v := ca_resize v n in ca_assign v n g.
Definition ca_assign_expr (v : carr) (n : nat) (g : nat -> T) : res carr :=
  let* t := ca_of n g in let* (v, _) := ca_swap v t in Ok v.
Definition ca_assign_same (v w : carr) : res carr :=
  if mvs then let* t := ca_copy w in let* (v, _) := ca_swap v t in Ok v
  else let* d := fill ca_off (fun i => rdn (ca_data w) i) (seq 0 (ca_size w)) (ca_data v) in Ok (Carr (ca_size w) d).
(** iterators are pointers into data_: 2666-2680 find, 2706-2748, 2760-2763 const_iterator, 2778-2789 begin, end *)
Definition ca_iter (v : carr) : vops nat T :=
  VOps (ca_size v) (fun i => nth i (ca_data v) tzero) (fun i => i) 0 (ca_size v)
    (fun p => Ok (p + 1)) (fun p => match p with 0 => UB | Datatypes.S q => Ok q end)
    (fun p => check chk (p <? ca_size v) bad_index ;; Ok p)
    (fun p => check chk (p <? ca_size v) bad_index ;; rdn (ca_data v) p) Nat.eqb.
(** *it = x: 2842-2845 *)
Definition ca_store (v : carr) (p : nat) (x : T) : res carr :=
  check chk (p <? ca_size v) bad_index ;; let* d := wrn (ca_data v) p x in Ok (Carr (ca_size v) d).

(** a history: assignment from another c_vector is from one constructed from n elements g *)
Inductive ca_op := CAResize (n : nat) | CASet (i : nat) (x : T) | CAErase (i : nat) | CAClear | CAStore (i : nat) (x : T)
  | CACont (n : nat) (g : nat -> T) | CAExpr (n : nat) (g : nat -> T) | CASame (n : nat) (g : nat -> T).
Definition ca_step (v : carr) (p : ca_op) : res carr :=
  match p with
  | CAResize n => ca_resize v n
  | CASet i x => ca_set v i x
  | CAErase i => ca_erase v i
  | CAClear => ca_clear v
  | CAStore i x => ca_store v i x
  | CACont n g => ca_assign_cont v n g
  | CAExpr n g => ca_assign_expr v n g
  | CASame n g => let* w := ca_of n g in ca_assign_same v w
  end.
End Vec.

(** ** c_matrix: size1_, size2_, data_ *)
Record carr2 := Carr2 { c2_s1 : nat; c2_s2 : nat; c2_data : list T }.
Section Mat.
Variables N M : nat.
(** data_[i][j] *)
Definition c2_off (p : nat * nat) : res nat := if (fst p <? N) && (snd p <? M) then Ok (fst p * M + snd p) else UB.
(** for (i ...) for (j ...) *)
Definition cells (s1 s2 : nat) : list (nat * nat) := list_prod (seq 0 s1) (seq 0 s2).
(** constructors: 5018-5026 *)
Definition c2_default : carr2 := Carr2 N M (map junk (seq 0 (N * M))).
Definition c2_new (n1 n2 : nat) : res carr2 :=
  if (N <? n1) || (M <? n2) then Throw bad_size else Ok (Carr2 n1 n2 (map junk (seq 0 (N * M)))).
(** operator (), at_element, insert_element: 5086-5106 *)
Definition c2_get (m : carr2) (i j : nat) : res T :=
  check chk (i <? c2_s1 m) bad_index ;; check chk (j <? c2_s2 m) bad_index ;; let* k := c2_off (i, j) in rdn (c2_data m) k.
Definition c2_set (m : carr2) (i j : nat) (x : T) : res carr2 :=
  check chk (i <? c2_s1 m) bad_index ;; check chk (j <? c2_s2 m) bad_index ;; let* k := c2_off (i, j) in
  let* d := wrn (c2_data m) k x in Ok (Carr2 (c2_s1 m) (c2_s2 m) d).
(** clear: 5110-5113 *)
Definition c2_clear (m : carr2) : res carr2 :=
  let* d := fill c2_off (fun _ => Ok tzero) (cells (c2_s1 m) (c2_s2 m)) (c2_data m) in Ok (Carr2 (c2_s1 m) (c2_s2 m) d).
(** assign: 5154-5157; matrix_assign of a dense operand insists on equal sizes in checked builds (BOOST_UBLAS_SAME) *)
Definition c2_assign (m : carr2) (n1 n2 : nat) (g : nat -> nat -> T) : res carr2 :=
  check chk (c2_s1 m =? n1) bad_argument ;; check chk (c2_s2 m =? n2) bad_argument ;;
  let* d := fill c2_off (fun p => Ok (g (fst p) (snd p))) (cells (c2_s1 m) (c2_s2 m)) (c2_data m) in
  Ok (Carr2 (c2_s1 m) (c2_s2 m) d).
(** construction from an expression: 5036-5041; copy construction: 5028-5033 *)
Definition c2_of (n1 n2 : nat) (g : nat -> nat -> T) : res carr2 := let* m := c2_new n1 n2 in c2_assign m n1 n2 g.
Definition c2_read (m : carr2) (p : nat * nat) : res T := let* k := c2_off p in rdn (c2_data m) k.
Definition c2_copy (w : carr2) : res carr2 :=
  let* m := c2_new (c2_s1 w) (c2_s2 w) in
  let* d := fill c2_off (c2_read w) (cells (c2_s1 w) (c2_s2 w)) (c2_data m) in Ok (Carr2 (c2_s1 w) (c2_s2 w) d).
(** swap: 5209-5218 *)
Definition c2_swap (m w : carr2) : res (carr2 * carr2) :=
  check chk (c2_s1 m =? c2_s1 w) bad_size ;; check chk (c2_s2 m =? c2_s2 w) bad_size ;;
  let* (dm, dw) := exchange c2_off (cells (c2_s1 w) (c2_s2 w)) (c2_data m, c2_data w) in
  Ok (Carr2 (c2_s1 w) (c2_s2 w) dm, Carr2 (c2_s1 m) (c2_s2 m) dw).
(** resize: 5063-5083 *)
Definition c2_resize (m : carr2) (n1 n2 : nat) (preserve : bool) : res carr2 :=
  if (N <? n1) || (M <? n2) then Throw bad_size else
  if preserve then
    let* t := c2_new n1 n2 in
    let* d := fill c2_off (c2_read m) (cells (Nat.min n1 (c2_s1 m)) (Nat.min n2 (c2_s2 m))) (c2_data t) in
    let* (m, _) := c2_swap m (Carr2 (c2_s1 t) (c2_s2 t) d) in Ok m
  else Ok (Carr2 n1 n2 (c2_data m)).
(** operator = from a container 5136-5140, from an expression 5148-5151, from a c_matrix 5120-5132 *)
Definition c2_assign_cont (m : carr2) (n1 n2 : nat) (g : nat -> nat -> T) : res carr2 :=
  let* m := c2_resize m n1 n2 false in c2_assign m n1 n2 g.
Definition c2_assign_expr (m : carr2) (n1 n2 : nat) (g : nat -> nat -> T) : res carr2 :=
  let* t := c2_of n1 n2 g in let* (m, _) := c2_swap m t in Ok m.
Definition c2_assign_same (m w : carr2) : res carr2 :=
  if mvs then let* t := c2_copy w in let* (m, _) := c2_swap m t in Ok m
  else let* d := fill c2_off (c2_read w) (cells (c2_s1 w) (c2_s2 w)) (c2_data m) in Ok (Carr2 (c2_s1 w) (c2_s2 w) d).
(** iterators are pointers into data_: 5249-5280 find1, find2, 5309-5313, 5336-5340, 5351-5354, 5366-5369, 5409-5417,
    5429-5432 const_iterator1 (++ adds M), 5633-5642, 5660-5664, 5675-5693, 5733-5741, 5753-5757 const_iterator2 (++ adds 1),
    5447-5457 begin1, end1, 5771-5781 begin2, end2;
    index1 () and index2 () are the quotient and the remainder of the offset by M *)
Definition c2_ptr (i j : nat) : nat := i * M + j.
Definition c2_iter (m : carr2) : mops nat T :=
  MOps (two (c2_s1 m) (c2_s2 m)) (fun i j => nth (i * M + j) (c2_data m) tzero) (fun _ _ i j => c2_ptr i j)
    (fun _ => c2_ptr 0 0) (fun w => match w with Ax1 => c2_ptr (c2_s1 m) 0 | Ax2 => c2_ptr 0 (c2_s2 m) end)
    (fun w it => match w with Ax1 => c2_ptr (it / M) 0 | Ax2 => c2_ptr 0 (it mod M) end)
    (fun w it => match w with Ax1 => c2_ptr (it / M) (c2_s2 m) | Ax2 => c2_ptr (c2_s1 m) (it mod M) end)
    (fun w it => Ok (match w with Ax1 => it + M | Ax2 => it + 1 end))
    (fun w it => let n := match w with Ax1 => M | Ax2 => 1 end in if it <? n then UB else Ok (it - n))
    (fun a _ it => Ok (match a with Ax1 => it / M | Ax2 => it mod M end))
    (fun _ it => check chk (it / M <? c2_s1 m) bad_index ;; check chk (it mod M <? c2_s2 m) bad_index ;; rdn (c2_data m) it)
    (fun _ a b => Ok (a =? b)).
(** *it = x at an iterator found with find1 or find2 *)
Definition c2_store (m : carr2) (i j : nat) (x : T) : res carr2 :=
  let it := c2_ptr i j in
  check chk (it / M <? c2_s1 m) bad_index ;; check chk (it mod M <? c2_s2 m) bad_index ;;
  let* d := wrn (c2_data m) it x in Ok (Carr2 (c2_s1 m) (c2_s2 m) d).
Inductive c2_op := C2Resize (n1 n2 : nat) (preserve : bool) | C2Set (i j : nat) (x : T) | C2Clear | C2Store (i j : nat) (x : T)
  | C2Cont (n1 n2 : nat) (g : nat -> nat -> T) | C2Expr (n1 n2 : nat) (g : nat -> nat -> T) | C2Same (n1 n2 : nat) (g : nat -> nat -> T).
Definition c2_step (m : carr2) (p : c2_op) : res carr2 :=
  match p with
  | C2Resize n1 n2 pr => c2_resize m n1 n2 pr
  | C2Set i j x => c2_set m i j x
  | C2Clear => c2_clear m
  | C2Store i j x => c2_store m i j x
  | C2Cont n1 n2 g => c2_assign_cont m n1 n2 g
  | C2Expr n1 n2 g => c2_assign_expr m n1 n2 g
  | C2Same n1 n2 g => let* w := c2_of n1 n2 g in c2_assign_same m w
  end.
End Mat.
End CArr.
Arguments carr : clear implicits. Arguments carr2 : clear implicits. Arguments ca_op : clear implicits. Arguments c2_op : clear implicits.
