(** MVecModel.v -- a dense matrix as a vector of rows or of columns: matrix_row_vector, matrix_column_vector and
    detail::matrix_vector_iterator (matrix_vector.hpp:38-406), over matrix<T, L>.  One definition for both, with the
    direction as parameter (D1: vector of rows, D2: vector of columns).  The iterator is its position_ (size_type,
    wrapping); matrix_ is the matrix argument, and the comparisons of matrix_ pointers are left out.
    matrix_row_vector::crend () (183-185) returns end (), a forward iterator, and does not compile when used. *)
From Verif Require Import Base LayoutModel PackedModel DMIterModel DMIterSpec.
Open Scope N_scope.

Section MVec.
Context {T : Type}.
Variable chk : bool.
Variable l : layout.
Implicit Type m : mat T.

(** size (): 208-210 (size1), 361-363 (size2) *)
Definition mv_size (w : dir) m : N := match w with D1 => msize1 m | D2 => msize2 m end.
(** The proxy matrix_row (m, k) / matrix_column (m, k) is its index k: nothing is checked when it is formed
    (matrix_proxy.hpp:54-58, 526-531).  size (): 62-64, 535-537. *)
Definition mr_size (w : dir) m : N := match w with D1 => msize2 m | D2 => msize1 m end.
(** operator (), operator []: matrix_proxy.hpp:83-98, 556-571 *)
Definition mr_get (w : dir) m (k j : N) : res T :=
  match w with D1 => dense_get chk l m k j | D2 => dense_get chk l m j k end.
Definition mr_set (w : dir) m (k j : N) (x : T) : res (mat T) :=
  match w with D1 => dense_set chk l m k j x | D2 => dense_set chk l m j k x end.
(** operator () (index), operator [] (index) of the vector of rows / columns: 187-205, 340-358 *)
Definition mv_at (w : dir) (index : N) : N := index.

(** increment, decrement, advance, distance_to, equal, dereference: 59-91; std::ptrdiff_t (position_) converts *)
Definition mi_inc (p : N) : N := addw p 1.
Definition mi_dec (p : N) : N := subw p 1.
Definition mi_advance (p : N) (n : Z) : N := addw p (to_size n).
Definition mi_distance_to (p q : N) : Z := (to_diff q - to_diff p)%Z.
Definition mi_equal (p q : N) : bool := p =? q.
Definition mi_deref (p : N) : N := p.
(** begin (), end (): 127-150, 280-303 *)
Definition mv_begin (w : dir) m : N := 0.
Definition mv_end (w : dir) m : N := mv_size w m.

(** for (it = begin; it != end; ++ it) body; running out of fuel is UB *)
Fixpoint mv_for {S : Type} (fuel : nat) (step : N -> N) (p e : N) (body : N -> S -> res S) (s : S) : res S :=
  if mi_equal p e then Ok s else
  match fuel with
  | O => UB
  | Datatypes.S fuel => let* s := body p s in mv_for fuel step (step p) e body s
  end.
(** for every row (column) of the vector, for every index of it *)
Definition mr_each {S : Type} (n : N) (body : N -> S -> res S) (s : S) : res S :=
  foldM (fun s j => body j s) (upto n) s.
Definition mv_note (w : dir) m (k j : N) (s : list (N * N * T)) : res (list (N * N * T)) :=
  let* x := mr_get w m k j in Ok (s ++ [((k, j), x)]).
Definition mv_visit (w : dir) m : res (list (N * N * T)) :=
  mv_for (N.to_nat (mv_size w m)) mi_inc (mv_begin w m) (mv_end w m)
    (fun p s => mr_each (mr_size w m) (mv_note w m (mi_deref p)) s) [].
(** rbegin () = reverse (end ()), rend () = reverse (begin ()): 157-180, 310-338; boost::reverse_iterator
    dereferences the position before its base *)
Definition mv_rvisit (w : dir) m : res (list (N * N * T)) :=
  mv_for (N.to_nat (mv_size w m)) mi_dec (mv_end w m) (mv_begin w m)
    (fun p s => mr_each (mr_size w m) (mv_note w m (mi_deref (mi_dec p))) s) [].
(** for (it = begin; it != end; ++ it) for (j) ( *it) (j) = g (it - begin, j) *)
Definition mv_fill (w : dir) m (g : N -> N -> T) : res (mat T) :=
  mv_for (N.to_nat (mv_size w m)) mi_inc (mv_begin w m) (mv_end w m)
    (fun p m => mr_each (mr_size w m) (fun j m => mr_set w m (mi_deref p) j (g (mi_deref p) j)) m) m.

(** matrix::resize (size1, size2, false): matrix.hpp:222-226; unbounded_array::resize keeps the block if the size
    stays the same *)
Definition dense_resize_drop (fresh : N -> T) m (s1 s2 : N) : res (mat T) :=
  let* n := storage_size chk l s1 s2 in
  Ok (Mat s1 s2 (if n =? lenN (mdata m) then mdata m else alloc fresh n)).
(** resize (size, preserve): 213-215, 366-368 *)
Definition mv_resize (fresh : N -> T) (w : dir) m (n : N) (preserve : bool) : res (mat T) :=
  let '(s1, s2) := match w with D1 => (n, msize2 m) | D2 => (msize1 m, n) end in
  if preserve then dense_resize chk l fresh m s1 s2 else dense_resize_drop fresh m s1 s2.

(** operations through vectors of rows and of columns of one matrix *)
Inductive mv_op :=
| VSet (w : dir) (k j : N) (x : T)                  (* v [k] (j) = x, ( *(v.begin () + k)) (j) = x *)
| VResize (w : dir) (n : N) (preserve : bool).      (* v.resize (n, preserve) *)
Definition mv_step (fresh : N -> T) m (o : mv_op) : res (mat T) :=
  match o with
  | VSet w k j x => mr_set w m (mv_at w k) j x
  | VResize w n pr => mv_resize fresh w m n pr
  end.
End MVec.
Arguments mv_op : clear implicits.
