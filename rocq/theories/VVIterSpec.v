(** VVIterSpec.v -- vocabulary for iterating over generalized_vector_of_vector; the orders themselves are in CMIterSpec.v. *)
From Verif Require Import Base LayoutModel CMatSpec CMIterModel CMIterSpec.
Open Scope nat_scope.
(** the outer direction in which the inner loop runs along the lines the matrix is stored in: rows of a row_major matrix
    (outer loop over iterator1), columns of a column_major one (outer loop over iterator2) *)
Definition own (l : layout) : axis := match l with RowMajor => Ax1 | ColMajor => Ax2 end.
Definition extent (w : axis) (s1 s2 : nat) : nat := match w with Ax1 => s1 | Ax2 => s2 end.
Section Spec.
Context {T : Type}.
(** outer loop forward, inner loop reversed *)
Definition stored_lines_reversed (w : axis) (s1 s2 : nat) (f : gmap T) : list ((nat * nat) * T) :=
  flat_map (fun x => rev (keep_stored f (line_positions (other w) x s1 s2))) (seq 0 (extent w s1 s2)).
(** the matrix after every stored element x at (i, j) has become g i j x *)
Definition every_stored (g : nat -> nat -> T -> T) (f : gmap T) : gmap T :=
  fun i j => match f i j with Some x => Some (g i j x) | None => None end.
End Spec.
