(** VVSpec.v -- operations of generalized_vector_of_vector as operations on (sizes, finite map of (i, j)). *)
From Verif Require Import Base LayoutModel CMatSpec.
Open Scope nat_scope.
(** the vector type used for the lines of the matrix *)
Inductive inner := Mapped | Compressed | Coordinate.
Section Spec.
Variable T : Type.
Variable tadd : T -> T -> T.
Inductive vv_op :=
| VRead (i j : nat)                (* x = m (i, j), m const *)
| VSet (i j : nat) (x : T)         (* m (i, j) = x *)
| VInsert (i j : nat) (x : T)      (* m.insert_element (i, j, x) *)
| VAppend (i j : nat) (x : T)      (* m.append_element (i, j, x) *)
| VErase (i j : nat)               (* m.erase_element (i, j) *)
| VClear                           (* m.clear () *)
| VSort                            (* m.sort () *)
| VResize (n1 n2 : nat)            (* m.resize (n1, n2) *)
| VResizeDrop (n1 n2 : nat).       (* m.resize (n1, n2, false) *)
(** sizes, stored elements, and for each line (row of a row_major, column of a column_major matrix) whether an
    element was put into it since it was last sorted; the last part matters for coordinate lines only *)
Definition vvstate : Type := nat * nat * gmap T * (nat -> bool).
Definition put (p : nat -> bool) (r : nat) (b : bool) : nat -> bool := fun r' => if r' =? r then b else p r'.
Definition none : nat -> bool := fun _ => false.
(** the elements that survive a change of size *)
Definition gcut (f : gmap T) (n1 n2 : nat) : gmap T := fun i j => if (i <? n1) && (j <? n2) then f i j else None.
Definition vv_spec (l : layout) (o : vv_op) (s : vvstate) : vvstate :=
  let '(s1, s2, f, p) := s in
  match o with
  | VRead i j => (s1, s2, f, put p (line l i j) false)
  | VSet i j x => (s1, s2, gset f i j x, put p (line l i j) (match f i j with Some _ => false | None => true end))
  | VInsert i j x => (s1, s2, gset f i j x, put p (line l i j) true)
  | VAppend i j x => (s1, s2, gset f i j (match f i j with Some y => tadd y x | None => x end), put p (line l i j) true)
  | VErase i j => (s1, s2, gdel f i j, put p (line l i j) false)
  | VClear => (s1, s2, gempty, none)
  | VSort => (s1, s2, f, none)
  | VResize n1 n2 => (n1, n2, gcut f n1 n2, none)
  | VResizeDrop n1 n2 => (n1, n2, gempty, none)
  end.
(** in-range indices; insert_element of an absent element; append_element and sort exist for coordinate lines
    only.  In checked builds a matrix with coordinate lines can lose lines in resize only if the line that
    becomes the end marker has nothing pending (see C58_shrink_after_append_throws_refuted). *)
Definition vv_pre (k : inner) (chk : bool) (l : layout) (o : vv_op) (s : vvstate) : Prop :=
  let '(s1, s2, f, p) := s in
  match o with
  | VRead i j | VSet i j _ | VErase i j => i < s1 /\ j < s2
  | VInsert i j _ => i < s1 /\ j < s2 /\ f i j = None
  | VAppend i j _ => i < s1 /\ j < s2 /\ k = Coordinate
  | VSort => k = Coordinate
  | VResize n1 n2 => chk = true -> k = Coordinate -> line l n1 n2 < line l s1 s2 -> p (line l n1 n2) = false
  | VClear | VResizeDrop _ _ => True
  end.
Fixpoint vv_legal (k : inner) (chk : bool) (l : layout) (ops : list vv_op) (s : vvstate) : Prop :=
  match ops with [] => True | o :: t => vv_pre k chk l o s /\ vv_legal k chk l t (vv_spec l o s) end.
Definition vv_run (l : layout) (ops : list vv_op) (s : vvstate) : vvstate := fold_left (fun s o => vv_spec l o s) ops s.
(** what a read returns *)
Definition g_read (zero : T) (f : gmap T) (i j : nat) : T := match f i j with Some x => x | None => zero end.
End Spec.
Arguments VRead {T}. Arguments VSet {T}. Arguments VInsert {T}. Arguments VAppend {T}. Arguments VErase {T}. Arguments VClear {T}.
Arguments VSort {T}. Arguments VResize {T}. Arguments VResizeDrop {T}. Arguments vv_spec {T}. Arguments vv_pre {T}. Arguments vv_legal {T}.
Arguments vv_run {T}. Arguments gcut {T}. Arguments g_read {T}.
