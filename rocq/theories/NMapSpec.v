(** NMapSpec.v -- operations of mapped_vector_of_mapped_vector as operations on (sizes, finite map of (i, j)), and the lines
    in which something was written. *)
From Verif Require Import Base LayoutModel CMatSpec CMatModel NMapModel.
Open Scope nat_scope.
Section Spec.
Context {T : Type} (tzero : T) (l : layout).
Inductive nm_op :=
| NmSet (i j : nat) (x : T)      (* m (i, j) = x *)
| NmRead (i j : nat)             (* x = m (i, j), m not const: stores a zero where nothing is stored *)
| NmInsert (i j : nat) (x : T)   (* m.insert_element (i, j, x) *)
| NmErase (i j : nat)            (* m.erase_element (i, j) *)
| NmClear                        (* m.clear () *)
| NmResizeDrop (s1 s2 : nat).    (* m.resize (s1, s2, false) *)
(** sizes, stored elements, lines (rows of a row_major matrix, columns of a column_major one) that were written to since the
    matrix was last cleared *)
Definition nmstate : Type := nat * nat * gmap T * (nat -> bool).
Definition touch (t : nat -> bool) (k : nat) : nat -> bool := fun x => (x =? k) || t x.
Definition nm_spec (o : nm_op) (s : nmstate) : nmstate :=
  let '(s1, s2, f, t) := s in
  match o with
  | NmSet i j x | NmInsert i j x => (s1, s2, gset f i j x, touch t (majM l i j))
  | NmRead i j => (s1, s2, gset f i j (match f i j with Some x => x | None => tzero end), touch t (majM l i j))
  | NmErase i j => (s1, s2, gdel f i j, t)
  | NmClear => (s1, s2, gempty, fun _ => false)
  | NmResizeDrop a b => (a, b, gempty, fun _ => false)
  end.
Definition nm_pre (o : nm_op) (s : nmstate) : Prop :=
  let '(s1, s2, f, _) := s in
  match o with
  | NmSet i j _ | NmRead i j | NmErase i j => i < s1 /\ j < s2
  | NmInsert i j _ => i < s1 /\ j < s2 /\ f i j = None
  | NmClear | NmResizeDrop _ _ => True
  end.
Fixpoint nm_legal (ops : list nm_op) (s : nmstate) : Prop :=
  match ops with [] => True | o :: t => nm_pre o s /\ nm_legal t (nm_spec o s) end.
Definition nm_run (ops : list nm_op) (s : nmstate) : nmstate := fold_left (fun s o => nm_spec o s) ops s.
(** one operation of a history *)
Definition nm_step (chk : bool) (m : nmat T) (o : nm_op) : res (nmat T) :=
  match o with
  | NmSet i j x => nm_set tzero l chk m i j x
  | NmRead i j => let* (m, _) := nm_read tzero l chk m i j in Ok m
  | NmInsert i j x => nm_insert l chk m i j x
  | NmErase i j => nm_erase l m i j
  | NmClear => Ok (nm_clear l m)
  | NmResizeDrop a b => nm_resize l chk m a b false
  end.
End Spec.
Arguments NmSet {T}. Arguments NmRead {T}. Arguments NmInsert {T}. Arguments NmErase {T}. Arguments NmClear {T}. Arguments NmResizeDrop {T}.
