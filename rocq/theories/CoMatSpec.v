(** CoMatSpec.v -- operations of coordinate_matrix as operations on (sizes, finite map of (i, j), pending). *)
From Verif Require Import Base LayoutModel CMatSpec.
Open Scope nat_scope.
Section Spec.
Variable T : Type.
Variable tadd : T -> T -> T.
Variable l : layout.
Inductive ca_op :=
| CaRead (i j : nat)              (* x = m (i, j) *)
| CaSet (i j : nat) (x : T)       (* m (i, j) = x *)
| CaInsert (i j : nat) (x : T)    (* m.insert_element (i, j, x) *)
| CaAppend (i j : nat) (x : T)    (* m.append_element (i, j, x) *)
| CaErase (i j : nat)             (* m.erase_element (i, j) *)
| CaPush (i j : nat) (x : T)      (* m.push_back (i, j, x) *)
| CaPop                           (* m.pop_back () *)
| CaClear                         (* m.clear () *)
| CaSort                          (* m.sort () *)
| CaResizeDrop (s1 s2 : nat)      (* m.resize (s1, s2, false) *)
| CaReserve (n : nat)             (* m.reserve (n) *)
| CaReserveDrop (n : nat).        (* m.reserve (n, false) *)
(** sizes, stored elements, and whether an element was stored since the matrix was last sorted *)
Definition castate : Type := cmstate T * bool.
Definition ca_spec (o : ca_op) (s s' : castate) : Prop :=
  let '(s1, s2, f, p) := s in
  match o with
  | CaRead _ _ | CaSort | CaReserve _ => s' = (s1, s2, f, false)
  | CaSet i j x => s' = (s1, s2, gset f i j x, match f i j with Some _ => false | None => true end)
  | CaInsert i j x => s' = (s1, s2, gset f i j x, true)
  | CaAppend i j x => s' = (s1, s2, gset f i j (match f i j with Some y => tadd y x | None => x end), true)
  | CaErase i j => s' = (s1, s2, gdel f i j, false)
  | CaPush i j x => s' = (s1, s2, gset f i j x, p)
  | CaPop => exists i j, g_last l f i j /\ s' = (s1, s2, gdel f i j, false)
  | CaClear | CaReserveDrop _ => s' = (s1, s2, gempty, false)
  | CaResizeDrop n1 n2 => s' = (n1, n2, gempty, false)
  end.
(** in-range indices; insert_element of an absent element; push_back on a sorted matrix, behind all stored
    elements; pop_back on a sorted, non-empty matrix, in checked builds one with at least two elements (see
    C49_pop_only_element_throws_refuted); reserve for at least the stored elements *)
Definition ca_pre (chk : bool) (o : ca_op) (s : castate) : Prop :=
  let '(s1, s2, f, p) := s in
  match o with
  | CaRead i j | CaSet i j _ | CaAppend i j _ | CaErase i j => i < s1 /\ j < s2
  | CaInsert i j _ => i < s1 /\ j < s2 /\ f i j = None
  | CaPush i j _ => i < s1 /\ j < s2 /\ p = false /\ forall i' j', f i' j' <> None -> before l (i', j') (i, j)
  | CaPop => p = false /\ exists i j, f i j <> None /\ (chk = true -> exists i' j', (i', j') <> (i, j) /\ f i' j' <> None)
  | CaReserve c => exists ks, stored_list l f ks /\ length ks <= c
  | CaResizeDrop _ _ | CaReserveDrop _ | CaClear | CaSort => True
  end.
Fixpoint ca_runs (chk : bool) (ops : list ca_op) (s s' : castate) : Prop :=
  match ops with
  | [] => s' = s
  | o :: t => ca_pre chk o s /\ exists s1, ca_spec o s s1 /\ ca_runs chk t s1 s'
  end.
End Spec.
Arguments CaRead {T}. Arguments CaSet {T}. Arguments CaInsert {T}. Arguments CaAppend {T}. Arguments CaErase {T}.
Arguments CaPush {T}. Arguments CaPop {T}. Arguments CaClear {T}. Arguments CaSort {T}. Arguments CaReserve {T}.
Arguments CaResizeDrop {T}. Arguments CaReserveDrop {T}. Arguments ca_spec {T}. Arguments ca_pre {T}. Arguments ca_runs {T}.
