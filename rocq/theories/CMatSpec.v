(** CMatSpec.v -- operations of compressed_matrix as operations on (sizes, finite map of (i, j)). *)
From Verif Require Import Base LayoutModel.
Open Scope nat_scope.
Section Spec.
Variable T : Type.
Definition gmap : Type := nat -> nat -> option T.
Definition gempty : gmap := fun _ _ => None.
Definition gset (f : gmap) (i j : nat) (x : T) : gmap := fun i' j' => if (i' =? i) && (j' =? j) then Some x else f i' j'.
Definition gdel (f : gmap) (i j : nat) : gmap := fun i' j' => if (i' =? i) && (j' =? j) then None else f i' j'.
Definition cmstate : Type := nat * nat * gmap.
(** storage order: by rows for row_major, by columns for column_major *)
Definition before (l : layout) (p q : nat * nat) : Prop :=
  match l with
  | RowMajor => fst p < fst q \/ (fst p = fst q /\ snd p < snd q)
  | ColMajor => snd p < snd q \/ (snd p = snd q /\ fst p < fst q)
  end.
(** [ks]: the stored positions in storage order *)
Definition stored_list (l : layout) (f : gmap) (ks : list (nat * nat)) : Prop :=
  (forall a b p q, a < b -> nth_error ks a = Some p -> nth_error ks b = Some q -> before l p q) /\
  forall i j, In (i, j) ks <-> f i j <> None.
Definition g_last (l : layout) (f : gmap) (i j : nat) : Prop :=
  f i j <> None /\ forall i' j', f i' j' <> None -> (i', j') = (i, j) \/ before l (i', j') (i, j).
Inductive cm_op :=
| CMSet (i j : nat) (x : T)           (* m (i, j) = x *)
| CMInsert (i j : nat) (x : T)        (* m.insert_element (i, j, x) *)
| CMErase (i j : nat)                 (* m.erase_element (i, j) *)
| CMPush (i j : nat) (x : T)          (* m.push_back (i, j, x) *)
| CMPop                               (* m.pop_back () *)
| CMClear                             (* m.clear () *)
| CMComplete                          (* m.complete_index1_data () *)
| CMResizeDrop (s1 s2 : nat)          (* m.resize (s1, s2, false) *)
| CMReserve (n : nat)                 (* m.reserve (n) *)
| CMReserveDrop (n : nat).            (* m.reserve (n, false) *)
Definition cm_spec (l : layout) (o : cm_op) (s s' : cmstate) : Prop :=
  let '(s1, s2, f) := s in
  match o with
  | CMSet i j x | CMInsert i j x | CMPush i j x => s' = (s1, s2, gset f i j x)
  | CMErase i j => s' = (s1, s2, gdel f i j)
  | CMPop => exists i j, g_last l f i j /\ s' = (s1, s2, gdel f i j)
  | CMClear | CMReserveDrop _ => s' = (s1, s2, gempty)
  | CMResizeDrop n1 n2 => s' = (n1, n2, gempty)
  | CMComplete | CMReserve _ => s' = s
  end.
(** Furthest line (row for row_major, column for column_major) touched since the matrix was last
    emptied: [h].  It moves forward with every write and with complete_index1_data, and goes back only
    when the matrix is emptied; erasing does not move it back. *)
Definition line (l : layout) (i j : nat) : nat := match l with RowMajor => i | ColMajor => j end.
Definition cm_front (l : layout) (o : cm_op) (s : cmstate) (h : nat) : nat :=
  let '(s1, s2, _) := s in
  match o with
  | CMSet i j _ | CMInsert i j _ | CMPush i j _ => Nat.max h (line l i j)
  | CMErase _ _ | CMPop | CMReserve _ => h
  | CMComplete => line l s1 s2 - 1
  | CMClear | CMResizeDrop _ _ | CMReserveDrop _ => 0
  end.
(** in-range indices; insert_element of an absent element; push_back behind all stored elements in
    storage order and not in a line before [h]; pop_back on a non-empty matrix; reserve for at least
    the stored elements *)
Definition cm_pre (l : layout) (o : cm_op) (s : cmstate) (h : nat) : Prop :=
  let '(s1, s2, f) := s in
  match o with
  | CMSet i j _ | CMErase i j => i < s1 /\ j < s2
  | CMInsert i j _ => i < s1 /\ j < s2 /\ f i j = None
  | CMPush i j _ => i < s1 /\ j < s2 /\ h <= line l i j /\ forall i' j', f i' j' <> None -> before l (i', j') (i, j)
  | CMPop => exists i j, f i j <> None
  | CMReserve n => exists ks, stored_list l f ks /\ length ks <= n
  | CMClear | CMComplete | CMResizeDrop _ _ | CMReserveDrop _ => True
  end.
Fixpoint cm_runs (l : layout) (ops : list cm_op) (s : cmstate) (h : nat) (s' : cmstate) : Prop :=
  match ops with
  | [] => s' = s
  | o :: t => cm_pre l o s h /\ exists s1, cm_spec l o s s1 /\ cm_runs l t s1 (cm_front l o s h) s'
  end.
End Spec.
Arguments gempty {T}. Arguments gset {T}. Arguments gdel {T}. Arguments stored_list {T}. Arguments g_last {T}.
Arguments CMSet {T}. Arguments CMInsert {T}. Arguments CMErase {T}. Arguments CMPush {T}. Arguments CMPop {T}. Arguments CMClear {T}.
Arguments CMComplete {T}. Arguments CMResizeDrop {T}. Arguments CMReserve {T}. Arguments CMReserveDrop {T}.
Arguments cm_spec {T}. Arguments cm_front {T}. Arguments cm_pre {T}. Arguments cm_runs {T}.
