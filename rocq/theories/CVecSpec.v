(** CVecSpec.v -- operations of compressed_vector as operations on (size, finite map). *)
From Verif Require Import Base MapArraySpec MappedSpec.
Open Scope nat_scope.
Section Spec.
Variable T : Type.
Inductive cv_op :=
| CSet (i : nat) (x : T)         (* v (i) = x *)
| CInsert (i : nat) (x : T)      (* v.insert_element (i, x) *)
| CErase (i : nat)               (* v.erase_element (i) *)
| CPush (i : nat) (x : T)        (* v.push_back (i, x) *)
| CPop                           (* v.pop_back () *)
| CClear                         (* v.clear () *)
| CResize (n : nat)              (* v.resize (n) *)
| CResizeDrop (n : nat)          (* v.resize (n, false) *)
| CReserve (n : nat)             (* v.reserve (n) *)
| CReserveDrop (n : nat).        (* v.reserve (n, false) *)
(** k is the largest stored index *)
Definition is_last (f : fmap T) (k : nat) : Prop := f k <> None /\ forall x, f x <> None -> x <= k.
(** pop_back removes the largest stored index, so the specification is a relation *)
Definition cv_spec (o : cv_op) (s s' : svstate T) : Prop :=
  let (n, f) := s in
  match o with
  | CSet i x | CInsert i x | CPush i x => s' = (n, fset f i x)
  | CErase i => s' = (n, fdel f i)
  | CPop => exists k, is_last f k /\ s' = (n, fdel f k)
  | CClear | CReserveDrop _ => s' = (n, fempty)
  | CResize n' => s' = (n', fun k => if k <? n' then f k else None)
  | CResizeDrop n' => s' = (n', fempty)
  | CReserve _ => s' = s
  end.
Definition cv_pre (o : cv_op) (s : svstate T) : Prop :=
  let (n, f) := s in
  match o with
  | CSet i _ => i < n
  | CInsert i _ => i < n /\ f i = None
  | CPush i _ => i < n /\ forall x, f x <> None -> x < i
  | CPop => exists k, f k <> None
  | CReserve c => exists ks, stored_keys f ks /\ length ks <= Nat.max 1 c
  | _ => True
  end.
(** [cv_runs ops s s']: s' is the specified state after the operations, each with its precondition
    met *)
Fixpoint cv_runs (ops : list cv_op) (s s' : svstate T) : Prop :=
  match ops with
  | [] => s' = s
  | o :: t => cv_pre o s /\ exists s1, cv_spec o s s1 /\ cv_runs t s1 s'
  end.
End Spec.
Arguments CSet {T}. Arguments CInsert {T}. Arguments CErase {T}. Arguments CPush {T}. Arguments CPop {T}.
Arguments CClear {T}. Arguments CResize {T}. Arguments CResizeDrop {T}. Arguments CReserve {T}. Arguments CReserveDrop {T}.
Arguments is_last {T}. Arguments cv_spec {T}. Arguments cv_pre {T}. Arguments cv_runs {T}.
