(** CoVecSpec.v -- operations of coordinate_vector as operations on (size, finite map, pending). *)
From Verif Require Import Base MapArraySpec MappedSpec.
Open Scope nat_scope.
Section Spec.
Variable T : Type.
Variable tadd : T -> T -> T.
Inductive co_op :=
| CoRead (i : nat)               (* x = v (i) *)
| CoSet (i : nat) (x : T)        (* v (i) = x *)
| CoInsert (i : nat) (x : T)     (* v.insert_element (i, x) *)
| CoAppend (i : nat) (x : T)     (* v.append_element (i, x) *)
| CoErase (i : nat)              (* v.erase_element (i) *)
| CoPush (i : nat) (x : T)       (* v.push_back (i, x) *)
| CoClear                        (* v.clear () *)
| CoSort                         (* v.sort () *)
| CoResize (n : nat)             (* v.resize (n) *)
| CoReserve (n : nat)            (* v.reserve (n) *)
| CoResizeDrop (n : nat)         (* v.resize (n, false) *)
| CoReserveDrop (n : nat).       (* v.reserve (n, false) *)
(** size, stored elements, and whether an element was stored since the vector was last sorted (every
    operation that looks an index up sorts; append_element and insert_element leave it unsorted) *)
Definition costate : Type := svstate T * bool.
Definition co_spec (o : co_op) (s : costate) : costate :=
  let '(n, f, p) := s in
  match o with
  | CoRead _ | CoSort | CoReserve _ => (n, f, false)
  | CoSet i x => (n, fset f i x, match f i with Some _ => false | None => true end)
  | CoInsert i x => (n, fset f i x, true)
  | CoAppend i x => (n, fset f i (match f i with Some y => tadd y x | None => x end), true)
  | CoErase i => (n, fdel f i, false)
  | CoPush i x => (n, fset f i x, p)
  | CoClear | CoReserveDrop _ => (n, fempty, false)
  | CoResize n' => (n', fun k => if k <? n' then f k else None, false)
  | CoResizeDrop n' => (n', fempty, false)
  end.
(** in-range indices; insert_element of an absent index; push_back on a sorted vector, above all stored
    indices; reserve for at least the stored ones.  In checked builds the non-preserving forms of
    resize and reserve need a sorted vector (see C15_nonpreserving_resize_throws_refuted). *)
Definition co_pre (chk : bool) (o : co_op) (s : costate) : Prop :=
  let '(n, f, p) := s in
  match o with
  | CoRead i | CoSet i _ | CoAppend i _ => i < n
  | CoInsert i _ => i < n /\ f i = None
  | CoPush i _ => i < n /\ p = false /\ forall x, f x <> None -> x < i
  | CoReserve c => exists ks, stored_keys f ks /\ length ks <= Nat.max 1 c
  | CoResizeDrop _ | CoReserveDrop _ => chk = true -> p = false
  | CoErase _ | CoClear | CoSort | CoResize _ => True
  end.
Fixpoint co_legal (chk : bool) (ops : list co_op) (s : costate) : Prop :=
  match ops with [] => True | o :: t => co_pre chk o s /\ co_legal chk t (co_spec o s) end.
Definition co_run (ops : list co_op) (s : costate) : costate := fold_left (fun s o => co_spec o s) ops s.
End Spec.
Arguments CoRead {T}. Arguments CoSet {T}. Arguments CoInsert {T}. Arguments CoAppend {T}. Arguments CoErase {T}.
Arguments CoPush {T}. Arguments CoClear {T}. Arguments CoSort {T}. Arguments CoResize {T}. Arguments CoReserve {T}.
Arguments CoResizeDrop {T}. Arguments CoReserveDrop {T}. Arguments co_spec {T}. Arguments co_pre {T}. Arguments co_legal {T}. Arguments co_run {T}.
