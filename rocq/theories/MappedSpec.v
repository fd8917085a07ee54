(** MappedSpec.v -- sparse vector / matrix operations on finite maps. *)
From Verif Require Import Base MapArraySpec.
Open Scope nat_scope.
Section Spec.
Variable T : Type.
(** a sparse vector: its size and the stored elements *)
Definition svstate : Type := nat * fmap T.
Inductive sv_op :=
| SSet (i : nat) (x : T)        (* v (i) = x *)
| SInsert (i : nat) (x : T)     (* v.insert_element (i, x), i not stored *)
| SErase (i : nat)              (* v.erase_element (i) *)
| SClear                        (* v.clear () *)
| SResize (n : nat)             (* v.resize (n), preserving *)
| SReserve (n : nat).           (* v.reserve (n) *)
Definition sv_spec (o : sv_op) (s : svstate) : svstate :=
  let (n, f) := s in
  match o with
  | SSet i x | SInsert i x => (n, fset f i x)
  | SErase i => (n, fdel f i)
  | SClear => (n, fempty)
  | SResize n' => (n', fun k => if k <? n' then f k else None)
  | SReserve _ => (n, f)
  end.
(** in-range indices; insert_element of an absent element; reserve for at least the stored ones *)
Definition sv_pre (o : sv_op) (s : svstate) : Prop :=
  let (n, f) := s in
  match o with
  | SSet i _ => i < n
  | SInsert i _ => i < n /\ f i = None
  | SReserve c => exists ks, stored_keys f ks /\ length ks <= c
  | _ => True
  end.
Fixpoint sv_legal (ops : list sv_op) (s : svstate) : Prop :=
  match ops with [] => True | o :: t => sv_pre o s /\ sv_legal t (sv_spec o s) end.
Definition sv_run (ops : list sv_op) (s : svstate) : svstate := fold_left (fun s o => sv_spec o s) ops s.
(** the value read at index i: the stored value, or zero *)
Definition sv_read (zero : T) (s : svstate) (i : nat) : T :=
  match snd s i with Some x => x | None => zero end.

(** a sparse matrix: sizes are fixed by these operations, elements indexed by (row, column) *)
Definition smstate : Type := N -> N -> option T.
Inductive sm_op :=
| SMSet (i j : N) (x : T) | SMInsert (i j : N) (x : T) | SMErase (i j : N) | SMClear.
Definition sm_at (i j i' j' : N) : bool := (N.eqb i i' && N.eqb j j')%N.
Definition sm_spec (o : sm_op) (f : smstate) : smstate :=
  match o with
  | SMSet i j x | SMInsert i j x => fun i' j' => if sm_at i j i' j' then Some x else f i' j'
  | SMErase i j => fun i' j' => if sm_at i j i' j' then None else f i' j'
  | SMClear => fun _ _ => None
  end.
Definition sm_pre (s1 s2 : N) (o : sm_op) (f : smstate) : Prop :=
  match o with
  | SMSet i j _ | SMErase i j => (i < s1 /\ j < s2)%N
  | SMInsert i j _ => (i < s1 /\ j < s2)%N /\ f i j = None
  | SMClear => True
  end.
Fixpoint sm_legal (s1 s2 : N) (ops : list sm_op) (f : smstate) : Prop :=
  match ops with [] => True | o :: t => sm_pre s1 s2 o f /\ sm_legal s1 s2 t (sm_spec o f) end.
End Spec.
Arguments SSet {T}. Arguments SInsert {T}. Arguments SErase {T}. Arguments SClear {T}.
Arguments SResize {T}. Arguments SReserve {T}. Arguments sv_spec {T}. Arguments sv_pre {T}.
Arguments sv_legal {T}. Arguments sv_run {T}. Arguments sv_read {T}.
Arguments SMSet {T}. Arguments SMInsert {T}. Arguments SMErase {T}. Arguments SMClear {T}.
Arguments sm_spec {T}. Arguments sm_pre {T}. Arguments sm_legal {T}.
