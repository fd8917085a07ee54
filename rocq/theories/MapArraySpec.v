(** MapArraySpec.v -- finite maps as functions, and what each container operation does to one. *)
From Verif Require Import Base.
Open Scope nat_scope.

Section Spec.
Variable V : Type.
(** a finite map: index -> stored value, None where nothing is stored *)
Definition fmap := nat -> option V.
Definition fempty : fmap := fun _ => None.
Definition fset (f : fmap) (k : nat) (v : V) : fmap := fun x => if x =? k then Some v else f x.
Definition fdel (f : fmap) (k : nat) : fmap := fun x => if x =? k then None else f x.
(** [ks] lists the stored indices of f in increasing order; its length is the number of stored
    elements *)
Definition stored_keys (f : fmap) (ks : list nat) : Prop :=
  (forall i j x y, i < j -> nth_error ks i = Some x -> nth_error ks j = Some y -> x < y) /\
  forall k, In k ks <-> f k <> None.

(** operations of the map_array interface *)
Inductive map_op :=
| MInsert (k : nat) (v : V)        (* insert (value_type (k, v)): keeps an existing entry *)
| MWrite (k : nat) (v : V)         (* a [k] = v *)
| MErase (k : nat)                 (* it = find (k); if (it != end ()) erase (it) *)
| MEraseRange (lo hi : nat)        (* erase (lower_bound (lo), lower_bound (hi)) *)
| MPush (k : nat) (v : V)          (* push_back (end (), value_type (k, v)) *)
| MClear
| MReserve (n : nat).
Definition map_spec (o : map_op) (f : fmap) : fmap :=
  match o with
  | MInsert k v => match f k with Some _ => f | None => fset f k v end
  | MWrite k v => fset f k v
  | MErase k => fdel f k
  | MEraseRange lo hi => fun x => if (lo <=? x) && (x <? hi) then None else f x
  | MPush k v => fset f k v
  | MClear => fempty
  | MReserve _ => f
  end.
(** preconditions of the interface *)
Definition map_pre (o : map_op) (f : fmap) : Prop :=
  match o with
  | MEraseRange lo hi => lo <= hi
  | MPush k _ => forall x, f x <> None -> x < k
  | MReserve n => exists ks, stored_keys f ks /\ length ks <= n
  | _ => True
  end.
Fixpoint map_legal (ops : list map_op) (f : fmap) : Prop :=
  match ops with
  | [] => True
  | o :: t => map_pre o f /\ map_legal t (map_spec o f)
  end.
End Spec.
Arguments fempty {V}. Arguments fset {V}. Arguments fdel {V}. Arguments stored_keys {V}.
Arguments MInsert {V}. Arguments MWrite {V}. Arguments MErase {V}. Arguments MEraseRange {V}.
Arguments MPush {V}. Arguments MClear {V}. Arguments MReserve {V}.
Arguments map_spec {V}. Arguments map_pre {V}. Arguments map_legal {V}.
