(** LuSpec.v -- what a correct LU factorisation and a correct row permutation are. *)
From Verif Require Import Base FieldLib LinStore.
Open Scope nat_scope.

Section Spec.
Context {F : Type} (O : fops F).
(** The unit lower triangular factor and the upper triangular factor packed into one matrix m. *)
Definition L_of (m : nat -> nat -> F) (i k : nat) : F :=
  if k <? i then m i k else if k =? i then f1 O else f0 O.
Definition U_of (m : nat -> nat -> F) (k j : nat) : F :=
  if k <=? j then m k j else f0 O.
(** L * U = A for an n1 x n2 matrix. *)
Definition LU_of (n1 n2 : nat) (m A : nat -> nat -> F) : Prop :=
  forall i j, i < n1 -> j < n2 ->
  sumr O 0 (Nat.min n1 n2) (fun k => fmul O (L_of m i k) (U_of m k j)) = A i j.
(** [sing] is 0 when the diagonal has no zero, otherwise one more than the position of the first
    zero on the diagonal. *)
Definition names_first_zero (n : nat) (m : nat -> nat -> F) (sing : nat) : Prop :=
  (sing = 0 -> forall k, k < n -> m k k <> f0 O) /\
  (sing <> 0 -> sing - 1 < n /\ m (sing - 1) (sing - 1) = f0 O /\
                forall k, k < sing - 1 -> m k k <> f0 O).
End Spec.

(** Exchange of a and b. *)
Definition transp (a b i : nat) : nat := if i =? a then b else if i =? b then a else i.
(** Row i of the result of the exchanges (0, p 0), ..., (n-1, p (n-1)), applied in this order, is
    row [rowperm p n i] of the original. *)
Fixpoint rowperm (p : nat -> nat) (n : nat) (i : nat) : nat :=
  match n with 0 => i | S k => rowperm p k (transp k (p k) i) end.
