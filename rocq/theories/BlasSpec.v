(** BlasSpec.v -- vocabulary of the BLAS theorems: what a destination shows, the textbook formulas,
    symmetric and hermitian matrices. *)
From Verif Require Import Base AssignModel AliasModel AliasSpec BlasModel.
Open Scope nat_scope.

Section Spec.
Context {T : Type} (B : bops T).
Notation "x [+] y" := (vadd (b_v B) x y) (at level 50, left associativity).
Notation "x [*] y" := (vmul (b_v B) x y) (at level 40, left associativity).

(** f 0 + f 1 + ... + f (n-1), added up from zero in this order. *)
Definition sum_of (n : nat) (f : nat -> T) : T := fold_left (fun acc k => acc [+] f k) (seq 0 n) (v0 (b_v B)).
(** The product of matrices, inner dimension n; the outer product of two vectors (column 0). *)
Definition mprod (n : nat) (A C : nat -> nat -> T) (i j : nat) : T := sum_of n (fun k => A i k [*] C k j).
Definition outer (x y : nat -> nat -> T) (i j : nat) : T := x i 0 [*] y j 0.
Definition transpose (A : nat -> nat -> T) (i j : nat) : T := A j i.
Definition adjoint (A : nat -> nat -> T) (i j : nat) : T := b_conj B (A j i).

Definition symmetric (n : nat) (A : nat -> nat -> T) : Prop := forall i j, i < n -> j < n -> A i j = A j i.
Definition hermitian (n : nat) (A : nat -> nat -> T) : Prop :=
  forall i j, i < n -> j < n -> A i j = b_conj B (A j i).

(** In memory [s] the destination shows the a x b matrix [X]. *)
Definition shows (s : st T) (d : dest) (a b : nat) (X : nat -> nat -> T) : Prop :=
  match d with
  | Whole x => holds s x a b X
  | Part w => legal s w /\ w_1 w = a /\ w_2 w = b /\ forall i j, i < a -> j < b -> seen s w i j = X i j
  end.
Definition d_obj (d : dest) : nat := match d with Whole x => x | Part w => w_obj w end.
(** From [s] to [s'] the destination became the a x b matrix [X] and nothing else changed: no other
    object (except the temporaries [ts]) and no element outside a proxy. *)
Definition becomes (s s' : st T) (ts : list nat) (d : dest) (a b : nat) (X : nat -> nat -> T) : Prop :=
  shows s' d a b X /\
  (forall y, y <> d_obj d -> ~ In y ts -> s' y = s y) /\
  match d with
  | Whole _ => True
  | Part w =>
      o_1 (s' (w_obj w)) = o_1 (s (w_obj w)) /\ o_2 (s' (w_obj w)) = o_2 (s (w_obj w)) /\
      forall p q, (forall i j, i < w_1 w -> j < w_2 w -> w_pos w i j <> (p, q)) ->
        o_at (s' (w_obj w)) p q = o_at (s (w_obj w)) p q
  end.

(** A scalar argument does not refer into object [t]. *)
Definition not_in (t : nat) (c : sref T) : Prop := forall s s', same_except t s s' -> c s' = c s.

(** A proxy keeps its size. *)
Definition fits (d : dest) (a b a' b' : nat) : Prop :=
  match d with Whole _ => True | Part _ => a' = a /\ b' = b end.

(** Laws of multiplication and conjugation used for the symmetric and hermitian updates. *)
Definition commutes : Prop := forall a b : T, a [*] b = b [*] a.
Record conjugation : Prop := {
  cj_mul : forall a b, b_conj B (a [*] b) = b_conj B a [*] b_conj B b;
  cj_add : forall a b, b_conj B (a [+] b) = b_conj B a [+] b_conj B b;
  cj_zero : b_conj B (v0 (b_v B)) = v0 (b_v B);
  cj_inv : forall a, b_conj B (b_conj B a) = a }.
End Spec.
