(** TriSpec.v -- what "the selected triangle of A" and "x solves T x = b" mean. *)
From Verif Require Import Base FieldLib LinStore LayoutModel TriModel.
Open Scope nat_scope.

Section Spec.
Context {F : Type} (O : fops F).

(** The matrix T selected by a tag: the lower (upper) triangle of A with its own diagonal, or
    with a diagonal of ones. *)
Definition triangle (tag : ttag) (A : nat -> nat -> F) (i j : nat) : F :=
  match tag with
  | TLower => if j <=? i then A i j else f0 O
  | TUpper => if i <=? j then A i j else f0 O
  | TUnitLower => if j <? i then A i j else if i =? j then f1 O else f0 O
  | TUnitUpper => if i <? j then A i j else if i =? j then f1 O else f0 O
  end.

(** T x = b, for n equations with n unknowns. *)
Definition solves (n : nat) (T : nat -> nat -> F) (x b : nat -> F) : Prop :=
  forall i, i < n -> sumr O 0 n (fun j => fmul O (T i j) (x j)) = b i.
(** x T = b. *)
Definition solves_left (n : nat) (x : nat -> F) (T : nat -> nat -> F) (b : nat -> F) : Prop :=
  forall j, j < n -> sumr O 0 n (fun i => fmul O (x i) (T i j)) = b j.

Definition uses_diag (tag : ttag) : bool :=
  match tag with TLower | TUpper => true | _ => false end.

(** The iterators of an expression may skip only zero elements (dense and packed matrices skip
    nothing but structural zeros, sparse ones nothing but elements that are not stored). *)
Definition skips_only_zeros (e : mexp F) : Prop :=
  forall i j, i < e_1 e -> j < e_2 e -> e_vis e i j = false -> e_at e i j = f0 O.
End Spec.
