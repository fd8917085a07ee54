(** NormSpec.v -- mathematical definitions of the vector and matrix norms. *)
From Verif Require Import Base LinStore NormModel.
Open Scope nat_scope.

(** f 0 + f 1 + ... + f (n-1). *)
Fixpoint sum_to {R} (zero : R) (add : R -> R -> R) (n : nat) (f : nat -> R) : R :=
  match n with 0 => zero | S k => add (sum_to zero add k f) (f k) end.

(** Requirements on the scalars: R is totally ordered by n_lt, 0 is neutral for the additions and
    the absolute value is non-negative and zero exactly at zero. *)
Record scalars {F R} (O : nops F R) : Prop := {
  sc_irr : forall a, n_lt O a a = false;
  sc_trans : forall a b c, n_lt O a b = true -> n_lt O b c = true -> n_lt O a c = true;
  sc_total : forall a b, n_lt O a b = true \/ n_lt O b a = true \/ a = b;
  sc_add0 : forall a, n_add O a (n_0 O) = a;
  sc_fadd0 : forall a, n_fadd O a (n_f0 O) = a;
  sc_mul0 : n_mul O (n_0 O) (n_0 O) = n_0 O;
  sc_abs0 : forall x, n_abs O x = n_0 O <-> x = n_f0 O;
  sc_abs : forall x, n_lt O (n_abs O x) (n_0 O) = false }.

(** The iterators of the expression skip only zeros. *)
Definition vskips {F R} (O : nops F R) (e : vexp F) : Prop :=
  forall i, i < x_n e -> x_vis e i = false -> x_at e i = n_f0 O.

Definition le {F R} (O : nops F R) (a b : R) : Prop := n_lt O b a = false.

(** m is the maximum of f 0, ..., f (n-1), or zero for n = 0. *)
Definition is_max {F R} (O : nops F R) (n : nat) (f : nat -> R) (m : R) : Prop :=
  (forall i, i < n -> le O (f i) m) /\
  (n = 0 -> m = n_0 O) /\
  (n <> 0 -> exists i, i < n /\ m = f i).
