(** OperSpec.v -- what a product kernel must compute. *)
From Verif Require Import Base AssignModel AssignSpec MAssignModel MAssignSpec.
Open Scope nat_scope.

(** s + x (0) y (0) + ... + x (n-1) y (n-1), added from the left. *)
Fixpoint dot_from {T} (O : vops T) (s : T) (n : nat) (x y : nat -> T) : T :=
  match n with 0 => s | S n => vadd O (dot_from O s n x y) (vmul O (x n) (y n)) end.

(** Multiplication commutes (needed where a kernel multiplies the operands in the other order). *)
Definition mul_comm {T} (O : vops T) : Prop := forall a b, vmul O a b = vmul O b a.
(** Addition is associative (needed where partial sums are added). *)
Definition add_assoc {T} (O : vops T) : Prop := forall a b c, vadd O a (vadd O b c) = vadd O (vadd O a b) c.

Definition add_comm {T} (O : vops T) : Prop := forall a b, vadd O a b = vadd O b a.
Definition distr {T} (O : vops T) : Prop := forall a b c, vmul O (vadd O a b) c = vadd O (vmul O a c) (vmul O b c).

(** Element (i, j) of a coordinate_matrix with the entries A: the sum of its entries. *)
Fixpoint csum {T} (O : vops T) (A : list (nat * nat * T)) (i j : nat) : T :=
  match A with
  | [] => v0 O
  | (a, b, t) :: A => if (i =? a) && (j =? b) then vadd O t (csum O A i j) else csum O A i j
  end.

(** A packed matrix m has room for every position a kernel may write. *)
Definition may_store {T} (R : nat -> nat -> bool) (m : mtg T) : Prop :=
  icat_of (g_sc m) = IPacked -> forall i j, i < g_1 m -> j < g_2 m -> R i j = true -> g_st m i j = true.

(** v' and m' are the results: of the same size and kind as v and m, well formed, with the given elements. *)
Definition vresult {T} (O : vops T) (v : tgt T) (f : nat -> T) (v' : tgt T) : Prop :=
  t_n v' = t_n v /\ t_sc v' = t_sc v /\ wf_tgt O v' /\ forall i, i < t_n v -> t_at v' i = f i.
Definition mresult {T} (O : vops T) (m : mtg T) (f : nat -> nat -> T) (m' : mtg T) : Prop :=
  g_1 m' = g_1 m /\ g_2 m' = g_2 m /\ g_sc m' = g_sc m /\ g_or m' = g_or m /\ wf_mtg O m' /\
  forall i j, i < g_1 m -> j < g_2 m -> g_at m' i j = f i j.
