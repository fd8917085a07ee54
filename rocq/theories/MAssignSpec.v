(** MAssignSpec.v -- well-formed matrix expressions and matrix targets. *)
From Coq Require Import Sorted.
From Verif Require Import Base AssignModel AssignSpec MAssignModel.
Open Scope nat_scope.

(** The iterators of an expression, row by row: the visited rows are in increasing order, inside the
    matrix (all rows if dense, an interval if packed); so are the visited columns of each row; what is
    not visited is zero. *)
Definition wf_rows {T} (O : vops T) (e : mexp T) : Prop :=
  visits_ok (e_c1 e) (e_1 e) (e_rows e) /\
  (forall i, i < e_1 e -> visits_ok (e_c2 e) (e_2 e) (e_row e i)) /\
  (forall i j, i < e_1 e -> j < e_2 e -> ~ (In i (e_rows e) /\ In j (e_row e i)) -> e_at e i j = v0 O).
(** ... and column by column; both iterators have the same category, as in every container and
    expression of the library. *)
Definition wf_mexp {T} (O : vops T) (e : mexp T) : Prop :=
  e_c1 e = e_c2 e /\ wf_rows O e /\ wf_rows O (e_tr e).

Definition inside {T} (m : mtg T) (st : nat -> nat -> bool) : Prop :=
  forall i j, st i j = true -> i < g_1 m /\ j < g_2 m.
(** The outer iterators visit rows inside the matrix in order, among them every row with a stored
    element; each row is visited in order (completely if dense, an interval if packed). *)
Definition wf_lines {T} (m : mtg T) : Prop :=
  inside m (g_st m) /\
  (forall i, i < g_1 m -> visits_ok (icat_of (g_sc m)) (g_2 m) (t_its (g_line m i))) /\
  (forall st, inside m st -> visits_ok (icat_of (g_sc m)) (g_1 m) (g_out1 m st) /\
                             forall i j, st i j = true -> In i (g_out1 m st)).
Definition wf_mtg {T} (O : vops T) (m : mtg T) : Prop :=
  wf_lines m /\ wf_lines (g_tr m) /\
  forall i j, i < g_1 m -> j < g_2 m -> g_st m i j = false -> g_at m i j = v0 O.

(** A packed target cannot hold nonzero values outside its stored part. *)
Definition mfits {T} (O : vops T) (m : mtg T) (e : mexp T) : Prop :=
  icat_of (g_sc m) = IPacked ->
  forall i j, i < g_1 m -> j < g_2 m -> g_st m i j = false -> e_at e i j = v0 O.

(** m (i, j) op= y (i, j) at every position; size and kind of m do not change. *)
Definition melementwise {T} (O : vops T) (f : afun) (m : mtg T) (y : nat -> nat -> T) (m' : mtg T) : Prop :=
  g_1 m' = g_1 m /\ g_2 m' = g_2 m /\ g_sc m' = g_sc m /\ g_or m' = g_or m /\
  forall i j, i < g_1 m -> j < g_2 m -> g_at m' i j = fapply O f (g_at m i j) (y i j).
