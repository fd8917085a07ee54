(** SViewSpec.v -- matrices in compressed row (column) storage. *)
From Verif Require Import Base LayoutModel CMatSpec SViewModel.
Open Scope nat_scope.

Definition minor (l : layout) (i j : nat) : nat := match l with RowMajor => j | ColMajor => i end.

Section Spec.
Variable T : Type.
Variable IB : nat.
Variable l : layout.

(** position k of the index and value arrays belongs to line r (a row for row_major, a column for column_major) *)
Definition in_line (m : sview T) (r k : nat) : Prop :=
  exists a b, nth_error (sv_ia m) r = Some a /\ nth_error (sv_ia m) (r + 1) = Some b /\ a <= k + IB < b.
(** the arrays list element (i, j) at position k with value x *)
Definition listed (m : sview T) (i j k : nat) (x : T) : Prop :=
  in_line m (line l i j) k /\ nth_error (sv_ja m) k = Some (minor l i j + IB) /\ nth_error (sv_va m) k = Some x.
(** the arrays hold a matrix in compressed storage: one start per line and the end, in increasing order, index and
    value arrays long enough, the indices within a line in increasing order *)
Definition crs (m : sview T) : Prop :=
  (forall r, r <= line l (sv_s1 m) (sv_s2 m) -> exists a, nth_error (sv_ia m) r = Some a /\ IB <= a) /\
  (forall r a b, r < line l (sv_s1 m) (sv_s2 m) -> nth_error (sv_ia m) r = Some a -> nth_error (sv_ia m) (r + 1) = Some b -> a <= b) /\
  nth_error (sv_ia m) (line l (sv_s1 m) (sv_s2 m)) = Some (sv_nnz m + IB) /\
  sv_nnz m <= length (sv_ja m) /\ sv_nnz m <= length (sv_va m) /\
  (forall r k k' c c', r < line l (sv_s1 m) (sv_s2 m) -> in_line m r k -> in_line m r k' -> k < k' ->
     nth_error (sv_ja m) k = Some c -> nth_error (sv_ja m) k' = Some c' -> c < c').

(** Packing lines of (index, value) pairs the way compressed storage prescribes. *)
Fixpoint starts (n : nat) (rows : list (list (nat * T))) : list nat :=
  match rows with [] => [n] | r :: rows => n :: starts (n + length r) rows end.
Definition packed (s1 s2 : nat) (rows : list (list (nat * T))) : sview T :=
  SView s1 s2 (length (concat rows)) (starts IB rows) (map (fun c => fst c + IB) (concat rows)) (map snd (concat rows)).
(** what they mean *)
Fixpoint lookup (c : nat) (r : list (nat * T)) : option T :=
  match r with [] => None | (c', x) :: r => if c' =? c then Some x else lookup c r end.
Definition increasing (r : list (nat * T)) : Prop :=
  forall a b x y, a < b -> nth_error r a = Some x -> nth_error r b = Some y -> fst x < fst y.
End Spec.
Arguments in_line {T}. Arguments listed {T}. Arguments crs {T}. Arguments starts {T}. Arguments packed {T}. Arguments lookup {T}. Arguments increasing {T}.
