(** TensorSpec.v -- vocabulary for stating the tensor properties: multi-indices, offsets, orders
    and sums.  Nothing here refers to the model of the library. *)
From Verif Require Import Base.
From Coq Require Import Permutation.
Open Scope nat_scope.

(** A multi-index is in range of a shape when each component is below the extent. *)
Definition in_range (e i : list nat) : Prop := Forall2 lt i e.

(** The number of elements of a shape (true product, no wrap around). *)
Fixpoint elements (e : list nat) : nat :=
  match e with [] => 1 | n :: e' => n * elements e' end.

(** First-order (column-major) and last-order (row-major) position of a multi-index. *)
Fixpoint colmajor (e i : list nat) : nat :=
  match e, i with n :: e', x :: i' => x + n * colmajor e' i' | _, _ => 0 end.
Fixpoint rowmajor (e i : list nat) : nat :=
  match e, i with n :: e', x :: i' => x * elements e' + rowmajor e' i' | _, _ => 0 end.

(** Offset of a multi-index for given strides. *)
Fixpoint off (w i : list nat) : nat :=
  match w, i with y :: w', x :: i' => x * y + off w' i' | _, _ => 0 end.

(** The strides address distinct cells of a buffer of [len] cells. *)
Definition addresses (e w : list nat) (len : nat) : Prop :=
  length w = length e /\
  (forall i, in_range e i -> off w i < len) /\
  (forall i j, in_range e i -> in_range e j -> off w i = off w j -> i = j).

(** All in-range multi-indices, first component slowest. *)
Fixpoint idxs (e : list nat) : list (list nat) :=
  match e with
  | [] => [[]]
  | n :: e' => flat_map (fun d => map (cons d) (idxs e')) (seq 0 n)
  end.

(** A permutation tuple of 1..p. *)
Definition perm_tuple (p : nat) (pi : list nat) : Prop := Permutation pi (seq 1 p).

(** [gather pi l]: the list whose x-th entry is entry number pi[x] (one-based) of l. *)
Definition gather (pi l : list nat) : list nat := map (fun t => nth (t - 1) l 0) pi.

(** Multi-index with [k] inserted at position [m]; with component [m] replaced by [k]. *)
Definition insert_at (m k : nat) (i : list nat) : list nat := firstn m i ++ k :: skipn m i.
Definition replace_at (m k : nat) (i : list nat) : list nat := firstn m i ++ k :: skipn (S m) i.

(** [add init (f x1)] then [(f x2)] ... in this order. *)
Definition sum_from {V X} (add : V -> V -> V) (init : V) (f : X -> V) (l : list X) : V :=
  fold_left (fun s x => add s (f x)) l init.

(** Zero-based selection: the entries of [l] at the positions listed in [s]. *)
Definition sel (s l : list nat) : list nat := map (fun k => nth k l 0) s.

(** Position of the first occurrence of [t] in [l]. *)
Fixpoint find_pos (t : nat) (l : list nat) : nat :=
  match l with [] => 0 | x :: l' => if x =? t then 0 else S (find_pos t l') end.

(** [scatter pi l]: the list whose entry number pi[x] (one-based) is entry x of [l]; the inverse
    of [gather pi] when [pi] is a permutation tuple. *)
Definition scatter (pi l : list nat) : list nat :=
  map (fun t => nth (find_pos t pi) l 0) (seq 1 (length pi)).

(** All in-range multi-indices, last component slowest. *)
Definition idxs_last (e : list nat) : list (list nat) := map (@rev nat) (idxs (rev e)).

(** The strides keep every in-range index inside a buffer of [len] cells. *)
Definition within (e w : list nat) (len : nat) : Prop :=
  length w = length e /\ (forall i, in_range e i -> off w i < len).

(** The cells of a buffer that no in-range index addresses are unchanged. *)
Definition frame {V} (e w : list nat) (C C' : list V) : Prop :=
  length C' = length C /\
  (forall k, (forall i, in_range e i -> off w i <> k) -> nth_error C' k = nth_error C k).

(** A list without entry number [m]. *)
Definition remove_at (m : nat) (l : list nat) : list nat := firstn m l ++ skipn (S m) l.

(** Shapes of rank 0 and 1 are padded with ones to rank 2, their indices with zeros. *)
Definition pad2 (e : list nat) : list nat := e ++ repeat 1 (2 - length e).
Definition padi (i : list nat) : list nat := i ++ repeat 0 (2 - length i).

(** Every extent is below 2^32. *)
Definition ext32 (n : list nat) : Prop := Forall (fun x => (N.of_nat x < 2 ^ 32)%N) n.

(** The modes 1..p that are not in [phi], in ascending order. *)
Definition free (p : nat) (phi : list nat) : list nat :=
  filter (fun t => negb (existsb (Nat.eqb t) phi)) (seq 1 p).

(** Index labels: [common la lb] are the labels of [la] that also occur in [lb], [only la lb] the
    others. *)
Definition common (la lb : list nat) : list nat := filter (fun x => existsb (Nat.eqb x) lb) la.
Definition only (la lb : list nat) : list nat := filter (fun x => negb (existsb (Nat.eqb x) lb)) la.

(** [s] with the labels [cl] bound to the values [k]. *)
Definition bind_labels (cl k : list nat) (s : nat -> nat) (x : nat) : nat :=
  if existsb (Nat.eqb x) cl then nth (find_pos x cl) k 0 else s x.
