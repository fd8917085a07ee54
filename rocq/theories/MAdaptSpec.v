(** MAdaptSpec.v -- what triangular_adaptor and banded_adaptor mean, in terms of the underlying elements. *)
From Verif Require Import Base LayoutModel PackedSpec DMIterModel DMIterSpec MAdaptModel.
Open Scope N_scope.

(** positions taken from the underlying matrix *)
Definition taken (A : adaptor) (i j : N) : bool :=
  match A with ATri t => storedb t i j | ABand lo up => in_bandb lo up i j end.
(** positions of the implicit unit diagonal *)
Definition unit_pos (A : adaptor) (i j : N) : bool :=
  match A with ATri (Lo KUnitLower) | ATri (Up KUnitLower) => i =? j | _ => false end.
(** the matrix the adaptor stands for *)
Definition adapted {T} (zero one : T) (A : adaptor) (f : N -> N -> T) (i j : N) : T :=
  if taken A i j then f i j else if unit_pos A i j then one else zero.
(** positions the const iterators are meant to visit, and those the mutable ones are *)
Definition visible (mut : bool) (A : adaptor) (p : N * N) : bool :=
  taken A (fst p) (snd p) || negb mut && unit_pos A (fst p) (snd p).

(** Shapes for which iteration works.  Rows of a lower (columns of an upper) triangular adaptor: any shape, but
    strict ones (and unit ones, for mutable iterators) need at least one line.  Columns of a lower triangular
    adaptor: at most one column more than rows, and, where the first row is skipped, at least as many columns as
    rows.  Banded adaptors: any shape. *)
Definition along (k : lkind) (mut : bool) (n : N) : Prop := gskip mut k = true -> 1 <= n.
Definition across (k : lkind) (mut : bool) (rows cols : N) : Prop :=
  cols <= rows + 1 /\ (gskip mut k = true -> 1 <= cols /\ rows <= cols).
Definition regular (mut : bool) (A : adaptor) (w : dir) (s1 s2 : N) : Prop :=
  match A, w with
  | ATri (Lo k), D1 => along k mut s1
  | ATri (Lo k), D2 => across k mut s1 s2
  | ATri (Up k), D1 => across k mut s2 s1
  | ATri (Up k), D2 => along k mut s2
  | ABand lo up, _ => s1 + s2 + lo + up < 2 ^ 63
  end.
(** band widths that leave the index arithmetic within range *)
Definition fits (A : adaptor) (s1 s2 : N) : Prop :=
  match A with ATri _ => True | ABand lo up => s1 + s2 + lo + up < 2 ^ 63 end.
