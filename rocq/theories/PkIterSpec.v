(** PkIterSpec.v -- what the iterators of the packed containers mean. *)
From Verif Require Import Base LayoutModel PackedModel PackedSpec DMIterModel DMIterSpec MAdaptModel PkIterModel.
Open Scope N_scope.

(** positions of the implicit unit diagonal *)
Definition on_unit (t : tri) (i j : N) : bool :=
  match t with Lo KUnitLower | Up KUnitLower => i =? j | _ => false end.
(** positions the iterators are meant to visit: the const iterators of a triangular matrix everything that is not
    a structural zero, those of symmetric and hermitian matrices everything, mutable ones the stored elements *)
Definition shown (mut : bool) (K : pkind) (p : N * N) : bool :=
  match K with
  | PTri t => storedb t (fst p) (snd p) || negb mut && on_unit t (fst p) (snd p)
  | PSym t | PHer t => negb mut || storedb t (fst p) (snd p)
  | PBand lo up => in_bandb lo up (fst p) (snd p)
  end.
(** elements after every stored position (i, j) was assigned g i j *)
Definition assigned {T} (cj : T -> T) (K : pkind) (g f : N -> N -> T) (i j : N) : T :=
  match K with
  | PTri t => if storedb t i j then g i j else f i j
  | PSym t => if storedb t i j then g i j else g j i
  | PHer t => if storedb t i j then g i j else cj (g j i)
  | PBand lo up => if in_bandb lo up i j then g i j else f i j
  end.

(** a plain lower or upper triangle *)
Definition plain (t : tri) : Prop := t = Lo KLower \/ t = Up KLower.
(** Shapes whose elements can all be accessed: sizes that keep size_type arithmetic in range; unit and strict
    triangular matrices are not empty and, in checked builds, not tall (wide for upper ones); symmetric and
    hermitian matrices are square and use a plain triangle. *)
Definition usable (chk : bool) (l : layout) (K : pkind) (s1 s2 : N) : Prop :=
  match K with
  | PTri t => s1 < 2 ^ 32 /\ s2 < 2 ^ 32 /\
      (plain t \/ 1 <= s1 /\ 1 <= s2 /\ (chk = true -> match t with Lo _ => s1 <= s2 | Up _ => s2 <= s1 end))
  | PSym t | PHer t => plain t /\ s1 = s2 /\ s1 < 2 ^ 32
  | PBand lo up => s1 + s2 + lo + 1 + up < 2 ^ 63 /\ match l with RowMajor => s1 | ColMajor => s2 end * (lo + 1 + up) < 2 ^ 64
  end.
(** Shapes for which iteration is complete: columns of a strict lower triangular matrix (of a unit lower one for
    mutable iterators) only if it has no more rows than columns, and transposed. *)
Definition complete (mut : bool) (K : pkind) (w : dir) (s1 s2 : N) : Prop :=
  match K, w with
  | PTri (Lo k), D2 => k = KLower \/ mut = false /\ k = KUnitLower \/ s1 <= s2
  | PTri (Up k), D1 => k = KLower \/ mut = false /\ k = KUnitLower \/ s2 <= s1
  | _, _ => True
  end.

(** The containers a program can hold: constructed, then written element by element. *)
Inductive built {T} (chk : bool) (l : layout) (K : pkind) (s1 s2 : N) : mat T -> Prop :=
  | built_new fresh m : pk_new chk l K fresh s1 s2 = Ok m -> built chk l K s1 s2 m
  | built_put m i j v m' : built chk l K s1 s2 m -> i < s1 -> j < s2 -> pk_put chk l K m i j v = Ok m' ->
      built chk l K s1 s2 m'.
(** its elements, as read by m (i, j) *)
Definition elements {T} (zero one : T) (cj : T -> T) (chk : bool) (l : layout) (K : pkind) (m : mat T)
    (s1 s2 : N) (f : N -> N -> T) : Prop :=
  forall i j, i < s1 -> j < s2 -> pk_get zero one cj chk l K m i j = Ok (f i j).
