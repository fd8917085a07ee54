(** PackedSpec.v -- what a user expects of a matrix container: it is a function of (i,j), and
    operations update that function.  Independent of storage. *)
From Verif Require Import Base LayoutModel.
Open Scope N_scope.

(** Which positions a triangular kind stores / reads as one (mathematical definition). *)
Definition stored (t : tri) (i j : N) : Prop :=
  match t with
  | Lo KLower => j <= i | Lo _ => j < i
  | Up KLower => i <= j | Up _ => i < j
  end.
Definition storedb (t : tri) (i j : N) : bool :=
  match t with
  | Lo KLower => j <=? i | Lo _ => j <? i
  | Up KLower => i <=? j | Up _ => i <? j
  end.
(** Positions inside a band with [lo] sub- and [up] super-diagonals. *)
Definition in_bandb (lo up i j : N) : bool := (j <=? i + up) && (i <=? j + lo).
Definition unit_diagonal (t : tri) (i j : N) : Prop :=
  match t with
  | Lo KUnitLower | Up KUnitLower => i = j
  | _ => False
  end.
(** Stored positions that can be accessed: all of them in an unchecked build; a checked build rejects the
    last column of tall unit/strict lower matrices and the last row of wide unit/strict upper ones. *)
Definition addressable (chk : bool) (t : tri) (s1 s2 i j : N) : Prop :=
  stored t i j /\
  (chk = true -> match t with
                 | Lo KLower | Up KLower => True
                 | Lo _ => j + 1 <> s2
                 | Up _ => i + 1 <> s1
                 end).
(** Number of stored positions of a square matrix of order n. *)
Definition stored_count (t : tri) (n : N) : N :=
  match t with Lo KLower | Up KLower => (n + 1) * n / 2 | _ => n * (n - 1) / 2 end.

Section Spec.
Variable T : Type.

(** Element operations of the matrix API. *)
Inductive mop := MSet (i j : N) (v : T) | MErase (i j : N) | MClear.

Definition at_pos (i j i' j' : N) : bool := (i =? i') && (j =? j').

(** Plain function update: m(i,j) = v. *)
Definition upd_plain (zero : T) (f : N -> N -> T) (o : mop) : N -> N -> T :=
  match o with
  | MSet i j v => fun i' j' => if at_pos i j i' j' then v else f i' j'
  | MErase i j => fun i' j' => if at_pos i j i' j' then zero else f i' j'
  | MClear => fun _ _ => zero
  end.
(** Symmetric update: m(i,j) = m(j,i) = v. *)
Definition upd_sym (zero : T) (f : N -> N -> T) (o : mop) : N -> N -> T :=
  match o with
  | MSet i j v => fun i' j' => if at_pos i j i' j' || at_pos j i i' j' then v else f i' j'
  | MErase i j => fun i' j' => if at_pos i j i' j' || at_pos j i i' j' then zero else f i' j'
  | MClear => fun _ _ => zero
  end.
(** Hermitian update: m(i,j) = v, m(j,i) = conj v. *)
Definition upd_her (conj : T -> T) (zero : T) (f : N -> N -> T) (o : mop) : N -> N -> T :=
  match o with
  | MSet i j v => fun i' j' =>
      if at_pos i j i' j' then v else if at_pos j i i' j' then conj v else f i' j'
  | MErase i j => fun i' j' => if at_pos i j i' j' || at_pos j i i' j' then zero else f i' j'
  | MClear => fun _ _ => zero
  end.
(** Update of a matrix in which only [keep] positions are variable: clear leaves the others. *)
Definition upd_masked (keep : N -> N -> bool) (zero : T) (f : N -> N -> T) (o : mop) : N -> N -> T :=
  match o with
  | MClear => fun i' j' => if keep i' j' then zero else f i' j'
  | _ => upd_plain zero f o
  end.
End Spec.
Arguments MSet {T}. Arguments MErase {T}. Arguments MClear {T}.
Arguments upd_plain {T}. Arguments upd_sym {T}. Arguments upd_her {T}. Arguments upd_masked {T}.

Definition op_pos {T} (o : mop T) (P : N -> N -> Prop) : Prop :=
  match o with MSet i j _ | MErase i j => P i j | MClear => True end.
