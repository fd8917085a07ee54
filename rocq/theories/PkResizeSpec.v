(** PkResizeSpec.v -- a packed matrix as its sizes and a partial function: None is an element about which nothing is said
    (it was never written since the storage was obtained). *)
From Verif Require Import Base LayoutModel PackedModel PackedSpec PackedSeq PkResizeModel.
Open Scope N_scope.

Section Spec.
Context {T : Type}.
Notation pstate := (N * (N -> N -> option T))%type.
Definition known (o : mop T) : mop (option T) :=
  match o with MSet i j v => MSet i j (Some v) | MErase i j => MErase i j | MClear => MClear end.
(** what lies in both squares stays, the rest becomes x *)
Definition cut (n k : N) (x : option T) (f : N -> N -> option T) : N -> N -> option T :=
  fun i j => if (i <? N.min n k) && (j <? N.min n k) then f i j else x.
(** [upd]: what an element operation does (upd_plain, upd_sym, upd_her of PackedSpec) *)
Definition pk_after (zero : T) (upd : option T -> (N -> N -> option T) -> mop (option T) -> N -> N -> option T) (s : pstate) (o : pkop T) : pstate :=
  match o with
  | PElem o => (fst s, upd (Some zero) (snd s) (known o))
  | PResize k => (k, cut (fst s) k None (snd s))
  | PRenew k _ => (k, fun _ _ => None)
  | PGrow k => (k, cut (fst s) k (Some zero) (snd s))
  end.
(** packings in which the address of an element does not depend on the order of the matrix *)
Definition growing (t : tri) (l : layout) : Prop :=
  match t, l with Lo _, RowMajor | Up _, ColMajor => True | _, _ => False end.
(** legal calls: [elem n] on element operations; orders below 2^32, unit and strict kinds not empty; resize_packed_preserve
    only where it is able to preserve *)
Definition pk_order_ok (t : tri) (k : N) : Prop := k < 4294967296 /\ match t with Lo KLower | Up KLower => True | _ => 0 < k end.
Fixpoint pk_legal (t : tri) (l : layout) (elem : N -> mop T -> Prop) (n : N) (ops : list (pkop T)) : Prop :=
  match ops with
  | [] => True
  | PElem o :: ops => elem n o /\ pk_legal t l elem n ops
  | PResize k :: ops | PRenew k _ :: ops => pk_order_ok t k /\ pk_legal t l elem k ops
  | PGrow k :: ops => growing t l /\ pk_order_ok t k /\ pk_legal t l elem k ops
  end.
(** element (i, j) is defined, and is x if x is known *)
Definition shows (r : res T) (x : option T) : Prop := exists v, r = Ok v /\ (forall y, x = Some y -> v = y).

(** banded matrices *)
Record bstate := BState { b_1 : N; b_2 : N; b_lo : N; b_up : N; b_f : N -> N -> option T }.
Definition b_inside (s : bstate) (i j : N) : Prop := (i < b_1 s /\ j < b_2 s) /\ in_bandb (b_lo s) (b_up s) i j = true.
Definition b_fits (s1 s2 lo up : N) : Prop := s1 + s2 + (lo + 1 + up) < W /\ N.max s1 s2 * (lo + 1 + up) < W.
Definition bd_after (zero : T) (s : bstate) (o : bdop T) : bstate :=
  match o with
  | BElem o => BState (b_1 s) (b_2 s) (b_lo s) (b_up s) (upd_plain (Some zero) (b_f s) (known o))
  | BRenew k1 k2 lo up _ => BState k1 k2 lo up (fun _ _ => None)
  | BGrow k1 k2 lo up => BState k1 k2 lo up
      (fun i j => if (i <? N.min (b_1 s) k1) && (j <? N.min (b_2 s) k2) then b_f s i j else None)
  end.
(** resize_packed_preserve must not change the number of diagonals *)
Fixpoint bd_legal (zero : T) (s : bstate) (ops : list (bdop T)) : Prop :=
  match ops with
  | [] => True
  | o :: rest =>
      match o with
      | BElem o => op_pos o (b_inside s)
      | BRenew k1 k2 lo up _ => b_fits k1 k2 lo up
      | BGrow k1 k2 lo up => b_fits k1 k2 lo up /\ lo = b_lo s /\ up = b_up s
      end /\ bd_legal zero (bd_after zero s o) rest
  end.
End Spec.
