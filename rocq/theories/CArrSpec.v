(** CArrSpec.v -- what a vector (matrix) with room for N (N x M) elements is: a size (sizes) and elements, some of which may
    be unspecified (None) because nobody has written them since they came into being. *)
From Verif Require Import Base CArrModel.
Open Scope nat_scope.
Section Spec.
Context {T : Type}.
Variable tzero : T.
Variables chk mvs : bool.
Definition vstate : Type := nat * (nat -> option T).
Definition v_fresh (n : nat) : vstate := (n, fun _ => None).
Definition v_all (n : nat) (g : nat -> T) : vstate := (n, fun i => Some (g i)).
(** the effect of an operation *)
Definition v_after (s : vstate) (p : ca_op T) : vstate :=
  let (n, f) := s in
  match p with
  | CAResize n' => (n', fun i => if i <? Nat.min n n' then f i else None)
  | CASet i x | CAStore i x => (n, fun k => if k =? i then Some x else f k)
  | CAErase i => (n, fun k => if k =? i then Some tzero else f k)
  | CAClear => (n, fun _ => Some tzero)
  | CACont n' g | CAExpr n' g | CASame n' g => v_all n' g
  end.
(** when an operation is legal; in checked builds the temporary an expression is evaluated into is swapped with the vector,
    which requires equal sizes; so does the assignment of a c_vector with move semantics *)
Definition v_legal (N : nat) (s : vstate) (p : ca_op T) : Prop :=
  match p with
  | CAResize n => n <= N
  | CASet i _ | CAStore i _ | CAErase i => i < fst s
  | CAClear => True
  | CACont n _ => n <= N
  | CAExpr n _ => n <= N /\ (chk = true -> n = fst s)
  | CASame n _ => n <= N /\ (chk = true -> mvs = true -> n = fst s)
  end.
Fixpoint v_legal_all (N : nat) (s : vstate) (ops : list (ca_op T)) : Prop :=
  match ops with [] => True | p :: ops => v_legal N s p /\ v_legal_all N (v_after s p) ops end.

Definition mstate : Type := nat * nat * (nat -> nat -> option T).
Definition m_fresh (n1 n2 : nat) : mstate := (n1, n2, fun _ _ => None).
Definition m_all (n1 n2 : nat) (g : nat -> nat -> T) : mstate := (n1, n2, fun i j => Some (g i j)).
Definition m_after (s : mstate) (p : c2_op T) : mstate :=
  let '(n1, n2, f) := s in
  match p with
  | C2Resize n1' n2' preserve => (n1', n2', fun i j => if preserve && (i <? Nat.min n1 n1') && (j <? Nat.min n2 n2') then f i j else None)
  | C2Set i j x | C2Store i j x => (n1, n2, fun a b => if (a =? i) && (b =? j) then Some x else f a b)
  | C2Clear => (n1, n2, fun _ _ => Some tzero)
  | C2Cont n1' n2' g | C2Expr n1' n2' g | C2Same n1' n2' g => m_all n1' n2' g
  end.
(** in checked builds resize (n1, n2, true) is legal only if it changes nothing *)
Definition m_legal (N M : nat) (s : mstate) (p : c2_op T) : Prop :=
  let '(s1, s2, _) := s in
  match p with
  | C2Resize n1 n2 preserve => n1 <= N /\ n2 <= M /\ (chk = true -> preserve = true -> n1 = s1 /\ n2 = s2)
  | C2Set i j _ | C2Store i j _ => i < s1 /\ j < s2
  | C2Clear => True
  | C2Cont n1 n2 _ => n1 <= N /\ n2 <= M
  | C2Expr n1 n2 _ => n1 <= N /\ n2 <= M /\ (chk = true -> n1 = s1 /\ n2 = s2)
  | C2Same n1 n2 _ => n1 <= N /\ n2 <= M /\ (chk = true -> mvs = true -> n1 = s1 /\ n2 = s2)
  end.
Fixpoint m_legal_all (N M : nat) (s : mstate) (ops : list (c2_op T)) : Prop :=
  match ops with [] => True | p :: ops => m_legal N M s p /\ m_legal_all N M (m_after s p) ops end.
End Spec.
