(** MexSpec.v -- well-formed matrix expressions. *)
From Coq Require Import Sorted.
From Verif Require Import Base AssignModel AssignSpec VexModel VexSpec MAssignModel MAssignSpec MexModel.
Open Scope nat_scope.

(** Dense iterators of e leave nothing out: the outer iterators (rank1 = false), and the iterators inside a
    line (rank1 = true).  Only outer products may have dense iterators that skip: their lines are empty where
    the other operand has a zero, and there are no lines when the other operand is empty. *)
Fixpoint solid {T} (O : vops T) (rank1 : bool) (e : mex T) : Prop :=
  match e with
  | MLeaf _ => True
  | MUnary _ e1 | MTrans _ e1 | MScal1 _ _ e1 | MScal2 _ e1 _ => solid O rank1 e1
  | MBin _ _ _ => True
  | MOuter _ v1 v2 => 0 < vdim v1 /\ 0 < vdim v2 /\
      (rank1 = true -> (forall i, i < vdim v1 -> vx_at v1 i <> v0 O) /\ (forall j, j < vdim v2 -> vx_at v2 j <> v0 O))
  | MProd e1 e2 => solid O false e1 /\ solid O false e2
  end.

(** The outer iterators in direction d visit every line. *)
Fixpoint full {T} (d : axis) (e : mex T) : Prop :=
  match e with
  | MLeaf m => lvisits m d false 0 = seq 0 (mdim e d)
  | MUnary _ e1 | MScal1 _ _ e1 | MScal2 _ e1 _ => full d e1
  | MTrans _ e1 => full (other d) e1
  | MBin _ e1 e2 => full d e1 \/ full d e2
  | MOuter _ v1 v2 => mcat e d = IDense /\ 0 < vdim v1 /\ 0 < vdim v2
  | MProd e1 e2 => match d with A1 => full A1 e1 | A2 => full A2 e2 end
  end.
(** The iterators of every line can be asked for.  A product has no iterators for the lines its own operand
    does not visit. *)
Fixpoint total {T} (e : mex T) : Prop :=
  match e with
  | MLeaf _ | MBin _ _ _ | MOuter _ _ _ => True
  | MUnary _ e1 | MTrans _ e1 | MScal1 _ _ e1 | MScal2 _ e1 _ => total e1
  | MProd e1 e2 => full A1 e1 /\ full A2 e2
  end.
(** Looking for a visited line finds it (a sum of packed expressions also visits what lies between them). *)
Fixpoint vsteady {T} (v : vex T) : Prop :=
  match v with
  | VLeaf _ => True
  | VUnary _ v1 | VScal1 _ _ v1 | VScal2 _ v1 _ => vsteady v1
  | VBin _ v1 v2 => vcat v <> IPacked /\ vsteady v1 /\ vsteady v2
  end.
Fixpoint steady {T} (d : axis) (e : mex T) : Prop :=
  match e with
  | MLeaf _ => True
  | MUnary _ e1 | MScal1 _ _ e1 | MScal2 _ e1 _ => steady d e1
  | MTrans _ e1 => steady (other d) e1
  | MBin _ e1 e2 => full d e \/ (mcat e d <> IPacked /\ steady d e1 /\ steady d e2)
  | MOuter _ v1 v2 => match d with A1 => vsteady v1 | A2 => vsteady v2 end
  | MProd e1 e2 => match d with A1 => steady A1 e1 | A2 => steady A2 e2 end
  end.

(** The containers have well-formed iterators (MAssignSpec, VexSpec), the sizes of operands agree; functors map
    zeros to zero unless nothing is skipped; operands of sums have iterators for every line. *)
Fixpoint wf_mex {T} (O : vops T) (e : mex T) : Prop :=
  match e with
  | MLeaf m => wf_mexp O m
  | MUnary f e1 | MTrans f e1 => wf_mex O e1 /\ (mcat e1 A1 = IDense /\ solid O true e1 \/ f (v0 O) = v0 O)
  | MScal1 op t e1 => wf_mex O e1 /\ (mcat e1 A1 = IDense /\ solid O true e1 \/ op t (v0 O) = v0 O)
  | MScal2 op e1 t => wf_mex O e1 /\ (mcat e1 A1 = IDense /\ solid O true e1 \/ op (v0 O) t = v0 O)
  | MBin op e1 e2 => wf_mex O e1 /\ wf_mex O e2 /\ mdim e1 A1 = mdim e2 A1 /\ mdim e1 A2 = mdim e2 A2 /\
      total e1 /\ total e2 /\
      (mcat e A1 = IDense /\ solid O true e1 /\ solid O true e2 \/ mcat e A1 <> IDense /\ op (v0 O) (v0 O) = v0 O)
  | MOuter op v1 v2 => wf_vex O (vdim v1) v1 /\ wf_vex O (vdim v2) v2 /\
      (forall x, op (v0 O) x = v0 O) /\ (forall x, op x (v0 O) = v0 O)
  | MProd e1 e2 => wf_mex O e1 /\ wf_mex O e2 /\ mdim e1 A2 = mdim e2 A1 /\ steady A1 e1 /\ steady A2 e2
  end.

(** Position p (of line c) is visited by the iterators of an operand of e. *)
Fixpoint mtouched {T} (e : mex T) (d : axis) (rank1 : bool) (c p : nat) : Prop :=
  match e with
  | MLeaf m => In p (lvisits m d rank1 c)
  | MUnary _ e1 | MScal1 _ _ e1 | MScal2 _ e1 _ => mtouched e1 d rank1 c p
  | MTrans _ e1 => mtouched e1 (other d) rank1 c p
  | MBin _ e1 e2 => mtouched e1 d rank1 c p \/ mtouched e2 d rank1 c p
  | MOuter _ v1 v2 => match d with A1 => touched v1 p | A2 => touched v2 p end
  | MProd e1 e2 => match d with A1 => mtouched e1 A1 false 0 p | A2 => mtouched e2 A2 false 0 p end
  end.
(** No operand is packed. *)
Fixpoint mno_packed {T} (e : mex T) : Prop :=
  match e with
  | MLeaf m => e_c1 m <> IPacked /\ e_c2 m <> IPacked
  | MUnary _ e1 | MTrans _ e1 | MScal1 _ _ e1 | MScal2 _ e1 _ => mno_packed e1
  | MBin _ e1 e2 | MProd e1 e2 => mno_packed e1 /\ mno_packed e2
  | MOuter _ v1 v2 => no_packed v1 /\ no_packed v2
  end.

(** What a loop over the outer iterators, and inside each line over its iterators, reports about an n1 x n2
    array f: lines and positions in increasing order, without repetition, inside the array; the value of f
    at each of them; what is not reported is zero. *)
Definition reports {T} (O : vops T) (n1 n2 : nat) (f : nat -> nat -> T) (r : list (nat * list (nat * T))) : Prop :=
  exists L R, r = map (fun i => (i, map (fun j => (j, f i j)) (R i))) L /\
    StronglySorted lt L /\ (forall i, In i L -> i < n1) /\
    (forall i, In i L -> StronglySorted lt (R i) /\ forall j, In j (R i) -> j < n2) /\
    (forall i j, i < n1 -> j < n2 -> ~ (In i L /\ In j (R i)) -> f i j = v0 O).
