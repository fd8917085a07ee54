(** VexSpec.v -- well-formed vector expressions. *)
From Verif Require Import Base AssignModel AssignSpec VexModel.
Open Scope nat_scope.

(** All operands have size n and well-formed iterators (they visit increasing positions and skip only
    zeros; dense ones skip nothing); where the iterators of a node may skip positions, its functor maps
    zeros to zero (true of +, -, negation, conj, t *, / t, element_prod; false of element_div). *)
Fixpoint wf_vex {T} (O : vops T) (n : nat) (e : vex T) : Prop :=
  match e with
  | VLeaf s => s_n s = n /\ wf_src O s
  | VUnary f e1 => wf_vex O n e1 /\ (vcat e <> IDense -> f (v0 O) = v0 O)
  | VBin op e1 e2 => wf_vex O n e1 /\ wf_vex O n e2 /\ (vcat e <> IDense -> op (v0 O) (v0 O) = v0 O)
  | VScal1 op t e1 => wf_vex O n e1 /\ (vcat e <> IDense -> op t (v0 O) = v0 O)
  | VScal2 op e1 t => wf_vex O n e1 /\ (vcat e <> IDense -> op (v0 O) t = v0 O)
  end.

(** Position j is visited by the iterators of an operand of e. *)
Fixpoint touched {T} (e : vex T) (j : nat) : Prop :=
  match e with
  | VLeaf s => In j (s_its s)
  | VUnary _ e1 | VScal1 _ _ e1 | VScal2 _ e1 _ => touched e1 j
  | VBin _ e1 e2 => touched e1 j \/ touched e2 j
  end.
(** No operand is packed. *)
Fixpoint no_packed {T} (e : vex T) : Prop :=
  match e with
  | VLeaf s => s_cat s <> IPacked
  | VUnary _ e1 | VScal1 _ _ e1 | VScal2 _ e1 _ => no_packed e1
  | VBin _ e1 e2 => no_packed e1 /\ no_packed e2
  end.
