(** StorageSpec.v -- what a user expects of a resizable array: a list of values, some of which are
    unspecified ([None]). *)
From Verif Require Import Base StorageModel.

Section Spec.
Context {T : Type}.
(** contents of an array: [Some v] = holds v, [None] = exists but value unspecified *)
Definition contents := list (option T).

(** resize (n, v): keep the first min(old, n), fill the rest with v *)
Definition sresize_init (n : nat) (v : T) (l : contents) : contents :=
  firstn n l ++ repeat (Some v) (n - length l).
(** resize (n) without preservation: same size = nothing happens; else all values unspecified *)
Definition sresize (n : nat) (l : contents) : contents :=
  if Nat.eqb n (length l) then l else repeat None n.

Definition sstep (p : contents * contents) (o : aop T) : contents * contents :=
  match o with
  | AResize w n => put w (sresize n (sel w p)) p
  | AResizeInit w n v => put w (sresize_init n v (sel w p)) p
  | ASet w i v => put w (upd i (Some v) (sel w p)) p
  | AAssign w | ACopyCtor w => put w (sel (other w) p) p
  | ASelfAssign _ => p
  | ASwap => (snd p, fst p)
  end.

(** A real array agrees with a specified one when every specified value is there. *)
Definition agrees (s : contents) (l : list T) : Prop :=
  Forall2 (fun o v => match o with Some x => v = x | None => True end) s l.

(** Calls whose arguments are in the documented domain in state [p] *)
Definition svalid (p : contents * contents) (o : aop T) : Prop :=
  match o with ASet w i _ => i < length (sel w p) | _ => True end.
Fixpoint svalids (ops : list (aop T)) (p : contents * contents) : Prop :=
  match ops with [] => True | o :: r => svalid p o /\ svalids r (sstep p o) end.

(** bounded arrays of capacity N: the exception a call must raise, if any *)
Definition sexn (N : nat) (p : contents * contents) (o : aop T) : option exn :=
  match o with
  | AResize _ n | AResizeInit _ n _ => if Nat.leb n N then None else Some bad_size
  | ASet w i _ => if Nat.ltb i (length (sel w p)) then None else Some bad_index
  | _ => None
  end.
(** ... and a call that raises leaves both arrays as they were *)
Definition bstep (N : nat) (p : contents * contents) (o : aop T) : res unit * (contents * contents) :=
  match sexn N p o with Some e => (Throw e, p) | None => (Ok tt, sstep p o) end.
Fixpoint brun (N : nat) (ops : list (aop T)) (p : contents * contents)
  : list (res unit) * (contents * contents) :=
  match ops with
  | [] => ([], p)
  | o :: ops => let '(r, p1) := bstep N p o in
                let '(rs, p2) := brun N ops p1 in (r :: rs, p2)
  end.
End Spec.
Arguments contents : clear implicits.
