(** SpecialSpec.v -- what the vectors and matrices without storage are.  f gives the elements a vector or matrix lists when
    it is iterated over (None: an implied zero). *)
From Verif Require Import Base CMatSpec.
Open Scope nat_scope.
Section Spec.
Context {T : Type}.
Definition read (tzero : T) (x : option T) : T := match x with Some v => v | None => tzero end.
(** the listed elements with index in [a, b), by increasing index *)
Definition listed (f : nat -> option T) (a b : nat) : list (nat * T) :=
  flat_map (fun i => match f i with Some x => [(i, x)] | None => [] end) (seq a (b - a)).
Definition zeros : nat -> option T := fun _ => None.
Definition one_at (tone : T) (k : nat) : nat -> option T := fun i => if i =? k then Some tone else None.
Definition all_of (x : T) : nat -> option T := fun _ => Some x.
Definition no_elements : gmap T := fun _ _ => None.
Definition diagonal (tone : T) : gmap T := fun i j => if i =? j then Some tone else None.
Definition every (x : T) : gmap T := fun _ _ => Some x.
End Spec.
