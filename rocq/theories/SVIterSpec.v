(** SVIterSpec.v -- what iterating over a sparse vector is to visit. *)
From Verif Require Import Base MapArraySpec MappedSpec.
Open Scope nat_scope.
(** the stored elements with index in [a, b), as (index, value), by increasing index *)
Definition stored_between {T} (f : fmap T) (a b : nat) : list (nat * T) :=
  flat_map (fun i => match f i with Some x => [(i, x)] | None => [] end) (seq a (b - a)).
(** all of a vector's stored elements *)
Definition all_stored {T} (s : svstate T) : list (nat * T) := stored_between (snd s) 0 (fst s).
(** the vector after every stored element x at index i has become g i x *)
Definition mapped {T} (g : nat -> T -> T) (f : fmap T) : fmap T :=
  fun i => match f i with Some x => Some (g i x) | None => None end.
