(** MMIterSpec.v -- the order in which the nested iterator loops over a mapped_matrix visit its elements. *)
From Verif Require Import Base CMIterModel MMIterModel.
Open Scope N_scope.
Section Spec.
Context {T : Type}.
(** 0, 1, ..., n - 1 *)
Definition upto (n : N) : list N := map N.of_nat (seq 0 (N.to_nat n)).
(** the positions of line o in direction w: row o for w = Ax2 (iterator2), column o for w = Ax1 (iterator1) *)
Definition nline (w : axis) (o s1 s2 : N) : list (N * N) :=
  match w with
  | Ax1 => map (fun i => (i, o)) (upto s1)
  | Ax2 => map (fun j => (o, j)) (upto s2)
  end.
(** all positions, row by row (outer loop over iterator1) or column by column (outer loop over iterator2) *)
Definition nall (w : axis) (s1 s2 : N) : list (N * N) :=
  match w with
  | Ax1 => flat_map (fun i => map (fun j => (i, j)) (upto s2)) (upto s1)
  | Ax2 => flat_map (fun j => map (fun i => (i, j)) (upto s1)) (upto s2)
  end.
(** those that are stored, with their values *)
Definition nkeep (f : N -> N -> option T) (ps : list (N * N)) : list ((N * N) * T) :=
  flat_map (fun p => match f (fst p) (snd p) with Some v => [(p, v)] | None => [] end) ps.
(** from the first stored position on *)
Fixpoint from_first (f : N -> N -> option T) (ps : list (N * N)) : list (N * N) :=
  match ps with
  | [] => []
  | p :: t => match f (fst p) (snd p) with Some _ => ps | None => from_first f t end
  end.
(** positions with the values read there *)
Definition with_values (zero : T) (f : N -> N -> option T) (ps : list (N * N)) : list ((N * N) * T) :=
  map (fun p => (p, match f (fst p) (snd p) with Some v => v | None => zero end)) ps.
End Spec.
