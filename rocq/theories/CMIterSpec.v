(** CMIterSpec.v -- the order in which the nested iterator loops over a sparse matrix visit its elements. *)
From Verif Require Import Base LayoutModel CMatSpec CMIterModel.
Open Scope nat_scope.
Section Spec.
Context {T : Type}.
(** all positions, row by row (outer loop over iterator1) or column by column (outer loop over iterator2) *)
Definition all_positions (w : axis) (s1 s2 : nat) : list (nat * nat) :=
  match w with
  | Ax1 => flat_map (fun i => map (fun j => (i, j)) (seq 0 s2)) (seq 0 s1)
  | Ax2 => flat_map (fun j => map (fun i => (i, j)) (seq 0 s1)) (seq 0 s2)
  end.
(** those that are stored, with their values *)
Definition keep_stored (f : gmap T) (ps : list (nat * nat)) : list ((nat * nat) * T) :=
  flat_map (fun p => match f (fst p) (snd p) with Some v => [(p, v)] | None => [] end) ps.
Definition stored_in_order (w : axis) (s1 s2 : nat) (f : gmap T) : list ((nat * nat) * T) :=
  keep_stored f (all_positions w s1 s2).
(** the positions of line o in direction w: row o for w = Ax2 (iterator2), column o for w = Ax1 *)
Definition line_positions (w : axis) (o s1 s2 : nat) : list (nat * nat) :=
  match w with
  | Ax1 => map (fun i => (i, o)) (seq 0 s1)
  | Ax2 => map (fun j => (o, j)) (seq 0 s2)
  end.
End Spec.
