(** DMIterSpec.v -- what iterating over a dense matrix means, independently of storage. *)
From Verif Require Import Base LayoutModel PackedModel DMIterModel.
Open Scope N_scope.

Definition upto (n : N) : list N := map N.of_nat (seq 0 (N.to_nat n)).
(** all positions of an s1 x s2 matrix, row by row (D1) or column by column (D2) *)
Definition grid (w : dir) (s1 s2 : N) : list (N * N) :=
  match w with
  | D1 => flat_map (fun i => map (fun j => (i, j)) (upto s2)) (upto s1)
  | D2 => flat_map (fun j => map (fun i => (i, j)) (upto s1)) (upto s2)
  end.
(** the elements f at these positions *)
Definition listing {T} (f : N -> N -> T) (ps : list (N * N)) : list (N * N * T) :=
  map (fun p => (p, f (fst p) (snd p))) ps.
(** position with index x in the direction of the iterator and o across it *)
Definition at_dir (w : dir) (x o : N) : N * N := match w with D1 => (x, o) | D2 => (o, x) end.
Definition len_dir (w : dir) (s1 s2 : N) : N := match w with D1 => s1 | D2 => s2 end.

(** A dense matrix whose elements, as read by m (i, j), are f, and whose storage plus one line is
    small enough for difference_type. *)
Definition holds {T} (chk : bool) (l : layout) (m : mat T) (s1 s2 : N) (f : N -> N -> T) : Prop :=
  msize1 m = s1 /\ msize2 m = s2 /\ lenN (mdata m) = s1 * s2 /\ (s1 + 1) * (s2 + 1) < 2 ^ 63 /\
  forall i j, i < s1 -> j < s2 -> dense_get chk l m i j = Ok (f i j).
