(** SAdaptSpec.v -- what symmetric_adaptor and hermitian_adaptor mean, in terms of the underlying elements. *)
From Verif Require Import Base LayoutModel PackedModel DMIterModel DMIterSpec SAdaptModel.
Open Scope N_scope.

(** [u]: the upper triangle is the one used; otherwise the lower *)
Definition in_half (u : bool) (i j : N) : bool := if u then i <=? j else j <=? i.
(** the matrix the adaptor stands for: the used triangle of f, mirrored (with cj applied) in the other *)
Definition mirror {T} (cj : T -> T) (u : bool) (f : N -> N -> T) (i j : N) : T :=
  if in_half u i j then f i j else cj (f j i).

(** [it] behaves as an iterator at index x of line o (column o for w = D1, row o for w = D2): it reports the
    position, yields the adaptor's element, and equals the iterator find returns for x and no other. *)
Definition stands {T} (cj : T -> T) (chk : bool) (l : layout) (u : bool) (m : mat T) (n : N) (f : N -> N -> T)
    (w : dir) (o x : N) (it : siter) : Prop :=
  let i := fst (at_dir w x o) in let j := snd (at_dir w x o) in
  (x < n -> sa_index1 chk l m w it = Ok i /\ sa_index2 chk l m w it = Ok j /\ sa_deref cj chk l u m w it = Ok (mirror cj u f i j)) /\
  forall y e, y <= n -> sa_find chk l u m w (fst (at_dir w y o)) (snd (at_dir w y o)) = Ok e -> sa_eq chk it e = Ok (x =? y).
