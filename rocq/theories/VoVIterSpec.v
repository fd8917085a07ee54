(** VoVIterSpec.v -- positions of an s1 x s2 matrix, and where its lines may lie in memory. *)
From Verif Require Import Base LayoutModel StorageModel CMatModel DMIterModel VoVModel VoVSpec.
Open Scope nat_scope.

(** row by row (D1) or column by column (D2) *)
Definition positions (w : dir) (s1 s2 : nat) : list (nat * nat) :=
  match w with
  | D1 => flat_map (fun i => map (fun j => (i, j)) (seq 0 s2)) (seq 0 s1)
  | D2 => flat_map (fun j => map (fun i => (i, j)) (seq 0 s1)) (seq 0 s2)
  end.
Definition elements {T} (f : nat -> nat -> T) (ps : list (nat * nat)) : list (nat * nat * T) :=
  map (fun p => (p, f (fst p) (snd p))) ps.
Definition extent {T} (w : dir) (a : vstate T) : nat := match w with D1 => st1 a | D2 => st2 a end.
Definition place (w : dir) (x o : nat) : nat * nat := match w with D1 => (x, o) | D2 => (o, x) end.
(** addresses of the lines: a line that has elements has an address of its own, an empty one is the null pointer *)
Definition placed {T} (base : nat -> Z) (m : vov T) : Prop :=
  forall k r, nth_error (ua_data (vo_data m)) k = Some r ->
    (ua_size r = 0 -> base k = 0%Z) /\ (ua_size r <> 0 -> (0 < base k)%Z /\ forall k', k' <> k -> base k' <> base k).
(** m is one of two matrices after a legal history *)
Definition reached {T} (tzero : T) (chk : bool) (l : layout) (junk : nat -> T) (m : vov T) : Prop :=
  exists ops q b, olegals ops ((0, 0), (0, 0)) /\ foldM (vo_step tzero chk l junk) ops (vo_default, vo_default) = Ok q /\ m = one b q.
