(** MVecSpec.v -- vectors of rows and of columns of a matrix with elements f. *)
From Verif Require Import Base LayoutModel PackedModel DMIterModel DMIterSpec MVecModel.
Open Scope N_scope.

(** a matrix: its sizes and its elements *)
Definition mstate (T : Type) : Type := (N * N * (N -> N -> T)).
(** element j of line k *)
Definition cell {T} (w : dir) (f : N -> N -> T) (k j : N) : T := match w with D1 => f k j | D2 => f j k end.
(** all lines, each from front to back *)
Definition lines {T} (w : dir) (s1 s2 : N) (f : N -> N -> T) : list (list (N * N * T)) :=
  map (fun k => map (fun j => ((k, j), cell w f k j)) (upto (len_dir (flip w) s1 s2))) (upto (len_dir w s1 s2)).

Definition vlegal {T} (o : mv_op T) (s1 s2 : N) : Prop :=
  match o with
  | VSet w k j _ => k < len_dir w s1 s2 /\ j < len_dir (flip w) s1 s2
  | VResize w n _ => n < 2 ^ 64 /\ n * len_dir (flip w) s1 s2 < 2 ^ 64
  end.
Definition vspec {T} (o : mv_op T) (s s' : mstate T) : Prop :=
  let '(s1, s2, f) := s in
  let '(t1, t2, f') := s' in
  match o with
  | VSet w k j x => t1 = s1 /\ t2 = s2 /\
      forall k' j', k' < len_dir w s1 s2 -> j' < len_dir (flip w) s1 s2 ->
        cell w f' k' j' = if (k' =? k) && (j' =? j) then x else cell w f k' j'
  | VResize w n preserve =>
      len_dir w t1 t2 = n /\ len_dir (flip w) t1 t2 = len_dir (flip w) s1 s2 /\
      (preserve = true -> forall k j, k < n -> k < len_dir w s1 s2 -> j < len_dir (flip w) s1 s2 -> cell w f' k j = cell w f k j)
  end.
Fixpoint vruns {T} (ops : list (mv_op T)) (s s' : mstate T) : Prop :=
  match ops with
  | [] => s' = s
  | o :: ops => vlegal o (fst (fst s)) (snd (fst s)) /\ exists s1, vspec o s s1 /\ vruns ops s1 s'
  end.
(** legality depends on the sizes only *)
Definition vsizes {T} (o : mv_op T) (s1 s2 : N) : N * N :=
  match o with VSet _ _ _ _ => (s1, s2) | VResize D1 n _ => (n, s2) | VResize D2 n _ => (s1, n) end.
Fixpoint vlegals {T} (ops : list (mv_op T)) (s1 s2 : N) : Prop :=
  match ops with
  | [] => True
  | o :: ops => vlegal o s1 s2 /\ vlegals ops (fst (vsizes o s1 s2)) (snd (vsizes o s1 s2))
  end.
(** the matrix object m has these sizes and reads these elements, by m (i, j), through its vector of rows and through
    its vector of columns *)
Definition shows {T} (chk : bool) (l : layout) (m : mat T) (s : mstate T) : Prop :=
  let '(s1, s2, f) := s in
  msize1 m = s1 /\ msize2 m = s2 /\ mv_size D1 m = s1 /\ mv_size D2 m = s2 /\
  forall i j, i < s1 -> j < s2 ->
    dense_get chk l m i j = Ok (f i j) /\ mr_get chk l D1 m (mv_at D1 i) j = Ok (f i j) /\ mr_get chk l D2 m (mv_at D2 j) i = Ok (f i j).
