(** CommaSpec.v -- what [v <<= a, b, c, ...] and [m <<= ...] are supposed to do: the list of elementary
    writes (position, fill policy, value) a statement stands for, and the effect of such a list. *)
From Verif Require Import Base LayoutModel CommaModel.
Open Scope nat_scope.

Section Plans.
Context {C T : Type}.

(** [xs] are the elements of the expression, whatever the target holds. *)
Definition yields (n : nat) (get : C -> nat -> res T) (xs : list T) : Prop :=
  length xs = n /\ forall c k x, nth_error xs k = Some x -> get c k = Ok x.
Definition yields2 (r c : nat) (get : C -> nat -> nat -> res T) (B : nat -> nat -> T) : Prop :=
  forall t k l, k < r -> l < c -> get t k l = Ok (B k l).

(** ** Vectors: a cursor, starting at 0; every value goes to the cursor, which moves up by one. *)
Definition vwrite : Type := Z * fill * T.
Definition spread (i : Z) (f : fill) (xs : list T) : list vwrite :=
  map (fun kx => ((i + Z.of_nat (fst kx))%Z, f, snd kx)) (combine (seq 0 (length xs)) xs).

Inductive vplan : Z -> fill -> list (vitem C T) -> list vwrite -> Prop :=
| vp_end : forall i f, vplan i f [] []
| vp_val : forall i f x rest l, vplan (i + 1) f rest l -> vplan i f (VVal x :: rest) ((i, f, x) :: l)
| vp_exp : forall i f n get xs rest l, yields n get xs -> vplan (i + Z.of_nat n) f rest l ->
           vplan i f (VExp n get :: rest) (spread i f xs ++ l)
| vp_move_to : forall i f z rest l, vplan z f rest l -> vplan i f (VManip (VMoveTo z) :: rest) l
| vp_move : forall i f z rest l, vplan (i + z) f rest l -> vplan i f (VManip (VMove z) :: rest) l
| vp_fill : forall i f g rest l, vplan i g rest l -> vplan i f (VFill g :: rest) l.

(** values only: [xs] are all the values of the items, one after the other *)
Inductive vvalues : list (vitem C T) -> list T -> Prop :=
| vv_end : vvalues [] []
| vv_val : forall x rest l, vvalues rest l -> vvalues (VVal x :: rest) (x :: l)
| vv_exp : forall n get xs rest l, yields n get xs -> vvalues rest l -> vvalues (VExp n get :: rest) (xs ++ l).
Inductive mvalues : list (mitem C T) -> list T -> Prop :=
| mvs_end : mvalues [] []
| mvs_val : forall x rest l, mvalues rest l -> mvalues (MVal x :: rest) (x :: l)
| mvs_vec : forall n get xs rest l, yields n get xs -> mvalues rest l -> mvalues (MVec n get :: rest) (xs ++ l).

(** ** Matrices, [s1] rows and [s2] columns. *)
Variables s1 s2 : N.
Definition mwrite : Type := (N * N) * fill * T.

(** Where the next value goes: with wrapping, a cursor past the end of its line moves to the start of
    the next line. *)
Definition settle (t : trav) (p : N * N) : N * N :=
  match t with
  | ByRow Wrap => if N.ltb (snd p) s2 then p else (fst p + 1, 0)%N
  | ByColumn Wrap => if N.ltb (fst p) s1 then p else (0, snd p + 1)%N
  | _ => p
  end.
(** One value further along the line. *)
Definition along (t : trav) (p : N * N) : N * N :=
  match t with ByRow _ => (fst p, snd p + 1)%N | ByColumn _ => (fst p + 1, snd p)%N end.
(** Behind a block of [r] rows and [c] columns: with wrapping, beside the block, or at the start of the
    line of blocks behind it when the block reaches the edge; without wrapping, diagonally. *)
Definition behind (t : trav) (r c : N) (p : N * N) : N * N :=
  match t with
  | ByRow Wrap => if N.ltb (snd p + c) s2 then (fst p, snd p + c)%N else (fst p + r, 0)%N
  | ByColumn Wrap => if N.ltb (fst p + r) s1 then (fst p + r, snd p)%N else (0, snd p + c)%N
  | _ => (fst p + r, snd p + c)%N
  end.
(** Cursors are 64-bit numbers. *)
Definition small (p : N * N) : Prop := (fst p < 2 ^ 64 /\ snd p < 2 ^ 64)%N.
(** The writes of values one by one. *)
Inductive mvals (f : fill) (t : trav) : N * N -> list T -> N * N -> list mwrite -> Prop :=
| mv_end : forall p, mvals f t p [] p []
| mv_val : forall p x xs q l, small (along t (settle t p)) ->
    mvals f t (along t (settle t p)) xs q l -> mvals f t p (x :: xs) q ((settle t p, f, x) :: l).
(** The writes of a block, line by line. *)
Definition block (f : fill) (t : trav) (p : N * N) (r c : nat) (B : nat -> nat -> T) : list mwrite :=
  let at_ k l := ((fst p + N.of_nat k, snd p + N.of_nat l)%N, f, B k l) in
  match t with
  | ByRow _ => flat_map (fun k => map (fun l => at_ k l) (seq 0 c)) (seq 0 r)
  | ByColumn _ => flat_map (fun l => map (fun k => at_ k l) (seq 0 r)) (seq 0 c)
  end.
Definition moved (p : N * N) (z1 z2 : Z) (q : N * N) : Prop :=
  (Z.of_N (fst q) = Z.of_N (fst p) + z1 /\ Z.of_N (snd q) = Z.of_N (snd p) + z2)%Z.

Inductive mplan : N * N -> fill -> trav -> list (mitem C T) -> list mwrite -> Prop :=
| mp_end : forall p f t, mplan p f t [] []
| mp_val : forall p f t x rest l, small (along t (settle t p)) ->
    mplan (along t (settle t p)) f t rest l ->
    mplan p f t (MVal x :: rest) ((settle t p, f, x) :: l)
| mp_vec : forall p f t n get xs q l1 rest l,
    yields n get xs -> mvals f t p xs q l1 -> mplan q f t rest l ->
    mplan p f t (MVec n get :: rest) (l1 ++ l)
| mp_mat : forall p f t r c get B rest l,
    0 < r -> 0 < c -> yields2 r c get B -> small (fst p + N.of_nat r, snd p + N.of_nat c)%N ->
    mplan (behind t (N.of_nat r) (N.of_nat c) p) f t rest l ->
    mplan p f t (MMat r c get :: rest) (block f t p r c B ++ l)
| mp_move_to : forall p f t i j rest l, small (i, j) -> mplan (i, j) f t rest l ->
    mplan p f t (MManip (MMoveTo (Z.of_N i) (Z.of_N j)) :: rest) l
| mp_move : forall p f t z1 z2 q rest l, moved p z1 z2 q -> small q -> mplan q f t rest l ->
    mplan p f t (MManip (MMove z1 z2) :: rest) l
| mp_begin1 : forall p f t rest l, mplan (0%N, snd p) f t rest l -> mplan p f t (MManip Begin1 :: rest) l
| mp_begin2 : forall p f t rest l, mplan (fst p, 0%N) f t rest l -> mplan p f t (MManip Begin2 :: rest) l
| mp_next_row : forall p f t rest l, (fst p + 1 < 2 ^ 64)%N -> mplan (fst p + 1, 0)%N f t rest l ->
    mplan p f t (MManip NextRow :: rest) l
| mp_next_column : forall p f t rest l, (snd p + 1 < 2 ^ 64)%N -> mplan (0, snd p + 1)%N f t rest l ->
    mplan p f t (MManip NextColumn :: rest) l
| mp_fill : forall p f t g rest l, mplan p g t rest l -> mplan p f t (MFill g :: rest) l
| mp_trav : forall p f t u rest l, small (settle t p) -> mplan (settle t p) f u rest l ->
    mplan p f t (MTrav u :: rest) l.

(** A whole statement starts at (0, 0) with index_assign, row by row with wrapping; a traverse policy
    at the front replaces the default. *)
Definition mstatement (items : list (mitem C T)) (l : list mwrite) : Prop :=
  match items with
  | MTrav t :: rest => mplan (0, 0)%N IndexAssign t rest l
  | _ => mplan (0, 0)%N IndexAssign (ByRow Wrap) items l
  end.
End Plans.

(** ** Effects on the contents *)
Section Effects.
Context {T : Type}.
Variables tplus tminus : T -> T -> T.
(** The new value of an element with value [o]. *)
Definition newval (f : fill) (o x : T) : T :=
  match f with
  | IndexAssign | SparseInsert | SparsePushBack => x
  | IndexPlus => tplus o x
  | IndexMinus => tminus o x
  end.
Definition veffect (g : Z -> T) (w : Z * fill * T) : Z -> T :=
  let '(p, f, x) := w in fun q => if Z.eqb q p then newval f (g q) x else g q.
Definition meffect (g : N -> N -> T) (w : (N * N) * fill * T) : N -> N -> T :=
  let '((i, j), f, x) := w in
  fun i' j' => if (N.eqb i' i && N.eqb j' j)%bool then newval f (g i' j') x else g i' j'.
End Effects.

(** ** Sparse targets: which writes are allowed, and what is stored after them *)
Section Sparse.
Context {T : Type}.
Variables (tzero : T) (tplus tminus : T -> T -> T).
(** the value seen at a position: what is stored there, or zero *)
Definition shown (o : option T) : T := match o with Some x => x | None => tzero end.
(** sparse_insert only where nothing is stored; sparse_push_back only behind everything stored *)
Definition vallowed (n : nat) (g : Z -> option T) (w : Z * fill * T) : Prop :=
  let '(p, f, _) := w in
  (0 <= p < Z.of_nat n)%Z /\
  match f with
  | SparseInsert => g p = None
  | SparsePushBack => forall q, g q <> None -> (q < p)%Z
  | _ => True
  end.
Definition vstore (g : Z -> option T) (w : Z * fill * T) : Z -> option T :=
  let '(p, f, x) := w in
  fun q => if Z.eqb q p then Some (newval tplus tminus f (shown (g p)) x) else g q.
Fixpoint vallowed_all (n : nat) (g : Z -> option T) (l : list (Z * fill * T)) : Prop :=
  match l with [] => True | w :: t => vallowed n g w /\ vallowed_all n (vstore g w) t end.

(** storage order: row by row or column by column *)
Definition earlier (l : layout) (p q : N * N) : Prop :=
  match l with
  | RowMajor => (fst p < fst q \/ fst p = fst q /\ snd p < snd q)%N
  | ColMajor => (snd p < snd q \/ snd p = snd q /\ fst p < fst q)%N
  end.
Definition mallowed (l : layout) (s1 s2 : N) (g : N * N -> option T) (w : (N * N) * fill * T) : Prop :=
  let '(p, f, _) := w in
  (fst p < s1 /\ snd p < s2)%N /\
  match f with
  | SparseInsert => g p = None
  | SparsePushBack => forall q, g q <> None -> earlier l q p
  | _ => True
  end.
Definition mstore (g : N * N -> option T) (w : (N * N) * fill * T) : N * N -> option T :=
  let '(p, f, x) := w in
  fun q => if (N.eqb (fst q) (fst p) && N.eqb (snd q) (snd p))%bool
           then Some (newval tplus tminus f (shown (g p)) x) else g q.
Fixpoint mallowed_all (l : layout) (s1 s2 : N) (g : N * N -> option T) (ws : list ((N * N) * fill * T)) : Prop :=
  match ws with [] => True | w :: t => mallowed l s1 s2 g w /\ mallowed_all l s1 s2 (mstore g w) t end.
End Sparse.

(** ** Grids of blocks: a list of block rows, each a height and the blocks from left to right (width,
    elements). *)
Section Grid.
Context {T : Type}.
Definition brow : Type := nat * list (nat * (nat -> nat -> T)).
Definition widths (bs : list (nat * (nat -> nat -> T))) : nat := list_sum (map fst bs).
Definition heights (rows : list brow) : nat := list_sum (map fst rows).
(** element (i, j) of the assembled matrix *)
Fixpoint row_at (bs : list (nat * (nat -> nat -> T))) (i j : nat) : option T :=
  match bs with
  | [] => None
  | (c, B) :: t => if j <? c then Some (B i j) else row_at t i (j - c)
  end.
Fixpoint grid_at (rows : list brow) (i j : nat) : option T :=
  match rows with
  | [] => None
  | (r, bs) :: t => if i <? r then row_at bs i j else grid_at t (i - r) j
  end.
(** the statement m <<= B11, B12, ..., B21, B22, ... *)
Definition grid_items {C} (rows : list brow) : list (mitem C T) :=
  flat_map (fun rb => map (fun cB => MMat (fst rb) (fst cB) (fun _ k l => Ok (snd cB k l))) (snd rb)) rows.
(** the same read down the columns: a list of block columns, each a width and the blocks from top to
    bottom *)
Definition grid_items_col {C} (cols : list brow) : list (mitem C T) :=
  flat_map (fun rb => map (fun cB => MMat (fst cB) (fst rb) (fun _ k l => Ok (snd cB l k))) (snd rb)) cols.
End Grid.
