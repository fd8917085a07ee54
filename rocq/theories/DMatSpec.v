(** DMatSpec.v -- what a user expects of two dense matrices: two tables of values, some unspecified (None). *)
From Verif Require Import Base LayoutModel StorageModel DVecModel DVecSpec DMatModel.
Open Scope nat_scope.
Record table (T : Type) := Tab { rows : nat; cols : nat; cell : nat -> nat -> option T }.
Arguments Tab {T}. Arguments rows {T}. Arguments cols {T}. Arguments cell {T}.
Definition has {T} (t : table T) (i j : nat) : bool := (i <? rows t) && (j <? cols t).
Section Spec.
Context {T : Type}.
Implicit Types (s : table T * table T) (e : mexp T).
(** the extents of an expression, if those of its parts agree *)
Fixpoint shape_of s e : option (nat * nat) :=
  match e with
  | YMat w => Some (rows (sel w s), cols (sel w s))
  | YLit n1 n2 _ => Some (n1, n2)
  | YUn _ a => shape_of s a
  | YBin _ a b => match shape_of s a, shape_of s b with
                  | Some (n1, n2), Some (k1, k2) => if (n1 =? k1) && (n2 =? k2) then Some (n1, n2) else None | _, _ => None end
  | YTrans a => match shape_of s a with Some (n1, n2) => Some (n2, n1) | None => None end
  end.
Fixpoint mvalue s e (i j : nat) : option T :=
  match e with
  | YMat w => cell (sel w s) i j
  | YLit _ _ f => Some (f i j)
  | YUn f a => lift1 f (mvalue s a i j)
  | YBin f a b => lift2 f (mvalue s a i j) (mvalue s b i j)
  | YTrans a => mvalue s a j i
  end.
Definition unset (n1 n2 : nat) : table T := Tab n1 n2 (fun _ _ => None).
Definition all_is (n1 n2 : nat) (x : T) : table T := Tab n1 n2 (fun _ _ => Some x).
Definition mupd (i j : nat) (x : option T) (t : table T) : table T :=
  Tab (rows t) (cols t) (fun a b => if (a =? i) && (b =? j) then x else cell t a b).
Definition mafter (tzero : T) s (o : dm_op T) : table T * table T :=
  match o with
  | MResize w n1 n2 true => put w (Tab n1 n2 (fun i j => if has (sel w s) i j then cell (sel w s) i j else None)) s
  | MResize w n1 n2 false => put w (unset n1 n2) s
  | MSet w i j x => put w (mupd i j (Some x) (sel w s)) s
  | MErase w i j => put w (mupd i j (Some tzero) (sel w s)) s
  | MClear w => put w (all_is (rows (sel w s)) (cols (sel w s)) tzero) s
  | MSame w => put w (sel (other w) s) s
  | MSelf _ => s
  | MCont w n1 n2 f => put w (Tab n1 n2 (fun i j => Some (f i j))) s
  | MExpr w e => match shape_of s e with Some (n1, n2) => put w (Tab n1 n2 (mvalue s e)) s | None => s end
  | MComp w f e | MNoaliasComp w f e => put w (Tab (rows (sel w s)) (cols (sel w s)) (fun i j => lift2 f (cell (sel w s) i j) (mvalue s e i j))) s
  | MNoalias w e => put w (Tab (rows (sel w s)) (cols (sel w s)) (mvalue s e)) s
  | MScalar w f => put w (Tab (rows (sel w s)) (cols (sel w s)) (fun i j => lift1 f (cell (sel w s) i j))) s
  | MSwap => (snd s, fst s)
  end.
(** the exception a call must raise in checked builds, if any; [fits n1 n2]: a matrix can have these extents, [big]: the
    exception otherwise *)
Definition mmust_throw (fits : nat -> nat -> bool) (big : exn) s (o : dm_op T) : option exn :=
  let room n1 n2 := if fits n1 n2 then None else Some big in
  let sized w e := match shape_of s e with
                   | Some (n1, n2) => if (n1 =? rows (sel w s)) && (n2 =? cols (sel w s)) then None else Some bad_argument
                   | None => Some bad_argument end in
  match o with
  | MResize _ n1 n2 _ => room n1 n2
  | MSet w i j _ | MErase w i j => if has (sel w s) i j then None else Some bad_index
  | MCont _ n1 n2 _ => room n1 n2
  | MExpr _ e => match shape_of s e with Some (n1, n2) => room n1 n2 | None => Some bad_argument end
  | MComp w _ e | MNoaliasComp w _ e | MNoalias w e => sized w e
  | _ => None
  end.
(** [e] does not read matrix [w] transposed; [t]: an odd number of transpositions applies to e *)
Fixpoint in_place (w : which) (t : bool) e : bool :=
  match e with
  | YMat v => negb (t && match w, v with L, L | R, R => true | _, _ => false end)
  | YLit _ _ _ => true
  | YUn _ a => in_place w t a
  | YBin _ a b => in_place w t a && in_place w t b
  | YTrans a => in_place w (negb t) a
  end.
Definition no_alias (o : dm_op T) : bool :=
  match o with MNoalias w e | MNoaliasComp w _ e => in_place w false e | _ => true end.
Fixpoint mlegal (fits : nat -> nat -> bool) (big : exn) (tzero : T) s (ops : list (dm_op T)) : Prop :=
  match ops with
  | [] => True
  | o :: ops => mmust_throw fits big s o = None /\ no_alias o = true /\ mlegal fits big tzero (mafter tzero s o) ops
  end.
(** extents are 64 bit numbers *)
Definition is_size (n : nat) : bool := (N.of_nat n <? W)%N.
Fixpoint size_t_exp e : bool :=
  match e with
  | YMat _ => true | YLit n1 n2 _ => is_size n1 && is_size n2 | YUn _ a | YTrans a => size_t_exp a | YBin _ a b => size_t_exp a && size_t_exp b end.
Definition size_t_op (o : dm_op T) : bool :=
  match o with
  | MResize _ n1 n2 _ | MCont _ n1 n2 _ => is_size n1 && is_size n2
  | MSet _ i j _ | MErase _ i j => is_size i && is_size j
  | MExpr _ e | MComp _ _ e | MNoalias _ e | MNoaliasComp _ _ e => size_t_exp e
  | _ => true
  end.
Definition uses_resize (o : dm_op T) : bool := match o with MResize _ _ _ _ | MCont _ _ _ _ => true | _ => false end.
(** n1 x n2 elements can be counted; at most N of them; exactly M x N *)
Definition countable (n1 n2 : nat) : bool := is_size n1 && is_size n2 && (N.of_nat n1 * N.of_nat n2 <? W)%N.
Definition at_most (K n1 n2 : nat) : bool := countable n1 n2 && (n1 * n2 <=? K).
Definition just (M K n1 n2 : nat) : bool := (n1 =? M) && (n2 =? K).
(** matrix [m] shows the table [t]: size1 (), size2 (), m (i, j) *)
Definition mshown {S} (A : store S T) (chk : bool) (l : layout) (t : table T) (m : dmat S) : Prop :=
  d1 m = rows t /\ d2 m = cols t /\
  exists f : nat -> nat -> T,
    (forall i j x, has t i j = true -> cell t i j = Some x -> f i j = x) /\
    (forall i j, is_size i = true -> is_size j = true -> dm_get A chk l m i j = if has t i j then Ok (f i j) else if chk then Throw bad_index else dm_get A chk l m i j).
End Spec.
