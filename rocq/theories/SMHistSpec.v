(** SMHistSpec.v -- two sparse matrices as (size1, size2, finite map of the stored elements) and what each call does to them. *)
From Verif Require Import Base LayoutModel CMatSpec CMIterModel CMIterSpec StorageModel AssignModel AssignSpec VexModel MAssignModel MAssignSpec MexModel
  SMHistModel.
Open Scope nat_scope.

Section Spec.
Context {T : Type} (O : vops T).
Notation smstate := (cmstate T).
Implicit Types (s : smstate * smstate) (e : smexp T) (w : which) (d : MexModel.axis).

Definition size_of (v : smstate) d : nat := match d with A1 => fst (fst v) | A2 => snd (fst v) end.
(** element (i, j): zero if it is not stored *)
Definition value (v : smstate) (i j : nat) : T := match snd v i j with Some x => x | None => v0 O end.
(** size1 () (A1) and size2 () (A2) of an expression; None: the operands of a sum have different sizes *)
Fixpoint esize s e d : option nat :=
  match e with
  | XMat w => Some (size_of (sel w s) d)
  | XOther m => Some (match d with A1 => e_1 m | A2 => e_2 m end)
  | XUn _ a | XLeft _ _ a | XRight _ a _ => esize s a d
  | XTrans _ a => esize s a (other d)
  | XBin _ a b => match esize s a d, esize s b d with Some n, Some k => if n =? k then Some n else None | _, _ => None end
  | XProd a b => match d with A1 => esize s a A1 | A2 => esize s b A2 end
  end.
(** the operands fit together *)
Fixpoint conform s e : Prop :=
  match e with
  | XMat _ | XOther _ => True
  | XUn _ a | XLeft _ _ a | XRight _ a _ | XTrans _ a => conform s a
  | XBin _ a b => conform s a /\ conform s b /\ esize s a A1 = esize s b A1 /\ esize s a A2 = esize s b A2
  | XProd a b => conform s a /\ conform s b /\ esize s a A2 = esize s b A1
  end.
(** element (i, j) *)
Fixpoint eval s e (i j : nat) : T :=
  match e with
  | XMat w => value (sel w s) i j
  | XOther m => e_at m i j
  | XUn f a => f (eval s a i j)
  | XTrans f a => f (eval s a j i)
  | XBin f a b => f (eval s a i j) (eval s b i j)
  | XLeft f t a => f t (eval s a i j)
  | XRight f a t => f (eval s a i j) t
  | XProd a b => fold_left (fun t k => vadd O t (vmul O (eval s a i k) (eval s b k j)))
                   (seq 0 (match esize s a A2 with Some n => n | None => 0 end)) (v0 O)
  end.
(** all operands are dense *)
Fixpoint dense e : bool :=
  match e with
  | XMat _ => false
  | XOther m => match e_c1 m with IDense => true | _ => false end
  | XUn _ a | XTrans _ a | XLeft _ _ a | XRight _ a _ => dense a
  | XBin _ a b | XProd a b => dense a && dense b
  end.
(** the other matrices are well formed and their outer iterators visit every row and every column, as those of all matrices of
    the library; functions applied to operands that are not all dense map zeros to zero *)
Fixpoint fine e : Prop :=
  match e with
  | XMat _ => True
  | XOther m => wf_mexp O m /\ e_rows m = seq 0 (e_1 m) /\ e_cols m = seq 0 (e_2 m)
  | XUn f a | XTrans f a => fine a /\ (dense e = false -> f (v0 O) = v0 O)
  | XBin f a b => fine a /\ fine b /\ (dense e = false -> f (v0 O) (v0 O) = v0 O)
  | XLeft f t a => fine a /\ (dense e = false -> f t (v0 O) = v0 O)
  | XRight f a t => fine a /\ (dense e = false -> f (v0 O) t = v0 O)
  | XProd a b => fine a /\ fine b
  end.

Definition inside (n1 n2 i j : nat) : bool := (i <? n1) && (j <? n2).
(** exactly the nonzero elements of g are stored *)
Definition nonzeros (n1 n2 : nat) (g : nat -> nat -> T) : smstate :=
  (n1, n2, fun i j => if inside n1 n2 i j && negb (veqb O (g i j) (v0 O)) then Some (g i j) else None).
Definition assigned w e s : smstate * smstate :=
  match esize s e A1, esize s e A2 with Some n1, Some n2 => put w (nonzeros n1 n2 (eval s e)) s | _, _ => s end.
Definition comp w (f : afun) e : smexp T := XBin (fapply O f) (XMat w) e.
Definition mafter s (o : sm_act T) : smstate * smstate :=
  match o with
  | MPut w i j x | MInsert w i j x => put w (fst (sel w s), gset (snd (sel w s)) i j x) s
  | MErase w i j => put w (fst (sel w s), gdel (snd (sel w s)) i j) s
  | MClear w => put w (fst (sel w s), gempty) s
  | MResize w n1 n2 _ => put w (n1, n2, gempty) s
  | MSame w => put w (sel (StorageModel.other w) s) s
  | MFrom w m => put w (nonzeros (e_1 m) (e_2 m) (e_at m)) s
  | MExpr w e | MNoalias w e => assigned w e s
  | MComp w f e => assigned w (comp w f e) s
  | MScale w f => put w (fst (sel w s), fun i j => option_map f (snd (sel w s) i j)) s
  | MSwap => (snd s, fst s)
  | MRead _ _ _ | MSelf _ => s
  end.
Definition in_range (v : smstate) (i j : nat) : bool := inside (fst (fst v)) (snd (fst v)) i j.
Definition unsized s e : list exn :=
  match esize s e A1, esize s e A2 with Some _, Some _ => [] | _, _ => [bad_argument] end.
Definition differs (a : option nat) (n : nat) : bool := match a with Some k => negb (k =? n) | None => false end.
(** in checked builds the call throws one of these; []: it must not throw.  [bounds]: indices are checked (mapped_matrix) *)
Definition mmust_throw (bounds : bool) s (o : sm_act T) : list exn :=
  match o with
  | MRead w i j | MPut w i j _ => if bounds && negb (in_range (sel w s) i j) then [bad_index] else []
  | MInsert w i j _ => match snd (sel w s) i j with Some _ => [bad_index] | None => [] end
  | MResize _ _ _ true => [internal_logic]
  | MExpr w e => unsized s e
  | MComp w f e => unsized s (comp w f e)
  | MNoalias w e => unsized s e ++
      (if differs (esize s e A1) (size_of (sel w s) A1) || differs (esize s e A2) (size_of (sel w s) A2) then [bad_size] else [])
  | _ => []
  end.
(** what a call may assume besides.  [room n1 n2]: a matrix of that size can be had (mapped_matrix: size1 * size2 does not
    overflow).  noalias (w) = e must not read w. *)
Definition mroom (room : nat -> nat -> Prop) s (o : sm_act T) : Prop :=
  match o with
  | MRead w i j | MPut w i j _ | MErase w i j | MInsert w i j _ => in_range (sel w s) i j = true
  | MResize _ n1 n2 _ => room n1 n2
  | MFrom _ m => room (e_1 m) (e_2 m) /\ fine (XOther m)
  | MExpr _ e => fine e /\ conform s e /\ forall n1 n2, esize s e A1 = Some n1 -> esize s e A2 = Some n2 -> room n1 n2
  | MComp w f e => fine e /\ conform s (comp w f e) /\ (f = FPlus \/ f = FMinus)
  | MNoalias w e => fine e /\ conform s e /\ mentions w e = false
  | MScale w f => True
  | _ => True
  end.
Fixpoint mlegal (bounds : bool) (room : nat -> nat -> Prop) s (ops : list (sm_act T)) : Prop :=
  match ops with [] => True | o :: ops => mmust_throw bounds s o = [] /\ mroom room s o /\ mlegal bounds room (mafter s o) ops end.
Definition mrun s (ops : list (sm_act T)) : smstate * smstate := fold_left mafter ops s.

(** matrix [a] is (n1, n2, f): the sizes, every element, and what the nested loops visit, row by row and column by column *)
Definition mshown {S} (A : smops S T) (v : smstate) (a : S) : Prop :=
  r_s1 A a = size_of v A1 /\ r_s2 A a = size_of v A2 /\
  (forall i j, in_range v i j = true -> exists a', r_get A a i j = Ok (a', value v i j)) /\
  (forall x, exists a', r_see A x a = Ok (a', stored_in_order x (size_of v A1) (size_of v A2) (snd v))).

(** Two matrices made by matrix (size1, size2, non_zeros), after any legal calls: both hold what mafter says, and in checked builds
    sums of different sizes, assignments of wrong sizes without a temporary, insertions of stored elements and resizing with
    preservation throw. *)
Definition mbehaves {S} (A : smops S T) (chk bounds : bool) (l : layout) (room : nat -> nat -> Prop) : Prop :=
  forall n1 n2 c k1 k2 c2 (ops : list (sm_act T)), room n1 n2 -> room k1 k2 ->
  let s0 := ((n1, n2, gempty), (k1, k2, gempty)) in mlegal bounds room s0 ops ->
  exists a b p, r_new A n1 n2 c = Ok a /\ r_new A k1 k2 c2 = Ok b /\ foldM (smh_step A O chk l) ops (a, b) = Ok p /\
    (forall w, mshown A (sel w (mrun s0 ops)) (sel w p)) /\
    forall o, chk = true -> mmust_throw bounds (mrun s0 ops) o <> [] ->
      exists x, In x (mmust_throw bounds (mrun s0 ops) o) /\ smh_step A O chk l p o = Throw x.
(** after any legal calls noalias (w) = w empties w *)
Definition mself_empties {S} (A : smops S T) (chk bounds : bool) (l : layout) (room : nat -> nat -> Prop) : Prop :=
  forall n1 n2 c k1 k2 c2 (ops : list (sm_act T)) w, room n1 n2 -> room k1 k2 ->
  let s0 := ((n1, n2, gempty), (k1, k2, gempty)) in mlegal bounds room s0 ops ->
  exists a b p p', r_new A n1 n2 c = Ok a /\ r_new A k1 k2 c2 = Ok b /\ foldM (smh_step A O chk l) ops (a, b) = Ok p /\
    smh_step A O chk l p (MNoalias w (XMat w)) = Ok p' /\ mshown A (fst (sel w (mrun s0 ops)), gempty) (sel w p').
End Spec.
