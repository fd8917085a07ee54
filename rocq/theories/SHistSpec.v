(** SHistSpec.v -- two sparse vectors as (size, finite map of the stored elements) and what each call does to them. *)
From Verif Require Import Base MapArraySpec MappedSpec SVIterModel SVIterSpec StorageModel AssignModel AssignSpec VexModel SHistModel.
Open Scope nat_scope.

Section Spec.
Context {T : Type} (O : vops T).
Notation svstate := (svstate T).
Implicit Types (s : svstate * svstate) (e : sexp T) (w : which).

(** the size of an expression; None: the operands have different sizes *)
Fixpoint esize s e : option nat :=
  match e with
  | SVec w => Some (fst (sel w s))
  | SOther v => Some (s_n v)
  | SUn _ a | SLeft _ _ a | SRight _ a _ => esize s a
  | SBin _ a b => match esize s a, esize s b with Some n, Some k => if n =? k then Some n else None | _, _ => None end
  end.
(** its element i; the unstored elements of a vector are zero *)
Fixpoint eval s e (i : nat) : T :=
  match e with
  | SVec w => sv_read (v0 O) (sel w s) i
  | SOther v => s_at v i
  | SUn f a => f (eval s a i)
  | SBin f a b => f (eval s a i) (eval s b i)
  | SLeft f t a => f t (eval s a i)
  | SRight f a t => f (eval s a i) t
  end.
(** all operands are dense *)
Fixpoint dense e : bool :=
  match e with
  | SVec _ => false
  | SOther v => match s_cat v with IDense => true | _ => false end
  | SUn _ a | SLeft _ _ a | SRight _ a _ => dense a
  | SBin _ a b => dense a && dense b
  end.
(** the other vectors are well formed; functions applied to operands that are not all dense map zeros to zero *)
Fixpoint fine e : Prop :=
  match e with
  | SVec _ => True
  | SOther v => wf_src O v
  | SUn f a => fine a /\ (dense e = false -> f (v0 O) = v0 O)
  | SBin f a b => fine a /\ fine b /\ (dense e = false -> f (v0 O) (v0 O) = v0 O)
  | SLeft f t a => fine a /\ (dense e = false -> f t (v0 O) = v0 O)
  | SRight f a t => fine a /\ (dense e = false -> f (v0 O) t = v0 O)
  end.

(** exactly the nonzero elements of g are stored *)
Definition nonzeros (n : nat) (g : nat -> T) : svstate :=
  (n, fun i => if (i <? n) && negb (veqb O (g i) (v0 O)) then Some (g i) else None).
(** the stored elements x become f x (g i), and f 0 (g i) is stored where g i is not zero *)
Definition combined (f : T -> T -> T) (g : nat -> T) (v : svstate) : svstate :=
  (fst v, fun i => match snd v i with
                   | Some x => Some (f x (g i))
                   | None => if (i <? fst v) && negb (veqb O (g i) (v0 O)) then Some (f (v0 O) (g i)) else None
                   end).
Definition vafter s (o : sv_act T) : svstate * svstate :=
  match o with
  | VPut w i x | VInsert w i x => put w (fst (sel w s), fset (snd (sel w s)) i x) s
  | VErase w i => put w (fst (sel w s), fdel (snd (sel w s)) i) s
  | VClear w => put w (fst (sel w s), fempty) s
  | VResize w n true => put w (n, fun i => if i <? n then snd (sel w s) i else None) s
  | VResize w n false => put w (n, fempty) s
  | VSame w => put w (sel (other w) s) s
  | VFrom w v => put w (nonzeros (s_n v) (s_at v)) s
  | VExpr w e | VNoalias w e => match esize s e with Some n => put w (nonzeros n (eval s e)) s | None => s end
  | VComp w f e => match esize s e with Some n => put w (nonzeros n (eval s (SBin (fapply O f) (SVec w) e))) s | None => s end
  | VNoaliasComp w f e => put w (combined (fapply O f) (eval s e) (sel w s)) s
  | VScale w f => put w (fst (sel w s), mapped (fun _ => f) (snd (sel w s))) s
  | VSwap => (snd s, fst s)
  | VRead _ _ | VSelf _ => s
  end.
(** in checked builds the call throws one of these; []: it must not throw *)
Definition vmust_throw s (o : sv_act T) : list exn :=
  let sized bad w e := match esize s e with Some n => if n =? fst (sel w s) then [] else [bad] | None => [bad_argument] end in
  match o with
  | VRead w i | VPut w i _ => if i <? fst (sel w s) then [] else [bad_index]
  | VInsert w i _ => match snd (sel w s) i with Some _ => [bad_index] | None => [] end
  | VExpr w e => match esize s e with Some _ => [] | None => [bad_argument] end
  | VComp w _ e => sized bad_argument w e
  | VNoalias w e | VNoaliasComp w _ e => sized bad_size w e
  | _ => []
  end.
(** what a call may assume besides.  [drop]: resize (n, false) can be used (C15: not on a coordinate_vector).  noalias (w) = e
    must not read w; noalias (w) += e may. *)
Definition vroom (drop : bool) s (o : sv_act T) : Prop :=
  match o with
  | VInsert w i _ => i < fst (sel w s)
  | VResize _ _ k => k = true \/ drop = true
  | VFrom _ v => drop = true /\ wf_src O v
  | VExpr _ e => fine e
  | VNoalias w e => fine e /\ mentions w e = false
  | VComp _ f e | VNoaliasComp _ f e => fine e /\ (f = FPlus \/ f = FMinus)
  | _ => True
  end.
Fixpoint vlegal (drop : bool) s (ops : list (sv_act T)) : Prop :=
  match ops with [] => True | o :: ops => vmust_throw s o = [] /\ vroom drop s o /\ vlegal drop (vafter s o) ops end.
Definition vrun s (ops : list (sv_act T)) : svstate * svstate := fold_left vafter ops s.

(** vector [a] is (n, f): size (), the elements and, in checked builds, the range check of operator () const; iterating over it
    visits the stored elements in order *)
Definition vshown {S} (A : svops S T) (chk : bool) (s : svstate) (a : S) : Prop :=
  si_size (q_it A) a = fst s /\
  (forall i, i < fst s -> exists a', q_get A a i = Ok (a', sv_read (v0 O) s i)) /\
  (forall i, chk = true -> fst s <= i -> q_get A a i = Throw bad_index) /\
  (forall fuel, fst s < fuel -> exists a', si_loop (q_it A) chk fuel a = Ok (a', all_stored s)).

(** Two vectors made by vector (n, capacity), after any legal calls: both hold what vafter says, and in checked builds a call with
    wrong sizes, an index out of range, or an insertion of a stored element throws. *)
Definition vbehaves {S} (A : svops S T) (chk drop : bool) : Prop :=
  forall n1 c1 n2 c2 (ops : list (sv_act T)), let s0 := ((n1, fempty), (n2, fempty)) in vlegal drop s0 ops ->
  exists a b p, q_new A n1 c1 = Ok a /\ q_new A n2 c2 = Ok b /\ foldM (sh_step A O chk) ops (a, b) = Ok p /\
    (forall w, vshown A chk (sel w (vrun s0 ops)) (sel w p)) /\
    forall o, chk = true -> vmust_throw (vrun s0 ops) o <> [] -> exists x, In x (vmust_throw (vrun s0 ops) o) /\ sh_step A O chk p o = Throw x.
(** noalias (w) = w empties w *)
Definition self_noalias_empties {S} (A : svops S T) (chk drop : bool) : Prop :=
  forall n1 c1 n2 c2 (ops : list (sv_act T)) w, let s0 := ((n1, fempty), (n2, fempty)) in vlegal drop s0 ops ->
  exists a b p p', q_new A n1 c1 = Ok a /\ q_new A n2 c2 = Ok b /\ foldM (sh_step A O chk) ops (a, b) = Ok p /\
    sh_step A O chk p (VNoalias w (SVec w)) = Ok p' /\ vshown A chk (fst (sel w (vrun s0 ops)), fempty) (sel w p').
End Spec.
