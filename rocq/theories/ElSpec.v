(** ElSpec.v -- a proxy stands for element i of its vector: what it reads is that element at that moment, what is assigned to it is
    stored as that element, whatever happened to the vector since the proxy was made. *)
From Verif Require Import Base MapArraySpec MappedSpec SVIterModel SVIterSpec StorageModel AssignModel AssignSpec SHistModel SHistSpec ElModel.
Open Scope nat_scope.

Section Spec.
Context {T : Type} (O : vops T).
Notation svstate := (svstate T).
Notation state := ((svstate * svstate) * list elem)%type.

(** the element a proxy stands for *)
Definition el_val (s : svstate * svstate) (r : elem) : T := sv_read (v0 O) (sel (fst r) s) (snd r).
Definition el_store (s : svstate * svstate) (r : elem) (x : T) : svstate * svstate :=
  let '(w, i) := r in put w (fst (sel w s), fset (snd (sel w s)) i x) s.
Definition el_after (st : state) (a : el_act T) : state :=
  let '(s, rs) := st in
  match a with
  | ElNew w i => (s, rs ++ [(w, i)])
  | ElCopy k => match nth_error rs k with Some r => (s, rs ++ [r]) | None => st end
  | ElSet k x => match nth_error rs k with Some r => (el_store s r x, rs) | None => st end
  | ElAssign k j => match nth_error rs k, nth_error rs j with Some r, Some q => (el_store s r (el_val s q), rs) | _, _ => st end
  | ElComp k f x => match nth_error rs k with Some r => (el_store s r (f (el_val s r) x), rs) | None => st end
  | ElCompEl k f j => match nth_error rs k, nth_error rs j with Some r, Some q => (el_store s r (f (el_val s r) (el_val s q)), rs) | _, _ => st end
  | ElRef k g => match nth_error rs k with Some r => (el_store s r (g (el_val s r)), rs) | None => st end
  | ElRead _ => st
  | ElCall o => (vafter O s o, rs)
  end.
(** the index of a proxy that is assigned to is still inside its vector *)
Definition inside (s : svstate * svstate) (r : elem) : Prop := snd r < fst (sel (fst r) s).
Definition exists_in (rs : list elem) (k : nat) : Prop := k < length rs.
Definition el_room (drop : bool) (st : state) (a : el_act T) : Prop :=
  let '(s, rs) := st in
  let writable k := match nth_error rs k with Some r => inside s r | None => False end in
  match a with
  | ElNew w i => i < fst (sel w s)
  | ElCopy k | ElRead k => exists_in rs k
  | ElSet k _ | ElComp k _ _ | ElRef k _ => writable k
  | ElAssign k j | ElCompEl k _ j => writable k /\ exists_in rs j
  | ElCall o => vmust_throw s o = [] /\ vroom O drop s o
  end.
Fixpoint el_legal (drop : bool) (st : state) (l : list (el_act T)) : Prop :=
  match l with [] => True | a :: l => el_room drop st a /\ el_legal drop (el_after st a) l end.
Definition el_run (st : state) (l : list (el_act T)) : state := fold_left el_after l st.

(** Two vectors made by vector (n, capacity), no proxies; after any legal program: the vectors are what el_after says, every proxy reads
    the element it stands for, without changing what is stored, and in checked builds w (i) throws bad_index for i out of range. *)
Definition el_behaves {S} (A : svops S T) (find : S -> nat -> res (S * option nat)) (chk drop : bool) : Prop :=
  forall n1 c1 n2 c2 (l : list (el_act T)), let s0 := (((n1, fempty), (n2, fempty)), []) in el_legal drop s0 l ->
  exists a b p, q_new A n1 c1 = Ok a /\ q_new A n2 c2 = Ok b /\
    foldM (el_step A O chk find) l ((a, b), []) = Ok (p, snd (el_run s0 l)) /\
    (forall w, vshown O A chk (sel w (fst (el_run s0 l))) (sel w p)) /\
    (forall r, In r (snd (el_run s0 l)) -> exists p', el_read A O find p r = Ok (p', el_val (fst (el_run s0 l)) r) /\
       forall w, vshown O A chk (sel w (fst (el_run s0 l))) (sel w p')) /\
    forall w i, chk = true -> fst (sel w (fst (el_run s0 l))) <= i -> el_step A O chk find (p, snd (el_run s0 l)) (ElNew w i) = Throw bad_index.
End Spec.
