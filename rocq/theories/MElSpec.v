(** MElSpec.v -- a proxy stands for element (i, j) of its matrix: what it reads is that element at that moment, what is assigned to it
    is stored as that element, whatever happened to the matrix since the proxy was made. *)
From Verif Require Import Base CMatSpec StorageModel AssignModel AssignSpec SMHistModel SMHistSpec LayoutModel MElModel.
Open Scope nat_scope.

Section Spec.
Context {T : Type} (O : vops T).
Notation pair := (cmstate T * cmstate T)%type.
Notation state := (pair * list melem)%type.

(** the element a proxy stands for *)
Definition mel_val (s : pair) (r : melem) : T := match snd (sel (fst r) s) (fst (snd r)) (snd (snd r)) with Some x => x | None => v0 O end.
Definition mel_store (s : pair) (r : melem) (x : T) : pair :=
  let '(w, (i, j)) := r in put w (fst (sel w s), gset (snd (sel w s)) i j x) s.
Definition mel_after (st : state) (a : mel_act T) : state :=
  let '(s, rs) := st in
  match a with
  | EmNew w i j => (s, rs ++ [(w, (i, j))])
  | EmCopy k => match nth_error rs k with Some r => (s, rs ++ [r]) | None => st end
  | EmSet k x => match nth_error rs k with Some r => (mel_store s r x, rs) | None => st end
  | EmAssign k h => match nth_error rs k, nth_error rs h with Some r, Some q => (mel_store s r (mel_val s q), rs) | _, _ => st end
  | EmComp k f x => match nth_error rs k with Some r => (mel_store s r (f (mel_val s r) x), rs) | None => st end
  | EmCompEl k f h => match nth_error rs k, nth_error rs h with Some r, Some q => (mel_store s r (f (mel_val s r) (mel_val s q)), rs) | _, _ => st end
  | EmRef k g => match nth_error rs k with Some r => (mel_store s r (g (mel_val s r)), rs) | None => st end
  | EmRead _ => st
  | EmCall o => (mafter O s o, rs)
  end.
(** proxy number k exists and its indices are (still) inside its matrix: required when it is read or assigned to *)
Definition usable (st : state) (k : nat) : Prop :=
  exists w i j, nth_error (snd st) k = Some (w, (i, j)) /\ i < fst (fst (sel w (fst st))) /\ j < snd (fst (sel w (fst st))).
Definition mel_room (bounds : bool) (room : nat -> nat -> Prop) (st : state) (a : mel_act T) : Prop :=
  match a with
  | EmNew _ _ _ => True
  | EmCopy k => k < length (snd st)
  | EmRead k | EmSet k _ | EmComp k _ _ | EmRef k _ => usable st k
  | EmAssign k h | EmCompEl k _ h => usable st k /\ usable st h
  | EmCall o => mmust_throw O bounds (fst st) o = [] /\ mroom O room (fst st) o
  end.
Fixpoint mel_legal bounds room (st : state) (l : list (mel_act T)) : Prop :=
  match l with [] => True | a :: l => mel_room bounds room st a /\ mel_legal bounds room (mel_after st a) l end.
Definition mel_run (st : state) (l : list (mel_act T)) : state := fold_left mel_after l st.

(** Two matrices made by matrix (size1, size2, non_zeros), no proxies; after any legal program: the matrices are what mel_after says,
    and every proxy inside its matrix reads the element it stands for, without changing what is stored. *)
Definition mel_behaves {S} (A : smops S T) (F : finder S T) (chk bounds : bool) (l : layout) (room : nat -> nat -> Prop) : Prop :=
  forall n1 n2 c k1 k2 c2 (ops : list (mel_act T)), room n1 n2 -> room k1 k2 ->
  let s0 := (((n1, n2, gempty), (k1, k2, gempty)), []) in mel_legal bounds room s0 ops ->
  exists a b p, r_new A n1 n2 c = Ok a /\ r_new A k1 k2 c2 = Ok b /\
    foldM (mel_step A O chk l F) ops ((a, b), []) = Ok (p, snd (mel_run s0 ops)) /\
    (forall w, mshown O A (sel w (fst (mel_run s0 ops))) (sel w p)) /\
    forall k, usable (mel_run s0 ops) k -> exists r p', nth_error (snd (mel_run s0 ops)) k = Some r /\
      mel_read O F p r = Ok (p', mel_val (fst (mel_run s0 ops)) r) /\ forall w, mshown O A (sel w (fst (mel_run s0 ops))) (sel w p').
End Spec.
