(** VoVSpec.v -- what a matrix kept as an array of lines holds: its elements, and the contents of one further line
    behind the last one.  Line k is row k (row major) or column k (column major). *)
From Verif Require Import Base LayoutModel CMatModel VoVModel.
Open Scope nat_scope.

Record vstate (T : Type) := VState { st1 : nat; st2 : nat; elem : nat -> nat -> T; hidden : list T }.
Arguments VState {T}. Arguments st1 {T}. Arguments st2 {T}. Arguments elem {T}. Arguments hidden {T}.

Section Spec.
Context {T : Type}.
Variable tzero : T.
Variable l : layout.
Implicit Types a : vstate T.
(** number of lines, elements per line, element j of line k *)
Definition nlines a : nat := majM l (st1 a) (st2 a).
Definition llen a : nat := minm l (st1 a) (st2 a).
Definition at_line a (k j : nat) : T := elem a (majM l k j) (minm l k j).
Definition line_of a (k : nat) : list T := map (at_line a k) (seq 0 (llen a)).
Definition same a a' : Prop :=
  st1 a' = st1 a /\ st2 a' = st2 a /\ hidden a' = hidden a /\ forall i j, i < st1 a -> j < st2 a -> elem a' i j = elem a i j.
Definition is_expr (s1 s2 : nat) (g : nat -> nat -> T) a : Prop :=
  st1 a = s1 /\ st2 a = s2 /\ forall i j, i < s1 -> j < s2 -> elem a i j = g i j.

(** resize: kept elements, new elements, and the hidden line *)
Definition resized (preserve : bool) (s1 s2 : nat) a a' : Prop :=
  st1 a' = s1 /\ st2 a' = s2 /\
  hidden a' = (if nlines a' =? nlines a then hidden a
               else if preserve && (nlines a' <? nlines a) then line_of a (nlines a') else []) /\
  (preserve = true -> forall k j, k < nlines a' -> j < llen a' ->
     at_line a' k j = if k <? nlines a then (if j <? llen a then at_line a k j else tzero)
                      else if k =? nlines a then nth j (hidden a) tzero else tzero) /\
  (preserve = false -> s1 = st1 a -> s2 = st2 a -> forall i j, i < s1 -> j < s2 -> elem a' i j = elem a i j).

Definition vstep (o : vo_op T) (p p' : vstate T * vstate T) : Prop :=
  match o with
  | OSet b i j x => (exists a', p' = put b a' p /\ st1 a' = st1 (one b p) /\ st2 a' = st2 (one b p) /\ hidden a' = hidden (one b p) /\
      forall i' j', i' < st1 a' -> j' < st2 a' -> elem a' i' j' = if (i' =? i) && (j' =? j) then x else elem (one b p) i' j')
  | OErase b i j => (exists a', p' = put b a' p /\ st1 a' = st1 (one b p) /\ st2 a' = st2 (one b p) /\ hidden a' = hidden (one b p) /\
      forall i' j', i' < st1 a' -> j' < st2 a' -> elem a' i' j' = if (i' =? i) && (j' =? j) then tzero else elem (one b p) i' j')
  | OClear b => (exists a', p' = put b a' p /\ st1 a' = st1 (one b p) /\ st2 a' = st2 (one b p) /\ hidden a' = hidden (one b p) /\
      forall i j, i < st1 a' -> j < st2 a' -> elem a' i j = tzero)
  | OResize b s1 s2 pr => (exists a', p' = put b a' p /\ resized pr s1 s2 (one b p) a')
  | OAssign b | OCopy b => (exists a', p' = put b a' p /\ same (one (negb b) p) a')
  | OSwap => (exists a b, p' = (a, b) /\ same (snd p) a /\ same (fst p) b)
  | OExpr b s1 s2 g => (exists a', p' = put b a' p /\ is_expr s1 s2 g a' /\ hidden a' = [])
  | OCont b s1 s2 g => (exists a', p' = put b a' p /\ is_expr s1 s2 g a' /\
      hidden a' = if majM l s1 s2 =? nlines (one b p) then hidden (one b p) else [])
  end.
Fixpoint vruns (ops : list (vo_op T)) (p p' : vstate T * vstate T) : Prop :=
  match ops with [] => p' = p | o :: ops => exists p1, vstep o p p1 /\ vruns ops p1 p' end.

(** indices in range; depends on the sizes only *)
Definition osizes (o : vo_op T) (p : (nat * nat) * (nat * nat)) : (nat * nat) * (nat * nat) :=
  match o with
  | OSet _ _ _ _ | OErase _ _ _ | OClear _ => p
  | OResize b s1 s2 _ | OExpr b s1 s2 _ | OCont b s1 s2 _ => put b (s1, s2) p
  | OAssign b | OCopy b => put b (one (negb b) p) p
  | OSwap => (snd p, fst p)
  end.
Definition olegal (o : vo_op T) (p : (nat * nat) * (nat * nat)) : Prop :=
  match o with OSet b i j _ | OErase b i j => i < fst (one b p) /\ j < snd (one b p) | _ => True end.
Fixpoint olegals (ops : list (vo_op T)) (p : (nat * nat) * (nat * nat)) : Prop :=
  match ops with [] => True | o :: ops => olegal o p /\ olegals ops (osizes o p) end.

(** the object m has these sizes and elements, and reads its hidden line just behind the last line *)
Definition vshows (chk : bool) (m : vov T) a : Prop :=
  vo_s1 m = st1 a /\ vo_s2 m = st2 a /\
  (forall i j, i < st1 a -> j < st2 a -> vo_get chk l m i j = Ok (elem a i j)) /\
  (forall j x, nth_error (hidden a) j = Some x -> vo_get chk l m (majM l (nlines a) j) (minm l (nlines a) j) = Ok x).
End Spec.
