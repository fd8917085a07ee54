(** AliasSpec.v -- vocabulary of the aliasing theorems (no reference to how assignments work). *)
From Verif Require Import Base AssignModel AliasModel.
Open Scope nat_scope.

Section Spec.
Context {T : Type}.

(** In memory [s] the expression [e] denotes the a x b matrix [g]. *)
Definition valued (e : exp T) (s : st T) (a b : nat) (g : nat -> nat -> T) : Prop :=
  x_sz e s = Ok (a, b) /\ forall i j, i < a -> j < b -> x_at e s i j = Ok (g i j).

(** The memories agree on every object but [t]. *)
Definition same_except (t : nat) (s s' : st T) : Prop := forall y, y <> t -> s' y = s y.

(** [e] does not read object [t]. *)
Definition does_not_read (t : nat) (e : exp T) : Prop :=
  forall s s', same_except t s s' -> x_sz e s' = x_sz e s /\ forall i j, x_at e s' i j = x_at e s i j.

(** Container [x] holds the a x b matrix [g]. *)
Definition holds (s : st T) (x a b : nat) (g : nat -> nat -> T) : Prop :=
  o_1 (s x) = a /\ o_2 (s x) = b /\ forall i j, i < a -> j < b -> o_at (s x) i j = g i j.

(** View [w] is a legal view in memory [s]: its positions are elements of its object, and different
    positions are different elements. *)
Definition legal (s : st T) (w : view) : Prop :=
  (forall i j, i < w_1 w -> j < w_2 w ->
     fst (w_pos w i j) < o_1 (s (w_obj w)) /\ snd (w_pos w i j) < o_2 (s (w_obj w))) /\
  (forall i j i' j', i < w_1 w -> j < w_2 w -> i' < w_1 w -> j' < w_2 w ->
     w_pos w i j = w_pos w i' j' -> i = i' /\ j = j').

(** The element behind position (i, j) of view [w]. *)
Definition seen (s : st T) (w : view) (i j : nat) : T :=
  o_at (s (w_obj w)) (fst (w_pos w i j)) (snd (w_pos w i j)).

(** From [s] to [s'] exactly the view changed, its elements becoming [g]: other objects, the size
    of the object and its elements outside the view are as before. *)
Definition view_becomes (s s' : st T) (w : view) (g : nat -> nat -> T) : Prop :=
  o_1 (s' (w_obj w)) = o_1 (s (w_obj w)) /\ o_2 (s' (w_obj w)) = o_2 (s (w_obj w)) /\
  (forall i j, i < w_1 w -> j < w_2 w -> seen s' w i j = g i j) /\
  (forall p q, (forall i j, i < w_1 w -> j < w_2 w -> w_pos w i j <> (p, q)) ->
     o_at (s' (w_obj w)) p q = o_at (s (w_obj w)) p q).

(** (i', j') comes before (i, j) when walking by rows, resp. by columns. *)
Definition before (o : order) (i' j' i j : nat) : Prop :=
  match o with
  | ByRow => i' < i \/ (i' = i /\ j' < j)
  | ByCol => j' < j \/ (j' = j /\ i' < i)
  end.

(** To produce element (i, j), [e] reads nothing of what was stored for positions before (i, j). *)
Definition reads_ahead (o : order) (w : view) (e : exp T) (s : st T) : Prop :=
  forall i j s', i < w_1 w -> j < w_2 w ->
    same_except (w_obj w) s s' ->
    o_1 (s' (w_obj w)) = o_1 (s (w_obj w)) -> o_2 (s' (w_obj w)) = o_2 (s (w_obj w)) ->
    (forall p q, (forall i' j', i' < w_1 w -> j' < w_2 w -> before o i' j' i j -> w_pos w i' j' <> (p, q)) ->
       o_at (s' (w_obj w)) p q = o_at (s (w_obj w)) p q) ->
    x_at e s' i j = x_at e s i j.

(** To produce element (i, j), [e] reads of the view's object at most the element behind (i, j). *)
Definition reads_own (w : view) (e : exp T) (s : st T) : Prop :=
  forall i j s', i < w_1 w -> j < w_2 w ->
    same_except (w_obj w) s s' ->
    o_1 (s' (w_obj w)) = o_1 (s (w_obj w)) -> o_2 (s' (w_obj w)) = o_2 (s (w_obj w)) ->
    seen s' w i j = seen s w i j ->
    x_at e s' i j = x_at e s i j.

(** Mathematical value of an expression of the language [aexp] in memory [s]: its shape when all
    operand sizes agree, and its elements. *)
Section Value.
Context (O : vops T).
Fixpoint shape (s : st T) (e : aexp T) : option (nat * nat) :=
  let same2 e1 e2 :=
    match shape s e1, shape s e2 with
    | Some (a, b), Some (c, d) => if (a =? c) && (b =? d) then Some (a, b) else None
    | _, _ => None
    end in
  match e with
  | AObj x => Some (o_1 (s x), o_2 (s x))
  | AView w => Some (w_1 w, w_2 w)
  | ANeg e => shape s e
  | AScale _ e => shape s e
  | AAdd e1 e2 => same2 e1 e2
  | ASub e1 e2 => same2 e1 e2
  | AMul e1 e2 => same2 e1 e2
  | ATrans e => match shape s e with Some (a, b) => Some (b, a) | None => None end
  | AProd e1 e2 =>
      match shape s e1, shape s e2 with
      | Some (a, b), Some (c, d) => if b =? c then Some (a, d) else None
      | _, _ => None
      end
  end.
Fixpoint value (s : st T) (e : aexp T) (i j : nat) : T :=
  match e with
  | AObj x => o_at (s x) i j
  | AView w => seen s w i j
  | ANeg e => vsub O (v0 O) (value s e i j)
  | AScale t e => vmul O t (value s e i j)
  | AAdd e1 e2 => vadd O (value s e1 i j) (value s e2 i j)
  | ASub e1 e2 => vsub O (value s e1 i j) (value s e2 i j)
  | AMul e1 e2 => vmul O (value s e1 i j) (value s e2 i j)
  | ATrans e => value s e j i
  | AProd e1 e2 =>
      let n := match shape s e1 with Some (_, b) => b | None => 0 end in
      fold_left (fun acc k => vadd O acc (vmul O (value s e1 i k) (value s e2 k j))) (seq 0 n) (v0 O)
  end.
(** The views an expression uses are legal. *)
Fixpoint legal_views (s : st T) (e : aexp T) : Prop :=
  match e with
  | AObj _ => True
  | AView w => legal s w
  | ANeg e | AScale _ e | ATrans e => legal_views s e
  | AAdd e1 e2 | ASub e1 e2 | AMul e1 e2 | AProd e1 e2 => legal_views s e1 /\ legal_views s e2
  end.
(** Whether the object [t] is named in the expression. *)
Fixpoint mentions (t : nat) (e : aexp T) : bool :=
  match e with
  | AObj x => x =? t
  | AView w => w_obj w =? t
  | ANeg e | AScale _ e | ATrans e => mentions t e
  | AAdd e1 e2 | ASub e1 e2 | AMul e1 e2 | AProd e1 e2 => mentions t e1 || mentions t e2
  end.
End Value.
End Spec.
