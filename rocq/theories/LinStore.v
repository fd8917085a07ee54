(** LinStore.v -- vectors and matrices as seen by the linear-algebra algorithms: element access
    only.  (That element access of every container reads back what was written, and nothing else
    changes, is C01, C05, C08, C12-C18 of this development; the algorithms below use nothing
    else of the containers.) *)
From Verif Require Import Base FieldLib.
Open Scope nat_scope.

(** A vector (or vector proxy) of a given size with assignable elements. *)
Record vec (F : Type) := Vec { vn : nat; vat : nat -> F }.
Arguments Vec {F} _ _. Arguments vn {F} _. Arguments vat {F} _ _.

(** vector::operator () (i): vector.hpp:200-225 (checked builds throw bad_index through
    storage.hpp:184-192; otherwise an index outside the array is undefined behaviour). *)
Definition vrd {F} (chk : bool) (v : vec F) (i : nat) : res F :=
  if i <? vn v then Ok (vat v i) else if chk then Throw bad_index else UB.
Definition vwr {F} (chk : bool) (v : vec F) (i : nat) (x : F) : res (vec F) :=
  if i <? vn v then Ok (Vec (vn v) (fun k => if k =? i then x else vat v k))
  else if chk then Throw bad_index else UB.

(** A matrix with assignable elements; matrix.hpp:215-260. *)
Record mat (F : Type) := Mat { mn1 : nat; mn2 : nat; mat_at : nat -> nat -> F }.
Arguments Mat {F} _ _ _. Arguments mn1 {F} _. Arguments mn2 {F} _. Arguments mat_at {F} _ _ _.
Definition mrd {F} (chk : bool) (m : mat F) (i j : nat) : res F :=
  if (i <? mn1 m) && (j <? mn2 m) then Ok (mat_at m i j) else if chk then Throw bad_index else UB.
Definition mwr {F} (chk : bool) (m : mat F) (i j : nat) (x : F) : res (mat F) :=
  if (i <? mn1 m) && (j <? mn2 m)
  then Ok (Mat (mn1 m) (mn2 m) (fun a b => if (a =? i) && (b =? j) then x else mat_at m a b))
  else if chk then Throw bad_index else UB.

(** Loops [for (i = a; i < b; ++ i)] and [for (i = b - 1; i >= a; -- i)] (signed counter). *)
Definition upto (a b : nat) : list nat := seq a (b - a).
Definition downto (a b : nat) : list nat := rev (seq a (b - a)).

(** * Facts *)
Lemma vrd_ok {F} chk (v : vec F) i : i < vn v -> vrd chk v i = Ok (vat v i).
Proof. intros H. unfold vrd. now destruct (Nat.ltb_spec i (vn v)); [|lia]. Qed.
Lemma vwr_ok {F} chk (v : vec F) i x : i < vn v ->
  vwr chk v i x = Ok (Vec (vn v) (fun k => if k =? i then x else vat v k)).
Proof. intros H. unfold vwr. now destruct (Nat.ltb_spec i (vn v)); [|lia]. Qed.
Lemma mrd_ok {F} chk (m : mat F) i j : i < mn1 m -> j < mn2 m -> mrd chk m i j = Ok (mat_at m i j).
Proof.
  intros H1 H2. unfold mrd.
  destruct (Nat.ltb_spec i (mn1 m)), (Nat.ltb_spec j (mn2 m)); try lia; reflexivity.
Qed.
Lemma mwr_ok {F} chk (m : mat F) i j x : i < mn1 m -> j < mn2 m ->
  mwr chk m i j x =
  Ok (Mat (mn1 m) (mn2 m) (fun a b => if (a =? i) && (b =? j) then x else mat_at m a b)).
Proof.
  intros H1 H2. unfold mwr.
  destruct (Nat.ltb_spec i (mn1 m)), (Nat.ltb_spec j (mn2 m)); try lia; reflexivity.
Qed.

Lemma foldM_app {S X} (f : S -> X -> res S) l1 l2 s :
  foldM f (l1 ++ l2) s = bind (foldM f l1 s) (foldM f l2).
Proof.
  revert s; induction l1 as [|x l IH]; intros s; cbn; [reflexivity|].
  destruct (f s x); cbn; auto.
Qed.

Lemma up_S a b : a <= b -> upto a (S b) = upto a b ++ [b].
Proof.
  intros H. unfold upto. replace (S b - a) with (S (b - a)) by lia.
  rewrite seq_S. now replace (a + (b - a)) with b by lia.
Qed.
Lemma up_nil a b : b <= a -> upto a b = [].
Proof. intros H. unfold upto. now replace (b - a) with 0 by lia. Qed.
Lemma in_upto a b i : In i (upto a b) <-> a <= i < b.
Proof. unfold upto. rewrite in_seq. lia. Qed.
Lemma in_downto a b i : In i (downto a b) <-> a <= i < b.
Proof. unfold downto. rewrite <- in_rev, in_seq. lia. Qed.
Lemma NoDup_upto a b : NoDup (upto a b).
Proof. apply seq_NoDup. Qed.
Lemma NoDup_downto a b : NoDup (downto a b).
Proof. apply NoDup_rev, seq_NoDup. Qed.

(** Invariant rule for an upward loop. *)
Lemma loop_up {S} (P : nat -> S -> Prop) a b f s : a <= b ->
  P a s ->
  (forall k s, a <= k < b -> P k s -> exists s', f s k = Ok s' /\ P (1 + k) s') ->
  exists s', foldM f (upto a b) s = Ok s' /\ P b s'.
Proof.
  intros Hab H0 HS. remember (b - a) as d eqn:E. revert b Hab HS E.
  induction d as [|d IH]; intros b Hab HS E.
  - assert (b = a) by lia; subst b. rewrite up_nil by lia. exists s. now split.
  - destruct b as [|b]; [lia|]. rewrite up_S by lia.
    destruct (IH b) as (s1 & E1 & P1); [lia|intros; apply HS; [lia|assumption]|lia|].
    rewrite foldM_app, E1. cbn. destruct (HS b s1) as (s2 & E2 & P2); [lia|assumption|].
    exists s2. rewrite E2. cbn. now split.
Qed.

Lemma downto_S a b : a <= b -> downto a (S b) = b :: downto a b.
Proof.
  intros H. unfold downto. fold (upto a (S b)). rewrite up_S by lia.
  now rewrite rev_app_distr.
Qed.

(** Invariant rule for a downward loop: [P k] holds when all indices >= k are done. *)
Lemma loop_down {S} (P : nat -> S -> Prop) a b f s : a <= b ->
  P b s ->
  (forall k s, a <= k < b -> P (1 + k) s -> exists s', f s k = Ok s' /\ P k s') ->
  exists s', foldM f (downto a b) s = Ok s' /\ P a s'.
Proof.
  intros Hab. revert s. remember (b - a) as d eqn:E. revert b Hab E.
  induction d as [|d IH]; intros b Hab E s H0 HS.
  - assert (b = a) by lia; subst b. unfold downto. rewrite Nat.sub_diag. exists s. now split.
  - destruct b as [|b]; [lia|]. rewrite downto_S by lia.
    destruct (HS b s) as (s1 & E1 & P1); [lia|assumption|].
    cbn. rewrite E1. cbn. apply IH; [lia|lia|assumption|].
    intros k s' Hk. apply HS. lia.
Qed.

(** Invariant rule for a loop over a list: [P] sees the elements already visited. *)
Lemma loop_list {S X} (P : list X -> S -> Prop) (f : S -> X -> res S) l s :
  P [] s ->
  (forall pre x post s, l = pre ++ x :: post -> P pre s ->
     exists s', f s x = Ok s' /\ P (pre ++ [x]) s') ->
  exists s', foldM f l s = Ok s' /\ P l s'.
Proof.
  intros H0 HS.
  enough (G : forall pre post s, l = pre ++ post -> P pre s ->
            exists s', foldM f post s = Ok s' /\ P l s').
  { apply (G [] l s); auto. }
  clear s H0. intros pre post. revert pre.
  induction post as [|x t IH]; intros pre s E HP.
  - rewrite app_nil_r in E; subst pre. exists s. now split.
  - destruct (HS pre x t s E HP) as (s1 & E1 & P1). cbn. rewrite E1. cbn.
    apply (IH (pre ++ [x]) s1); [|exact P1]. now rewrite <- app_assoc.
Qed.

Lemma in_app_single {X} (x y : X) l : In x (l ++ [y]) <-> In x l \/ x = y.
Proof. rewrite in_app_iff. cbn. intuition. Qed.
