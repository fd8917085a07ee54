(** Base.v -- common vocabulary of the uBLAS model: outcomes, checks, machine
    integers, storage arrays.  No proofs about uBLAS here. *)
From Coq Require Export List Arith NArith ZArith Bool Lia.
From Coq Require Export ZifyBool ZifyNat ZifyN.
Export ListNotations.

(** Exceptions raised by the library.
    /repo/include/boost/numeric/ublas/exception.hpp:30-190 (divide_by_zero, internal_logic,
    external_logic, bad_argument, bad_size, bad_index, singular, non_real); the [std_*] ones are
    standard-library exceptions thrown by the tensor part. *)
Inductive exn :=
| bad_size | bad_index | bad_argument | singular | external_logic | internal_logic | non_real
| divide_by_zero | std_length_error | std_runtime_error | std_invalid_argument | std_out_of_range.

(** Outcome of a C++ call: normal return, exception, or undefined behaviour
    (e.g. an access outside the storage array). *)
Inductive res (A : Type) :=
| Ok (a : A)
| Throw (e : exn)
| UB.
Arguments Ok {A} a.
Arguments Throw {A} e.
Arguments UB {A}.

Definition bind {A B} (x : res A) (f : A -> res B) : res B :=
  match x with Ok a => f a | Throw e => Throw e | UB => UB end.
Definition rmap {A B} (f : A -> B) (x : res A) : res B := bind x (fun a => Ok (f a)).

Declare Scope res_scope.
Delimit Scope res_scope with res.
Notation "'let*' x := e 'in' k" := (bind e (fun x => k))
  (at level 200, x pattern, e at level 100, k at level 200, right associativity) : res_scope.
Notation "e1 ;; k" := (bind e1 (fun _ : unit => k))
  (at level 100, right associativity) : res_scope.
Open Scope res_scope.

(** BOOST_UBLAS_CHECK (expression, e): exception.hpp:208-254.  [chk = true] is a build with
    BOOST_UBLAS_CHECK_ENABLE, [chk = false] a build where the macro expands to nothing. *)
Definition check (chk cond : bool) (e : exn) : res unit :=
  if chk && negb cond then Throw e else Ok tt.

(** BOOST_UBLAS_SAME (size1, size2): exception.hpp:257-297 (default, not FAST_SAME). *)
Definition same (chk : bool) (s1 s2 : N) : res N :=
  check chk (N.eqb s1 s2) bad_argument ;; Ok (N.min s1 s2).

(** 64-bit unsigned size_type arithmetic. *)
Definition W : N := (2 ^ 64)%N.
Definition wmax : N := (W - 1)%N.                   (* std::numeric_limits<size_type>::max () *)
Definition wrap (x : N) : N := (x mod W)%N.
Definition addw (x y : N) : N := wrap (x + y).
Definition mulw (x y : N) : N := wrap (x * y).
Definition subw (x y : N) : N := wrap (x + (W - wrap y)).

(** Storage arrays: reads and writes outside the allocated cells are UB. *)
Section Arrays.
Context {A : Type}.

Definition lenN (l : list A) : N := N.of_nat (length l).

Fixpoint upd (n : nat) (v : A) (l : list A) : list A :=
  match l with
  | [] => []
  | x :: t => match n with O => v :: t | S n' => x :: upd n' v t end
  end.

Definition rd (l : list A) (k : N) : res A :=
  if N.ltb k (lenN l)
  then match nth_error l (N.to_nat k) with Some a => Ok a | None => UB end
  else UB.

Definition wr (l : list A) (k : N) (v : A) : res (list A) :=
  if N.ltb k (lenN l) then Ok (upd (N.to_nat k) v l) else UB.

(** nat-indexed variants for the parts of the model that use unbounded indices. *)
Definition rdn (l : list A) (k : nat) : res A :=
  match nth_error l k with Some a => Ok a | None => UB end.
Definition wrn (l : list A) (k : nat) (v : A) : res (list A) :=
  if Nat.ltb k (length l) then Ok (upd k v l) else UB.
End Arrays.

(** * Generic facts *)
Section ArrayFacts.
Context {A : Type}.
Implicit Types l : list A.

Lemma length_upd n v l : length (upd n v l) = length l.
Proof. revert n; induction l as [|x t IH]; intros [|n]; simpl; auto. Qed.

Lemma nth_error_upd n m v l :
  nth_error (upd n v l) m =
  if Nat.eqb n m then (if Nat.ltb n (length l) then Some v else None) else nth_error l m.
Proof.
  revert n m; induction l as [|x t IH]; intros n m; simpl.
  - replace (upd n v []) with (@nil A) by (destruct n; reflexivity).
    destruct (Nat.eqb n m); destruct m; reflexivity.
  - destruct n as [|n]; destruct m as [|m]; simpl; try reflexivity.
    rewrite IH. destruct (Nat.eqb_spec n m); [|reflexivity].
    destruct (Nat.ltb_spec n (length t)), (Nat.ltb_spec (S n) (S (length t))); try lia; reflexivity.
Qed.

Lemma lenN_upd n v l : lenN (upd n v l) = lenN l.
Proof. unfold lenN; now rewrite length_upd. Qed.

Lemma rd_ok l k : (k < lenN l)%N -> exists a, rd l k = Ok a.
Proof.
  unfold rd, lenN; intros H. destruct (N.ltb_spec k (N.of_nat (length l))); [|lia].
  destruct (nth_error l (N.to_nat k)) eqn:E; [eauto|].
  apply nth_error_None in E; lia.
Qed.

Lemma rd_lt l k a : rd l k = Ok a -> (k < lenN l)%N.
Proof. unfold rd. destruct (N.ltb_spec k (lenN l)); [auto|discriminate]. Qed.

Lemma rd_not_throw l k e : rd l k <> Throw e.
Proof. unfold rd. destruct (N.ltb _ _); [destruct (nth_error _ _)|]; discriminate. Qed.

Lemma wr_ok l k v : (k < lenN l)%N -> wr l k v = Ok (upd (N.to_nat k) v l).
Proof. unfold wr; intros H. destruct (N.ltb_spec k (lenN l)); [reflexivity|lia]. Qed.

Lemma wr_len l k v l' : wr l k v = Ok l' -> lenN l' = lenN l.
Proof.
  unfold wr. destruct (N.ltb k (lenN l)); [|discriminate].
  intros H; injection H as <-. apply lenN_upd.
Qed.

Lemma rd_wr l k v l' m : wr l k v = Ok l' ->
  rd l' m = if N.eqb k m then Ok v else rd l m.
Proof.
  intros H. pose proof (wr_len _ _ _ _ H) as HL. unfold wr in H.
  destruct (N.ltb_spec k (lenN l)) as [Hk|]; [|discriminate]. injection H as <-.
  unfold rd. rewrite HL, nth_error_upd.
  destruct (N.eqb_spec k m) as [->|Hn].
  - rewrite Nat.eqb_refl. destruct (N.ltb_spec m (lenN l)); [|lia].
    destruct (Nat.ltb_spec (N.to_nat m) (length l)); [reflexivity|unfold lenN in *; lia].
  - destruct (Nat.eqb_spec (N.to_nat k) (N.to_nat m)); [lia|reflexivity].
Qed.

Lemma rdn_wrn l k v l' m : wrn l k v = Ok l' ->
  rdn l' m = if Nat.eqb k m then Ok v else rdn l m.
Proof.
  unfold wrn, rdn. destruct (Nat.ltb_spec k (length l)) as [Hk|]; [|discriminate].
  intros H; injection H as <-. rewrite nth_error_upd.
  destruct (Nat.eqb_spec k m); [|reflexivity].
  destruct (Nat.ltb_spec k (length l)); [reflexivity|lia].
Qed.

Lemma wrn_len l k v l' : wrn l k v = Ok l' -> length l' = length l.
Proof.
  unfold wrn. destruct (Nat.ltb _ _); [|discriminate].
  intros H; injection H as <-. apply length_upd.
Qed.

Lemma rdn_ok l k : (k < length l)%nat -> exists a, rdn l k = Ok a.
Proof.
  unfold rdn; intros H. destruct (nth_error l k) eqn:E; [eauto|].
  apply nth_error_None in E; lia.
Qed.

Lemma list_ext (l1 l2 : list A) :
  (forall k, nth_error l1 k = nth_error l2 k) -> l1 = l2.
Proof.
  revert l2; induction l1 as [|x t IH]; intros [|y u] H; auto.
  - specialize (H 0%nat); discriminate.
  - specialize (H 0%nat); discriminate.
  - f_equal; [specialize (H 0%nat); simpl in H; congruence|].
    apply IH; intros k; apply (H (S k)).
Qed.
End ArrayFacts.

Lemma bind_ok {A B} (x : res A) (f : A -> res B) b :
  bind x f = Ok b -> exists a, x = Ok a /\ f a = Ok b.
Proof. destruct x; simpl; intros H; try discriminate; eauto. Qed.

Lemma check_ok chk cond e : check chk cond e = Ok tt <-> (chk = true -> cond = true).
Proof.
  unfold check; destruct chk, cond; simpl; split; intros H; try reflexivity; try discriminate.
  specialize (H eq_refl); discriminate.
Qed.

Lemma check_true chk e : check chk true e = Ok tt.
Proof. unfold check; now rewrite andb_false_r. Qed.
Lemma check_off cond e : check false cond e = Ok tt.
Proof. reflexivity. Qed.

Lemma W_val : W = 18446744073709551616%N.
Proof. reflexivity. Qed.
Lemma wmax_val : wmax = 18446744073709551615%N.
Proof. reflexivity. Qed.
Lemma wrap_small x : (x < W)%N -> wrap x = x.
Proof. apply N.mod_small. Qed.
Lemma wrap_lt x : (wrap x < W)%N.
Proof. apply N.mod_lt; discriminate. Qed.
Lemma addw_small x y : (x + y < W)%N -> addw x y = (x + y)%N.
Proof. apply wrap_small. Qed.
Lemma mulw_small x y : (x * y < W)%N -> mulw x y = (x * y)%N.
Proof. apply wrap_small. Qed.
Lemma subw_small x y : (y <= x)%N -> (x < W)%N -> subw x y = (x - y)%N.
Proof.
  intros H1 H2. unfold subw. rewrite (wrap_small y) by lia.
  unfold wrap. replace (x + (W - y))%N with ((x - y) + 1 * W)%N by lia.
  rewrite N.mod_add by discriminate. apply N.mod_small; lia.
Qed.
Global Opaque W wmax wrap.

(** Counted loop [for (k = 0; k != n; ++ k) s = f (k, s)], stopping at the first exception/UB. *)
Fixpoint iterM {S : Type} (n : nat) (f : nat -> S -> res S) (s : S) : res S :=
  match n with
  | O => Ok s
  | Datatypes.S n' => bind (iterM n' f s) (f n')
  end.

Lemma iterM_inv {S : Type} (P : nat -> S -> Prop) n f s :
  P 0%nat s ->
  (forall k s, (k < n)%nat -> P k s -> exists s', f k s = Ok s' /\ P (Datatypes.S k) s') ->
  exists s', iterM n f s = Ok s' /\ P n s'.
Proof.
  intros H0; induction n as [|n IH]; intros HS; simpl.
  - eauto.
  - destruct IH as (s1 & E1 & P1); [intros; apply HS; auto; lia|].
    rewrite E1; simpl. apply HS; auto; lia.
Qed.

(** Safety variant: the loop may stop with an exception, but never with UB. *)
Lemma iterM_safe {S : Type} (P : nat -> S -> Prop) n f s :
  P 0%nat s ->
  (forall k s, (k < n)%nat -> P k s ->
     match f k s with Ok s' => P (Datatypes.S k) s' | Throw _ => True | UB => False end) ->
  match iterM n f s with Ok s' => P n s' | Throw _ => True | UB => False end.
Proof.
  intros H0; induction n as [|n IH]; intros HS; simpl.
  - auto.
  - assert (H := IH ltac:(intros; apply HS; auto; lia)).
    destruct (iterM n f s) as [s1| |]; simpl; auto. apply HS; auto.
Qed.

(** Monadic fold over a list. *)
Fixpoint foldM {S X : Type} (f : S -> X -> res S) (l : list X) (s : S) : res S :=
  match l with
  | [] => Ok s
  | x :: t => bind (f s x) (foldM f t)
  end.

Global Arguments N.add : simpl never.
Global Arguments N.sub : simpl never.
Global Arguments N.mul : simpl never.
Global Arguments N.div : simpl never.
Global Arguments N.modulo : simpl never.
Global Arguments N.eqb : simpl never.
Global Arguments N.ltb : simpl never.
Global Arguments N.leb : simpl never.
Global Arguments N.max : simpl never.
Global Arguments N.min : simpl never.
