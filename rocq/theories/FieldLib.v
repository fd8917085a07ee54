(** FieldLib.v -- scalar type of the linear-algebra part of the model and finite sums over it.
    No uBLAS code here.  Scalars are an arbitrary commutative field with decidable equality:
    exact arithmetic (std::rational-like value types), not IEEE floating point. *)
From Coq Require Export Field_theory Field Setoid.
From Verif Require Import Base.
Open Scope nat_scope.

(** The operations of a C++ arithmetic value_type that the library uses. *)
Record fops (F : Type) := FOps {
  f0 : F; f1 : F;
  fadd : F -> F -> F; fmul : F -> F -> F; fsub : F -> F -> F; fopp : F -> F;
  fdiv : F -> F -> F; finv : F -> F;
  feqb : F -> F -> bool }.
Arguments FOps {F} _ _ _ _ _ _ _ _ _.
Arguments f0 {F} _. Arguments f1 {F} _. Arguments fadd {F} _ _ _. Arguments fmul {F} _ _ _.
Arguments fsub {F} _ _ _. Arguments fopp {F} _ _. Arguments fdiv {F} _ _ _.
Arguments finv {F} _ _. Arguments feqb {F} _ _ _.

Record is_field {F} (O : fops F) : Prop := {
  is_fth : field_theory (f0 O) (f1 O) (fadd O) (fmul O) (fsub O) (fopp O) (fdiv O) (finv O) (@eq F);
  is_feqb : forall x y, feqb O x y = true <-> x = y }.

(** Sum of f a + ... + f (b-1). *)
Fixpoint sumf {F} (O : fops F) (a len : nat) (f : nat -> F) : F :=
  match len with
  | 0 => f0 O
  | S k => fadd O (f a) (sumf O (S a) k f)
  end.
Definition sumr {F} (O : fops F) (a b : nat) (f : nat -> F) : F := sumf O a (b - a) f.
(** Sum over a list of indices. *)
Fixpoint suml {F} (O : fops F) (l : list nat) (f : nat -> F) : F :=
  match l with [] => f0 O | i :: t => fadd O (f i) (suml O t f) end.

Section Sums.
Variable F : Type.
Variable O : fops F.
Hypothesis HF : is_field O.
Add Field Ff : (is_fth O HF).

Notation "0" := (f0 O). Notation "1" := (f1 O).
Infix "+" := (fadd O). Infix "*" := (fmul O). Infix "-" := (fsub O). Infix "/" := (fdiv O).

Lemma feqb_true x y : feqb O x y = true -> x = y.
Proof. apply (is_feqb O HF). Qed.
Lemma feqb_false x y : feqb O x y = false -> x <> y.
Proof. intros E H. apply (is_feqb O HF) in H. congruence. Qed.
Lemma feqb_refl x : feqb O x x = true.
Proof. now apply (is_feqb O HF). Qed.
Lemma feqb_neq x y : x <> y -> feqb O x y = false.
Proof. intros H. destruct (feqb O x y) eqn:E; [|reflexivity]. now apply feqb_true in E. Qed.
Lemma f1_neq_0 : 1 <> 0.
Proof. exact (F_1_neq_0 (is_fth O HF)). Qed.
Lemma f_dec (x y : F) : {x = y} + {x <> y}.
Proof.
  destruct (feqb O x y) eqn:E; [left; now apply feqb_true|right; now apply feqb_false].
Qed.
Lemma fmul_0_l x : 0 * x = 0. Proof. ring. Qed.
Lemma fmul_0_r x : x * 0 = 0. Proof. ring. Qed.
Lemma fadd_0_l x : 0 + x = x. Proof. ring. Qed.
Lemma fadd_0_r x : x + 0 = x. Proof. ring. Qed.
Lemma fadd_comm x y : x + y = y + x. Proof. ring. Qed.
Lemma fadd_assoc x y z : x + (y + z) = x + y + z. Proof. ring. Qed.
Lemma fmul_comm x y : x * y = y * x. Proof. ring. Qed.
Lemma fmul_assoc x y z : x * (y * z) = x * y * z. Proof. ring. Qed.
Lemma fmul_1_l x : 1 * x = x. Proof. ring. Qed.
Lemma fmul_1_r x : x * 1 = x. Proof. ring. Qed.
Lemma fsub_move x y z : x + y = z -> x = z - y. Proof. intros <-; ring. Qed.
Lemma fadd_cancel_r x y z : x + z = y + z -> x = y.
Proof. intros H. transitivity (x + z - z); [ring|]. rewrite H. ring. Qed.
Lemma fmul_cancel_l a x y : a <> 0 -> a * x = a * y -> x = y.
Proof.
  intros Ha H. transitivity (a * x / a); [field; exact Ha|]. rewrite H. field; exact Ha.
Qed.
Lemma fmul_eq_0 a x : a <> 0 -> a * x = 0 -> x = 0.
Proof. intros Ha H. apply (fmul_cancel_l a); [exact Ha|]. rewrite H. ring. Qed.
Lemma fdiv_mul a x : a <> 0 -> a * (x / a) = x.
Proof. intros Ha. field; exact Ha. Qed.

Lemma scaled_identity1 u sc ss : u <> 0 ->
  u * u * (ss * (sc / u) * (sc / u) + 1) = sc * sc * ss + u * u.
Proof. intros H. field. exact H. Qed.
Lemma scaled_identity2 u sc ss : sc <> 0 ->
  sc * sc * (ss + u / sc * (u / sc)) = sc * sc * ss + u * u.
Proof. intros H. field. exact H. Qed.

Lemma sumf_ext a n f g : (forall i, a <= i < Nat.add a n -> f i = g i) -> sumf O a n f = sumf O a n g.
Proof.
  revert a; induction n as [|n IH]; intros a H; cbn; [reflexivity|].
  rewrite (H a) by lia. f_equal. apply IH. intros i Hi. apply H. lia.
Qed.
Lemma sumf_0 a n f : (forall i, a <= i < Nat.add a n -> f i = 0) -> sumf O a n f = 0.
Proof.
  revert a; induction n as [|n IH]; intros a H; cbn; [reflexivity|].
  rewrite (H a), (IH (S a)) by (intros; try apply H; lia). ring.
Qed.
Lemma sumf_add a n f g : sumf O a n (fun i => f i + g i) = sumf O a n f + sumf O a n g.
Proof. revert a; induction n as [|n IH]; intros a; cbn; [ring|]. rewrite IH; ring. Qed.
Lemma sumf_sub a n f g : sumf O a n (fun i => f i - g i) = sumf O a n f - sumf O a n g.
Proof. revert a; induction n as [|n IH]; intros a; cbn; [ring|]. rewrite IH; ring. Qed.
Lemma sumf_mul_l a n c f : sumf O a n (fun i => c * f i) = c * sumf O a n f.
Proof. revert a; induction n as [|n IH]; intros a; cbn; [ring|]. rewrite IH; ring. Qed.
Lemma sumf_mul_r a n c f : sumf O a n (fun i => f i * c) = sumf O a n f * c.
Proof. revert a; induction n as [|n IH]; intros a; cbn; [ring|]. rewrite IH; ring. Qed.
Lemma sumf_app a n m f : sumf O a (n + m) f = sumf O a n f + sumf O (a + n) m f.
Proof.
  revert a; induction n as [|n IH]; intros a; cbn.
  - rewrite Nat.add_0_r; ring.
  - rewrite IH. replace (S a + n)%nat with (a + S n)%nat by lia. ring.
Qed.
Lemma sumf_swap a n b m f :
  sumf O a n (fun i => sumf O b m (fun j => f i j)) = sumf O b m (fun j => sumf O a n (fun i => f i j)).
Proof.
  revert a; induction n as [|n IH]; intros a; cbn.
  - symmetry. apply sumf_0. reflexivity.
  - rewrite IH. rewrite <- sumf_add. reflexivity.
Qed.

Lemma sumr_ext a b f g : (forall i, a <= i < b -> f i = g i) -> sumr O a b f = sumr O a b g.
Proof. intros H. apply sumf_ext. intros i Hi. apply H. lia. Qed.
Lemma sumr_0 a b f : (forall i, a <= i < b -> f i = 0) -> sumr O a b f = 0.
Proof. intros H. apply sumf_0. intros i Hi. apply H. lia. Qed.
Lemma sumr_add a b f g : sumr O a b (fun i => f i + g i) = sumr O a b f + sumr O a b g.
Proof. apply sumf_add. Qed.
Lemma sumr_sub a b f g : sumr O a b (fun i => f i - g i) = sumr O a b f - sumr O a b g.
Proof. apply sumf_sub. Qed.
Lemma sumr_mul_l a b c f : sumr O a b (fun i => c * f i) = c * sumr O a b f.
Proof. apply sumf_mul_l. Qed.
Lemma sumr_mul_r a b c f : sumr O a b (fun i => f i * c) = sumr O a b f * c.
Proof. apply sumf_mul_r. Qed.
Lemma sumr_swap a b c d f :
  sumr O a b (fun i => sumr O c d (fun j => f i j)) = sumr O c d (fun j => sumr O a b (fun i => f i j)).
Proof. apply sumf_swap. Qed.
Lemma sumr_empty a b f : b <= a -> sumr O a b f = 0.
Proof. intros H. unfold sumr. now replace (b - a)%nat with 0%nat by lia. Qed.
Lemma sumr_split a b c f : a <= b -> b <= c -> sumr O a c f = sumr O a b f + sumr O b c f.
Proof.
  intros H1 H2. unfold sumr. replace (c - a)%nat with ((b - a) + (c - b))%nat by lia.
  rewrite sumf_app. now replace (a + (b - a))%nat with b by lia.
Qed.
Lemma sumr_first a b f : (a < b)%nat -> sumr O a b f = f a + sumr O (S a) b f.
Proof.
  intros H. unfold sumr. replace (b - a)%nat with (S (b - S a)) by lia. reflexivity.
Qed.
Lemma sumr_one a f : sumr O a (S a) f = f a.
Proof. rewrite sumr_first by lia. rewrite sumr_empty by lia. ring. Qed.
Lemma sumr_last a b f : (a <= b)%nat -> sumr O a (S b) f = sumr O a b f + f b.
Proof. intros H. rewrite (sumr_split a b (S b)) by lia. now rewrite sumr_one. Qed.
(** Only one term differs from zero. *)
Lemma sumr_single a b k f : (a <= k < b)%nat ->
  (forall i, a <= i < b -> i <> k -> f i = 0) -> sumr O a b f = f k.
Proof.
  intros Hk H. rewrite (sumr_split a k b) by lia. rewrite (sumr_first k b) by lia.
  rewrite (sumr_0 a k), (sumr_0 (S k) b) by (intros; apply H; lia). ring.
Qed.

Lemma suml_seq a n f : suml O (seq a n) f = sumf O a n f.
Proof. revert a; induction n as [|n IH]; intros a; cbn; [reflexivity|]. now rewrite IH. Qed.
Lemma suml_ext l f g : (forall i, In i l -> f i = g i) -> suml O l f = suml O l g.
Proof.
  induction l as [|x l IH]; cbn; intros H; [reflexivity|].
  rewrite (H x) by auto. f_equal. apply IH. auto.
Qed.
Lemma suml_app l1 l2 f : suml O (l1 ++ l2) f = suml O l1 f + suml O l2 f.
Proof. induction l1 as [|x l IH]; cbn; [ring|]. rewrite IH; ring. Qed.
Lemma suml_rev l f : suml O (rev l) f = suml O l f.
Proof. induction l as [|x l IH]; cbn; [reflexivity|]. rewrite suml_app, IH; cbn. ring. Qed.
Lemma suml_filter l p f : (forall i, In i l -> p i = false -> f i = 0) ->
  suml O (filter p l) f = suml O l f.
Proof.
  induction l as [|x l IH]; cbn; intros H; [reflexivity|].
  destruct (p x) eqn:E; cbn; rewrite IH by auto; [reflexivity|].
  rewrite (H x) by auto. ring.
Qed.
Lemma suml_sumr a b p f : (forall i, a <= i < b -> p i = false -> f i = 0) ->
  suml O (filter p (seq a (b - a))) f = sumr O a b f.
Proof.
  intros H. rewrite suml_filter; [apply suml_seq|].
  intros i Hi. apply in_seq in Hi. apply H. lia.
Qed.
End Sums.
