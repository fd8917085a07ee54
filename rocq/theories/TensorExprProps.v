(** TensorExprProps.v -- the theorems about tensor comparison (C42), element-wise tensor expressions
    (C43) and reshape (C44).  Vocabulary as in TensorProps.v.  For an expression x,
    [all_leaves P x] / [some_leaf P x] say that every / some tensor of x (with its C++ type) satisfies
    P, and [value d lhs x i] is the ordinary element-wise value of x at the multi-index i, [TSelf]
    standing for the assigned tensor lhs. *)
From Verif Require Import Base TensorModel TensorSpec TensorProofs TensorNest TensorKernels
  TensorMult TensorApi TensorApiProofs TensorApiProofs2 TensorApiProofs3 TensorApiProofs4
  TensorProps.
From Coq Require Import Permutation.
Open Scope nat_scope.

(** * C42: comparison *)

(** a == b, for dynamic-rank tensors of one layout: true exactly when the shapes are equal and all
    elements are equal. *)
Theorem C42_equality : forall (V : Type) (eqb : V -> V -> bool) (L : tlayout) (ea eb : list nat) (a b : tensor V),
  is_tensor L ea a -> is_tensor L eb b -> (N.of_nat (elements ea) < 2 ^ 32)%N ->
  exists r, tensor_eq DynamicRank eqb a b = Ok r /\
    (r = true <-> ea = eb /\ forall i x y, in_range ea i -> tensor_at a i = Ok x -> tensor_at b i = Ok y ->
                                      eqb x y = true).
Proof.
  intros V eqb L ea eb a b Ha Hb H32.
  destruct (is_tensor_inv _ _ _ Ha) as (Ea & _). destruct (is_tensor_inv _ _ _ Hb) as (Eb & _).
  destruct (list_eq_dec Nat.eq_dec ea eb) as [Heq|Hne].
  - assert (Hb' : is_tensor L ea b) by now rewrite Heq.
    destruct (compare_same_shape DynamicRank true eqb L ea a b false Ha Hb' H32) as (r & E & R).
    exists r. split; [exact E|]. rewrite R. split; [intros H; split; assumption|intros (_ & H); exact H].
  - exists false. split.
    + unfold tensor_eq. rewrite compare_shapes; [reflexivity|congruence].
    + split; [discriminate|]. intros (H & _). contradiction.
Qed.
(** a < b and the other relational operators: all elements are related; different shapes throw. *)
Theorem C42_relational : forall (V : Type) (pred : V -> V -> bool) (strict : bool) (L : tlayout)
    (ea eb : list nat) (a b : tensor V),
  is_tensor L ea a -> is_tensor L eb b -> (N.of_nat (elements ea) < 2 ^ 32)%N ->
  (ea = eb -> exists r, compare DynamicRank false strict pred a b = Ok r /\
     (r = true <-> forall i x y, in_range ea i -> tensor_at a i = Ok x -> tensor_at b i = Ok y ->
                                 pred x y = true)) /\
  (ea <> eb -> compare DynamicRank false strict pred a b = Throw std_runtime_error).
Proof.
  intros V pred strict L ea eb a b Ha Hb H32.
  destruct (is_tensor_inv _ _ _ Ha) as (Ea & _). destruct (is_tensor_inv _ _ _ Hb) as (Eb & _).
  split.
  - intros Heq. assert (Hb' : is_tensor L ea b) by now rewrite Heq.
    exact (compare_same_shape DynamicRank false pred L ea a b strict Ha Hb' H32).
  - intros Hne. rewrite compare_shapes; [reflexivity|congruence].
Qed.
(** a != b is not the negation of a == b: it holds only if all elements differ, and not at all if
    the shapes differ. *)
Definition r12 : tensor Z := Tensor [1; 2] [1; 1] [1; 2]%Z.
Definition r13 : tensor Z := Tensor [1; 2] [1; 1] [1; 3]%Z.
Lemma r12_is : is_tensor FirstOrder [1; 2] r12.
Proof. repeat split; try discriminate; try reflexivity. repeat constructor. Qed.
Lemma r13_is : is_tensor FirstOrder [1; 2] r13.
Proof. repeat split; try discriminate; try reflexivity. repeat constructor. Qed.
Theorem C42_inequality_refuted :
  (exists (e : list nat) (a b : tensor Z), is_tensor FirstOrder e a /\ is_tensor FirstOrder e b /\
     tensor_eq DynamicRank Z.eqb a b = Ok false /\ tensor_ne DynamicRank Z.eqb a b = Ok false) /\
  (exists (ea eb : list nat) (a b : tensor Z), is_tensor FirstOrder ea a /\ is_tensor FirstOrder eb b /\ ea <> eb /\
     tensor_eq DynamicRank Z.eqb a b = Ok false /\ tensor_ne DynamicRank Z.eqb a b = Ok false).
Proof.
  split.
  - exists [1; 2], r12, r13. split; [apply r12_is|]. split; [apply r13_is|]. split; reflexivity.
  - exists [1; 2], [2; 2], r12, t22. split; [apply r12_is|]. split; [apply t22_is|].
    split; [discriminate|]. split; reflexivity.
Qed.
(** Two tensors of equal shape and different layout are compared by linear position: equal elements
    do not mean equal tensors. *)
Theorem C42_different_layouts_refuted :
  exists (e : list nat) (a b : tensor Z), is_tensor FirstOrder e a /\ is_tensor LastOrder e b /\
    (forall i, in_range e i -> tensor_at a i = tensor_at b i) /\
    tensor_eq DynamicRank Z.eqb a b = Ok false.
Proof.
  exists [2; 2], t22, (Tensor [2; 2] [2; 1] [1; 3; 2; 4]%Z). split; [apply t22_is|].
  split; [repeat split; try discriminate; try reflexivity; repeat constructor|].
  split; [|reflexivity]. intros i Hi. inversion Hi as [|x ? i1 ? Hx H1]; subst.
  inversion H1 as [|y ? i2 ? Hy H2]; subst. inversion H2; subst.
  destruct x as [|[|x]]; [| |lia]; (destruct y as [|[|y]]; [| |lia]); reflexivity.
Qed.
(** For static rank operator!= of the extents is constantly false: tensors of different shape are
    compared element by element -- accepted as equal, or read out of bounds. *)
Theorem C42_static_rank_shapes_refuted :
  (exists (ea eb : list nat) (a b : tensor Z), is_tensor FirstOrder ea a /\ is_tensor FirstOrder eb b /\ ea <> eb /\
     tensor_eq StaticRank Z.eqb a b = Ok true) /\
  (exists (ea eb : list nat) (a b : tensor Z), is_tensor FirstOrder ea a /\ is_tensor FirstOrder eb b /\ ea <> eb /\
     tensor_eq StaticRank Z.eqb a b = UB).
Proof.
  split.
  - exists [1; 2], [2; 1], r12, (Tensor [2; 1] [1; 1] [1; 2]%Z). split; [apply r12_is|].
    split; [repeat split; try discriminate; try reflexivity; repeat constructor|].
    split; [discriminate|reflexivity].
  - exists [2; 2], [1; 2], t22, (Tensor [1; 2] [1; 1] [1; 2]%Z). split; [apply t22_is|].
    split; [repeat split; try discriminate; try reflexivity; repeat constructor|].
    split; [discriminate|reflexivity].
Qed.
Example ex_C42 : tensor_eq DynamicRank Z.eqb t22 t22 = Ok true /\
  compare DynamicRank false true Z.ltb r12 r13 = Ok false /\
  compare DynamicRank false false Z.leb r12 r13 = Ok true /\
  compare DynamicRank false true Z.ltb r12 t22 = Throw std_runtime_error.
Proof. repeat split; reflexivity. Qed.

(** * C43: element-wise expressions *)

(** t = e, t += e, ...: with all tensors of the expression of the type and shape of t, every element
    becomes fn (old t(i)) (value of e at i), whatever the order in which the (parallel) iterations
    run and even if t occurs in e. *)
Theorem C43_expression_assignment : forall (V : Type) (d : V) (L : tlayout) (e : list nat) (self : nat)
    (fn : V -> V -> V) (order : list nat) (lhs : tensor V) (x : @texpr V),
  is_tensor L e lhs -> all_leaves (fun ty t => ty = self /\ is_tensor L e t) x ->
  (N.of_nat (elements e) < 2 ^ 32)%N -> Permutation order (seq 0 (elements e)) ->
  exists r, eval self fn order lhs x = Ok r /\ is_tensor L e r /\
    (forall i, in_range e i -> tensor_at r i = Ok (fn (elt d lhs i) (value d lhs x i))).
Proof. intros V d L e self fn order lhs x. apply eval_ok. Qed.
(** A tensor of another shape anywhere in the expression throws (and so leaves t unchanged). *)
Theorem C43_shape_mismatch_throws : forall (V : Type) (L : tlayout) (e : list nat) (self : nat)
    (fn : V -> V -> V) (order : list nat) (lhs : tensor V) (x : @texpr V),
  is_tensor L e lhs -> all_leaves (fun ty _ => ty = self) x ->
  some_leaf (fun _ t => t_ext t <> e) x ->
  eval self fn order lhs x = Throw std_runtime_error.
Proof. intros V L e self fn order lhs x. apply eval_mismatch. Qed.
(** Mixing layouts in an expression combines elements of different multi-indices. *)
Definition u22 : tensor Z := Tensor [2; 2] [2; 1] [10; 20; 30; 40]%Z.
Lemma u22_is : is_tensor LastOrder [2; 2] u22.
Proof. repeat split; try discriminate; try reflexivity. repeat constructor. Qed.
Theorem C43_mixed_layouts_refuted :
  exists (a b r : tensor Z) (x : @texpr Z), is_tensor FirstOrder [2; 2] a /\ is_tensor LastOrder [2; 2] b /\
    mk_bin 0 [2; 2] Z.add (TLeaf 0 a) (TLeaf 1 b) = Ok x /\
    eval 0 (fun _ v => v) (seq 0 4) a x = Ok r /\
    tensor_at a [1; 0] = Ok 2%Z /\ tensor_at b [1; 0] = Ok 30%Z /\ tensor_at r [1; 0] = Ok 22%Z.
Proof.
  exists t22, u22, (Tensor [2; 2] [1; 2] [11; 22; 33; 44]%Z), (TBin Z.add (TLeaf 0 t22) (TLeaf 1 u22)).
  split; [apply t22_is|]. split; [apply u22_is|]. repeat split; reflexivity.
Qed.
(** With tensors of two types the shape check looks at one extent of the right operand and, at
    evaluation, only at the left type: a + (b1 + b2) with a mismatched b2 is accepted and reads out
    of bounds. *)
Theorem C43_mixed_types_unchecked_refuted :
  exists (a b1 b2 : tensor Z) (x : @texpr Z),
    is_tensor FirstOrder [2; 2] a /\ is_tensor LastOrder [2; 2] b1 /\ is_tensor LastOrder [1; 1] b2 /\
    mk_bin 0 [2; 2] Z.add (TLeaf 0 a) (TBin Z.add (TLeaf 1 b1) (TLeaf 1 b2)) = Ok x /\
    eval 0 (fun _ v => v) (seq 0 4) a x = UB.
Proof.
  exists t22, u22, (Tensor [1; 1] [1; 1] [5]%Z). eexists. split; [apply t22_is|]. split; [apply u22_is|].
  split; [repeat split; try discriminate; try reflexivity; repeat constructor|].
  split; reflexivity.
Qed.
Example ex_C43 : let x := TBin Z.add (TUn Z.opp (TLeaf 0 t22)) (TBin Z.mul TSelf (TLeaf 0 t22)) in
  all_leaves (fun ty t => ty = 0 /\ is_tensor FirstOrder [2; 2] t) x /\
  Permutation [2; 0; 3; 1] (seq 0 (elements [2; 2])) /\
  eval 0 Z.add [2; 0; 3; 1] t22 x = Ok (Tensor [2; 2] [1; 2] [1; 4; 9; 16]%Z) /\
  eval 0 Z.add [2; 0; 3; 1] t22 (TBin Z.add x (TLeaf 0 r12)) = Throw std_runtime_error.
Proof.
  intros x. split; [cbn; repeat split; try discriminate; try reflexivity; repeat constructor|].
  split; [|split; reflexivity].
  apply (Permutation_trans (l' := [0; 2; 3; 1])); [constructor|]. constructor.
  apply (Permutation_trans (l' := [2; 1; 3])); [constructor; constructor|]. constructor.
Qed.

(** * C44: reshape *)

(** reshape keeps the elements in linear order, drops those beyond the new size, fills with v. *)
Theorem C44_reshape : forall (V : Type) (O : tops V) (L : tlayout) (e0 e : list nat) (t : tensor V) (v : V),
  is_tensor L e0 t -> e <> [] -> valid e -> (N.of_nat (elements e) < W)%N ->
  exists r, reshape O L t e v = Ok r /\ is_tensor L e r /\
    (forall k, k < elements e -> tensor_lin r k = if k <? elements e0 then tensor_lin t k else Ok v).
Proof. intros V O L e0 e t v. apply reshape_ok. Qed.
(** Hence reshaping to a shape of the same or a larger size and back is the identity. *)
Theorem C44_reshape_back : forall (V : Type) (O : tops V) (L : tlayout) (e0 e : list nat) (t : tensor V) (v w : V),
  is_tensor L e0 t -> e <> [] -> valid e -> (N.of_nat (elements e) < W)%N -> elements e0 <= elements e ->
  exists r, reshape O L t e v = Ok r /\ reshape O L r e0 w = Ok t.
Proof.
  intros V O L e0 e t v w Ht He Hv HW Hle.
  destruct (reshape_ok O L e0 e t v Ht He Hv HW) as (r & E & Hr & R).
  exists r. split; [assumption|]. pose proof Ht as (He0 & Hv0 & HW0 & _).
  destruct (reshape_ok O L e e0 r w Hr He0 Hv0 HW0) as (s & E' & Hs & R').
  rewrite E'. destruct (is_tensor_inv _ _ _ Hs) as (Es & _ & _ & Ls).
  destruct (is_tensor_inv _ _ _ Ht) as (Et & _ & _ & Lt).
  assert (B : t_buf s = t_buf t).
  { apply list_ext. intros k. destruct (lt_dec k (elements e0)) as [H|H].
    - specialize (R' k H). rewrite (proj2 (Nat.ltb_lt _ _)) in R' by lia. rewrite R in R' by lia.
      rewrite (proj2 (Nat.ltb_lt _ _)) in R' by lia. unfold tensor_lin, rdn in R'.
      destruct (nth_error (t_buf s) k), (nth_error (t_buf t) k); congruence.
    - rewrite !(proj2 (nth_error_None _ _)) by lia. reflexivity. }
  destruct Hs as (_ & _ & _ & Ms). destruct Ht as (_ & _ & _ & Mt). rewrite B in Ms. congruence.
Qed.
Example ex_C44 : reshape ZT FirstOrder t22 [3; 2] 9%Z = Ok (Tensor [3; 2] [1; 3] [1; 2; 3; 4; 9; 9]%Z) /\
  reshape ZT FirstOrder t22 [1; 3] 9%Z = Ok (Tensor [1; 3] [1; 1] [1; 2; 3]%Z).
Proof. split; reflexivity. Qed.
